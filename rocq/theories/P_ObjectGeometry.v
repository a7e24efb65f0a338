(** Property C08 for whole objects: the geometry a model uses is that of its sections at its depths; ends of ellipses. *)
From Coq Require Import ZArith.
From Verif Require Import Prelude M_Numerics M_Coeffs M_Recurrence M_Assembly M_Step M_Geometry M_Storage M_Controls M_Simulation M_Model
  S_Numerics S_Geometry S_Superlink S_Network S_Step S_Simulation S_Model S_Replay P_Geometry P_Assembly P_Superlink P_Step P_Limits P_Simulation L_Step
  L_Model L_Gauss P_Model P_Replay L_Relate P_Resume P_Object.

Section Histories.
Variable D : design.
Variable slv : mat -> arr -> option arr.
Local Notation N := (d_net D).

(** ** What passes and loads preserve, histories preserve *)
Section Invariant.
Variable P : body -> Prop.
Hypothesis Hpass : forall i dt sv b b1 b2, P b -> setup_body D i dt sv b = Some b1 -> solve_body D slv i dt b1 = Some b2 -> P b2.
Hypothesis Hload : forall v b b', P b -> load_body D v b = Some b' -> P b'.

Lemma pass_keeps i dt fi (m m1 m2 : object) : P (m_body m) ->
  setup_step' body saved inputs save_body (fun _ i dt v => setup_body D i dt (v_st v)) fi i dt m = Some m1 ->
  solve_step' body saved inputs (fun i dt _ => solve_body D slv i dt) i dt m1 = Some m2 -> P (m_body m2).
Proof.
  intros Pm E1 E2. unfold setup_step' in E1. set (m0 := if fi then save_state body saved save_body m else m) in *.
  assert (B0 : m_body m0 = m_body m) by (unfold m0; destruct fi; reflexivity).
  destruct (setup_body D i dt (v_st (snd (m_saved m0))) (m_body m0)) as [b1|] eqn:Eb; [|discriminate]. cbn [bind] in E1. injection E1 as <-.
  unfold solve_step' in E2. cbn [m_body m_saved m_t m_ic] in E2.
  destruct (solve_body D slv i dt b1) as [b2|] eqn:Es; [|discriminate]. cbn [bind] in E2. injection E2 as <-. cbn [m_body].
  rewrite B0 in Eb. eapply Hpass; eauto.
Qed.

Lemma iterate_keeps n : forall i dt tol H (m : object) r, P (m_body m) ->
  iterate body saved inputs save_body (fun _ i dt v => setup_body D i dt (v_st v)) (fun i dt _ => solve_body D slv i dt)
       heads_of (n_M N) n i dt tol H m = Some r -> P (m_body (fst r)).
Proof.
  induction n as [|n IH]; intros i dt tol H m r Pm E; cbn [iterate] in E; [injection E as <-; auto|].
  set (n0 := mkModel (m_t m - dt) (m_ic m - 1)%Z (m_body m) (m_saved m)) in *. cbv zeta in E.
  destruct (setup_step' _ _ _ _ _ _ _ _ n0) as [m1|] eqn:E1; [|discriminate]. cbn [bind] in E.
  destruct (solve_step' _ _ _ _ _ _ m1) as [m2|] eqn:E2; [|discriminate]. cbn [bind] in E.
  pose proof (pass_keeps i dt false n0 m1 m2 Pm E1 E2) as S2.
  destruct (all_below _ _ _ _); [injection E as <-; auto|].
  destruct (iterate _ _ _ _ _ _ _ _ n _ _ _ _ m2) as [q|] eqn:E3; [|discriminate]. cbn [bind] in E. injection E as <-. cbn [fst]. eapply IH; eauto.
Qed.

Lemma load_keeps s (m m' : object) : P (m_body m) -> object_load D s m = Some m' -> P (m_body m').
Proof.
  intros Pm E. unfold object_load, load_state in E. destruct (load_body D (snd s) (m_body m)) as [b|] eqn:L; [|discriminate].
  cbn [bind] in E. injection E as <-. cbn [m_body]. eapply Hload; eauto.
Qed.

Lemma step_keeps i dt n tol (m m' : object) p : P (m_body m) -> object_step D slv i dt n tol m = Some (m', p) -> P (m_body m').
Proof.
  intros Pm ES. unfold object_step, step in ES.
  destruct (setup_step' _ _ _ _ _ _ _ _ m) as [m1|] eqn:E1; [|discriminate]. cbn [bind] in ES.
  destruct (solve_step' _ _ _ _ _ _ m1) as [m2|] eqn:E2; [|discriminate]. cbn [bind] in ES.
  pose proof (pass_keeps i dt true m m1 m2 Pm E1 E2) as S2.
  destruct (Nat.ltb 0 (n - 1)); [|injection ES as <- _; auto].
  destruct (all_below _ _ _ _); [injection ES as <- _; auto|].
  destruct (iterate _ _ _ _ _ _ _ _ (n - 1) _ _ _ _ m2) as [q|] eqn:E3; [|discriminate]. cbn [bind] in ES. injection ES as <- _.
  eapply iterate_keeps; eauto.
Qed.

Lemma history_keeps l : forall m m' : object, P (m_body m) -> perform_all D slv l m = Some m' -> P (m_body m').
Proof.
  induction l as [|a l IH]; intros m m' Pm E; cbn [perform_all] in E; [injection E as <-; auto|].
  destruct (perform D slv a m) as [m1|] eqn:E1; [|discriminate]. cbn [bind] in E. apply (IH m1); auto. clear E IH.
  destruct a as [i dt n tol| |t v|]; cbn [perform] in E1.
  - destruct (object_step D slv i dt n tol m) as [[r p]|] eqn:ES; [|discriminate]. cbn [bind fst] in E1. injection E1 as <-. eapply step_keeps; eauto.
  - injection E1 as <-. exact Pm.
  - eapply load_keeps; eauto.
  - eapply load_keeps; eauto.
Qed.
End Invariant.

(** ** Links *)

(** Geometry [gm] of a link of section [c] with depths h0, h1 at its ends. *)
Definition fits (c : xsection) (h0 h1 : R) (gm : geom) : Prop :=
  match c with
  | Regular s =>
      (shape s <> 7%nat -> wetted_perimeter s (depth_in s h0 h1) (gm_Pe gm)) /\
      (shape s = 7%nat -> gm_Pe gm = d_ell D h0 h1 (g1 s) (g2 s)) /\
      (0 < gm_Pe gm -> gm_R gm * gm_Pe gm = gm_A gm) /\ 0 <= gm_R gm
  | Irregular zs As Bs Pes Rs =>
      interpolate_sample ((h0 + h1) / 2) zs Pes 1 = Some (gm_Pe gm) /\ interpolate_sample ((h0 + h1) / 2) zs Rs 1 = Some (gm_R gm)
  end.
Definition usual (c : xsection) : Prop :=
  match c with
  | Regular s => dims_ok s /\ (shape s = 7%nat -> forall h0 h1, 0 <= d_ell D h0 h1 (g1 s) (g2 s))
  | Irregular _ _ _ _ _ => True
  end.

Lemma section_fits c h0 h1 old gm : usual c -> 0 <= gm_Pe old ->
  section_geometry c h0 h1 (with_perimeter c (d_ell D) h0 h1 old) = Some gm -> fits c h0 h1 gm /\ (forall s, c = Regular s -> 0 <= gm_Pe gm).
Proof.
  destruct c as [s|zs As Bs Pes Rs]; cbn [usual section_geometry with_perimeter fits].
  - intros (Hd & He) Hp E. set (old' := if Nat.eqb (shape s) 7 then _ else old) in E.
    assert (Hp' : 0 <= gm_Pe old').
    { unfold old'. destruct (Nat.eqb_spec (shape s) 7); [apply He; auto|exact Hp]. }
    destruct (C08_perimeter_and_radius s h0 h1 old' Hd Hp') as (gm' & E' & P1 & P2 & P3 & P4 & _). rewrite E in E'. injection E' as <-.
    split; [|intros; exact P1]. split; [intros _; exact P3|]. split; [|split; [|exact P2]].
    + intros S7. unfold hydraulic_geometry in E. rewrite S7 in E.
      destruct (Elliptical_A_ik h0 h1 (g1 s) (g2 s)); [|discriminate]. cbn [bind] in E.
      destruct (Elliptical_B_ik h0 h1 (g1 s) (g2 s)); [|discriminate]. cbn [bind] in E. injection E as <-. cbn [gm_Pe]. unfold old'. rewrite S7. reflexivity.
    + intros Hpos. destruct (Nat.eq_dec (shape s) 7) as [S7|S7]; [|auto]. unfold hydraulic_geometry in E. rewrite S7 in E.
      destruct (Elliptical_A_ik h0 h1 (g1 s) (g2 s)); [|discriminate]. cbn [bind] in E.
      destruct (Elliptical_B_ik h0 h1 (g1 s) (g2 s)); [|discriminate]. cbn [bind] in E. injection E as <-. cbn [gm_Pe gm_R gm_A] in *. unfold R_ik.
      destruct (Rltb_spec 0 (gm_Pe old')); [|contradiction]. field. lra.
  - intros _ _ E. split; [|discriminate].
    destruct (interpolate_sample _ zs As 1); [|discriminate]. cbn [bind] in E. destruct (interpolate_sample _ zs Bs 1); [|discriminate]. cbn [bind] in E.
    destruct (interpolate_sample _ zs Pes 1); [|discriminate]. cbn [bind] in E. destruct (interpolate_sample _ zs Rs 1); [|discriminate]. cbn [bind] in E.
    injection E as <-. split; reflexivity.
Qed.

Definition perimeters_ok (b : body) : Prop := forall i s, (i < n_L N)%nat -> d_sec D i = Regular s -> 0 <= gm_Pe (b_gl b i).
Definition links_fit (st : hstate) (gl : nat -> geom) : Prop :=
  forall i, (i < n_L N)%nat -> fits (d_sec D i) (h_h st (d_Ik D i)) (h_h st (d_Ik D i + 1)%nat) (gl i).

Lemma geometries_fit b b' : (forall i, (i < n_L N)%nat -> usual (d_sec D i)) -> perimeters_ok b -> geometries D b = Some b' ->
  links_fit (b_st b) (b_gl b') /\ perimeters_ok b'.
Proof.
  intros Hu Hp E. destruct (geometries_inv D b b' E) as (El & _). unfold link_geometry in El.
  assert (X : forall i, (i < n_L N)%nat -> fits (d_sec D i) (h_h (b_st b) (d_Ik D i)) (h_h (b_st b) (d_Ik D i + 1)%nat) (b_gl b' i) /\
                                (forall s, d_sec D i = Regular s -> 0 <= gm_Pe (b_gl b' i))).
  { intros i Hi. pose proof (all_entries_spec _ _ _ _ El i Hi) as S. cbv beta zeta in S. specialize (Hu i Hi).
    destruct (d_sec D i) as [s|] eqn:Ec.
    - eapply section_fits; eauto.
    - cbn [with_perimeter] in S. split; [|discriminate]. cbn [section_geometry fits] in *.
      destruct (interpolate_sample _ zs As 1); [|discriminate]. cbn [bind] in S. destruct (interpolate_sample _ zs Bs 1); [|discriminate]. cbn [bind] in S.
      destruct (interpolate_sample _ zs Pes 1); [|discriminate]. cbn [bind] in S. destruct (interpolate_sample _ zs Rs 1); [|discriminate]. cbn [bind] in S.
      injection S as <-. split; reflexivity. }
  split; [intros i Hi; apply X; auto|]. intros i s Hi Ec. exact (proj2 (X i Hi) s Ec).
Qed.

Lemma pass_geometry i dt sv b b1 b2 : (forall i, (i < n_L N)%nat -> usual (d_sec D i)) -> perimeters_ok b ->
  setup_body D i dt sv b = Some b1 -> solve_body D slv i dt b1 = Some b2 -> links_fit (b_st b) (b_gl b2) /\ perimeters_ok b2.
Proof.
  intros Hu Hp E1 E2. destruct (setup_body_inv D _ _ _ _ _ E1) as (bg & Vs & Ao & u & Eg & _ & _ & _ & Eq). unfold controls_of in Eq.
  unfold solve_body in E2. destruct (slv _ _) as [H|]; [|discriminate]. cbn [bind] in E2. injection E2 as <-. rewrite Eq.
  unfold perimeters_ok. cbn [b_gl]. exact (geometries_fit b bg Hu Hp Eg).
Qed.

(** C08: after every history, a step of one pass leaves on every link the perimeter and hydraulic radius of its section at the
    depths before the step, and loading a state leaves those at the loaded depths.  For ellipses this is the perimeter
    function of the elliptic integral. *)
Theorem C08_links_of_a_model : forall (m m1 : object) history,
  (forall i, (i < n_L N)%nat -> usual (d_sec D i)) -> perimeters_ok (m_body m) -> perform_all D slv history m = Some m1 ->
  (forall i dt n tol m2 p, object_step D slv i dt n tol m1 = Some (m2, p) -> (n <= 1)%nat -> links_fit (b_st (m_body m1)) (b_gl (m_body m2))) /\
  (forall t v m2, object_load D (t, v) m1 = Some m2 -> links_fit (b_st (m_body m2)) (b_gl (m_body m2))).
Proof.
  intros m m1 history Hu Hm E.
  assert (Lo : forall v b b', perimeters_ok b -> load_body D v b = Some b' -> links_fit (b_st b') (b_gl b') /\ perimeters_ok b').
  { intros v b b' Hb EL. unfold load_body in EL. destruct (geometries_inv D _ _ EL) as (_ & _ & _ & _ & S & _). rewrite S.
    apply (geometries_fit (restore D v b) b' Hu); auto. }
  assert (H1 : perimeters_ok (m_body m1)).
  { apply (history_keeps perimeters_ok) with (l := history) (m := m); auto.
    - intros. eapply pass_geometry; eauto.
    - intros. eapply Lo; eauto. }
  split.
  - intros i dt n tol m2 p ES Hn. unfold object_step, step in ES.
    destruct (setup_step' _ _ _ _ _ _ _ _ m1) as [k1|] eqn:E1; [|discriminate]. cbn [bind] in ES.
    destruct (solve_step' _ _ _ _ _ _ k1) as [k2|] eqn:E2; [|discriminate]. cbn [bind] in ES.
    assert (B : Nat.ltb 0 (n - 1) = false) by (apply Nat.ltb_ge; lia). rewrite B in ES. injection ES as <- _.
    unfold setup_step' in E1. cbn [save_state m_saved m_body m_t m_ic] in E1.
    destruct (setup_body D i dt _ (m_body m1)) as [b1|] eqn:Eb; [|discriminate]. cbn [bind] in E1. injection E1 as <-.
    unfold solve_step' in E2. cbn [m_body m_saved m_t m_ic] in E2.
    destruct (solve_body D slv i dt b1) as [b2|] eqn:Es; [|discriminate]. cbn [bind] in E2. injection E2 as <-. cbn [m_body].
    eapply pass_geometry; eauto.
  - intros t v m2 EL. unfold object_load, load_state in EL. cbn [snd fst] in EL. destruct (load_body D v (m_body m1)) as [b|] eqn:L; [|discriminate].
    cbn [bind] in EL. injection EL as <-. cbn [m_body]. eapply Lo; eauto.
Qed.

(** ** Ends *)
Definition ends_bare (b : body) : Prop := forall k, (k < n_K N)%nat ->
  (forall s, d_sec D (n_i1 N k) = Regular s -> shape s = 7%nat -> gm_Pe (b_gu b k) = 0) /\
  (forall s, d_sec D (n_i1 N k + n_nk N k - 1)%nat = Regular s -> shape s = 7%nat -> gm_Pe (b_gd b k) = 0).

Lemma ellipse_keeps s h0 h1 old gm : shape s = 7%nat -> gm_Pe old = 0 -> hydraulic_geometry s h0 h1 old = Some gm -> gm_Pe gm = 0 /\ gm_R gm = 0.
Proof.
  intros S7 Hp E. unfold hydraulic_geometry in E. rewrite S7 in E.
  destruct (Elliptical_A_ik h0 h1 (g1 s) (g2 s)); [|discriminate]. cbn [bind] in E.
  destruct (Elliptical_B_ik h0 h1 (g1 s) (g2 s)); [|discriminate]. cbn [bind] in E. injection E as <-. cbn [gm_Pe gm_R]. rewrite Hp.
  split; auto. unfold R_ik. destruct (Rltb_spec 0 0); [lra|reflexivity].
Qed.

Lemma geometries_ends b b' : ends_bare b -> geometries D b = Some b' -> ends_bare b' /\ forall k, (k < n_K N)%nat ->
  (forall s, d_sec D (n_i1 N k) = Regular s -> shape s = 7%nat -> gm_R (b_gu b' k) = 0) /\
  (forall s, d_sec D (n_i1 N k + n_nk N k - 1)%nat = Regular s -> shape s = 7%nat -> gm_R (b_gd b' k) = 0).
Proof.
  intros Hb E. destruct (geometries_inv D b b' E) as (_ & Eu & Ed & _).
  assert (X : forall k, (k < n_K N)%nat ->
    (forall s, d_sec D (n_i1 N k) = Regular s -> shape s = 7%nat -> gm_Pe (b_gu b' k) = 0 /\ gm_R (b_gu b' k) = 0) /\
    (forall s, d_sec D (n_i1 N k + n_nk N k - 1)%nat = Regular s -> shape s = 7%nat -> gm_Pe (b_gd b' k) = 0 /\ gm_R (b_gd b' k) = 0)).
  { intros k Hk. destruct (Hb k Hk) as [Hu Hd]. pose proof (all_entries_spec _ _ _ _ Eu k Hk) as Su. pose proof (all_entries_spec _ _ _ _ Ed k Hk) as Sd.
    cbv beta in Su, Sd. split; intros s Ec S7.
    - rewrite Ec in Su. eapply ellipse_keeps; eauto.
    - rewrite Ec in Sd. eapply ellipse_keeps; eauto. }
  split; intros k Hk; destruct (X k Hk) as [Xu Xd]; split; intros s Ec S7; [apply (Xu s)|apply (Xd s)|apply (Xu s)|apply (Xd s)]; auto.
Qed.

(** C08, a consequence worth knowing: at the ends of a superlink whose section is an ellipse no perimeter is ever computed, so
    after any history, and in every step and load, perimeter and hydraulic radius there are 0 as at construction, wet or dry. *)
Theorem C08_ends_of_ellipses : forall (m m1 : object) history,
  ends_bare (m_body m) -> perform_all D slv history m = Some m1 ->
  ends_bare (m_body m1) /\
  forall a m2, match a with Step _ _ _ _ | Load _ _ | Restore => True | Save => False end -> perform D slv a m1 = Some m2 ->
    forall k s, (k < n_K N)%nat -> d_sec D (n_i1 N k) = Regular s -> shape s = 7%nat -> gm_Pe (b_gu (m_body m2) k) = 0 /\ gm_R (b_gu (m_body m2) k) = 0.
Proof.
  intros m m1 history Hm E.
  set (P := fun b => ends_bare b).
  set (P2 := fun b => ends_bare b /\ forall k s, (k < n_K N)%nat -> d_sec D (n_i1 N k) = Regular s -> shape s = 7%nat -> gm_R (b_gu b k) = 0).
  assert (Ps : forall i dt sv b b1 b2, ends_bare b -> setup_body D i dt sv b = Some b1 -> solve_body D slv i dt b1 = Some b2 -> P2 b2).
  { intros i dt sv b b1 b2 Hb E1 E2. destruct (setup_body_inv D _ _ _ _ _ E1) as (bg & Vs & Ao & u & Eg & _ & _ & _ & Eq). unfold controls_of in Eq.
    unfold solve_body in E2. destruct (slv _ _) as [H|]; [|discriminate]. cbn [bind] in E2. injection E2 as <-. rewrite Eq.
    destruct (geometries_ends b bg Hb Eg) as [X Y]. split; [exact X|]. intros k s Hk. exact (proj1 (Y k Hk) s). }
  assert (Lo : forall v b b', ends_bare b -> load_body D v b = Some b' -> P2 b').
  { intros v b b' Hb EL. destruct (geometries_ends (restore D v b) b' Hb EL) as [X Y]. split; [exact X|]. intros k s Hk. exact (proj1 (Y k Hk) s). }
  assert (H1 : ends_bare (m_body m1)).
  { apply (history_keeps P) with (l := history) (m := m); auto.
    - intros. eapply Ps; eauto.
    - intros. eapply Lo; eauto. }
  split; [exact H1|]. intros a m2 Ha E2.
  assert (H2 : P2 (m_body m2)).
  { assert (LD : forall s x, object_load D s m1 = Some x -> P2 (m_body x)).
    { intros s x EL. unfold object_load, load_state in EL. destruct (load_body D (snd s) (m_body m1)) as [b|] eqn:L; [|discriminate].
      cbn [bind] in EL. injection EL as <-. eapply Lo; eauto. }
    destruct a as [i dt n tol| |t v|]; cbn [perform] in E2; [|contradiction| |]; eauto.
    destruct (object_step D slv i dt n tol m1) as [[r p]|] eqn:ES; [|discriminate]. cbn [bind fst] in E2. injection E2 as <-.
    unfold object_step, step in ES.
    destruct (setup_step' _ _ _ _ _ _ _ _ m1) as [k1|] eqn:E1; [|discriminate]. cbn [bind] in ES.
    destruct (solve_step' _ _ _ _ _ _ k1) as [k2|] eqn:E3; [|discriminate]. cbn [bind] in ES.
    assert (K2 : P2 (m_body k2)).
    { unfold setup_step' in E1. cbn [save_state m_saved m_body m_t m_ic] in E1.
      destruct (setup_body D i dt _ (m_body m1)) as [b1|] eqn:Eb; [|discriminate]. cbn [bind] in E1. injection E1 as <-.
      unfold solve_step' in E3. cbn [m_body m_saved m_t m_ic] in E3.
      destruct (solve_body D slv i dt b1) as [b2|] eqn:Es; [|discriminate]. cbn [bind] in E3. injection E3 as <-. cbn [m_body]. eapply Ps; eauto. }
    destruct (Nat.ltb 0 (n - 1)); [|injection ES as <- _; auto].
    destruct (all_below _ _ _ _); [injection ES as <- _; auto|].
    destruct (iterate _ _ _ _ _ _ _ _ (n - 1) _ _ _ _ k2) as [q|] eqn:E4; [|discriminate]. cbn [bind] in ES. injection ES as <- _.
    apply (iterate_keeps P2) with (n := (n - 1)%nat) (i := i) (dt := dt) (tol := tol) (H := heads_of (m_body k2)) (m := k2); auto.
    intros ? ? ? ? ? ? [Hb _] ? ?. eapply Ps; eauto. }
  intros k s Hk Ec S7. destruct H2 as [X Y]. split; [exact (proj1 (X k Hk) s Ec S7)|exact (Y k s Hk Ec S7)].
Qed.
End Histories.

(** The network of C58 meets the hypotheses. *)
Example C08_links_example :
  (forall i, (i < 5)%nat -> usual demo (d_sec demo i)) /\ perimeters_ok demo (m_body demo_object) /\
  exists m1, perform_all demo (gauss 3) [Step demo_inputs 60 5 (1/1000); Save; Step demo_inputs 30 1 0; Restore; Step demo_inputs 10 8 0]
               demo_object = Some m1.
Proof.
  destruct C58_example as (_ & _ & _ & _ & X). split; [|split; [|exact X]].
  - intros i Hi. destruct i as [|[|[|i]]]; simpl; auto; (split; [unfold dims_ok; simpl; lra|discriminate]).
  - intros i s Hi Es. simpl. lra.
Qed.

(** The same network with elliptical pipes, 2 m wide and 1 m high, loading its own state. *)
Definition oval : design :=
  mkDesign rest_net (d_Ik demo) (fun _ => Regular {| shape := 7%nat; g1 := 1; g2 := 2; g3 := 0; g4 := 0; g5 := 0; g6 := 0; g7 := 0 |})
    (fun _ _ _ _ => 4) (d_store demo) (d_or demo) (d_ocode demo) (d_o1 demo) (d_o2 demo) (d_o3 demo) (d_we demo) (d_pu demo).
Example C08_ellipses_example :
  (forall i, (i < 5)%nat -> usual oval (d_sec oval i)) /\ perimeters_ok oval (m_body demo_object) /\ ends_bare oval (m_body demo_object) /\
  exists m1, perform_all oval (gauss 3) [Save; Restore] demo_object = Some m1 /\
    gm_Pe (b_gl (m_body m1) 0%nat) = 4 /\ gm_R (b_gl (m_body m1) 0%nat) * 4 = gm_A (b_gl (m_body m1) 0%nat) /\ gm_R (b_gu (m_body m1) 0%nat) = 0.
Proof.
  assert (U : forall i, (i < 5)%nat -> usual oval (d_sec oval i)).
  { intros i Hi. simpl. split; [unfold dims_ok; simpl; lra|intros; lra]. }
  assert (P : perimeters_ok oval (m_body demo_object)) by (intros i s Hi Es; simpl; lra).
  assert (B : ends_bare oval (m_body demo_object)) by (intros k Hk; split; reflexivity).
  assert (G : forall h0 h1 old, 0 <= gm_Pe old ->
     exists gm, section_geometry (Regular {| shape := 7%nat; g1 := 1; g2 := 2; g3 := 0; g4 := 0; g5 := 0; g6 := 0; g7 := 0 |}) h0 h1 old = Some gm).
  { intros h0 h1 old Ho. cbn [section_geometry].
    destruct (C08_perimeter_and_radius {| shape := 7%nat; g1 := 1; g2 := 2; g3 := 0; g4 := 0; g5 := 0; g6 := 0; g7 := 0 |} h0 h1 old) as (gm & E & _); auto;
      [unfold dims_ok; simpl; lra|]. eauto. }
  set (m0 := object_save demo_object).
  assert (L : exists m1, object_load oval (m_saved m0) m0 = Some m1).
  { unfold object_load, load_state, load_body, geometries. set (b := restore oval (snd (m_saved m0)) (m_body m0)).
    destruct (all_entries_total 5 (b_gl b) (fun i => section_geometry (d_sec oval i) (h_h (b_st b) (d_Ik oval i)) (h_h (b_st b) (d_Ik oval i + 1)%nat)
       (with_perimeter (d_sec oval i) (d_ell oval) (h_h (b_st b) (d_Ik oval i)) (h_h (b_st b) (d_Ik oval i + 1)%nat) (b_gl b i)))) as [gl El].
    { intros i Hi. apply G. simpl. lra. }
    change (link_geometry oval (b_st b) (b_gl b) = Some gl) in El. rewrite El. cbn [bind].
    destruct (all_entries_total 2 (b_gu b) (fun k => section_geometry (d_sec oval (n_i1 rest_net k)) (h_h (b_st b) (n_I1 rest_net k))
        (b_thu b k * (h_H (b_st b) (n_Ju rest_net k) - n_zu rest_net k)) (b_gu b k))) as [gu Eu].
    { intros k Hk. apply G. simpl. lra. }
    change (upstream_geometry oval (b_st b) (b_thu b) (b_gu b) = Some gu) in Eu. rewrite Eu. cbn [bind].
    destruct (all_entries_total 2 (b_gd b) (fun k => section_geometry (d_sec oval (n_i1 rest_net k + n_nk rest_net k - 1)%nat)
        (h_h (b_st b) (n_I1 rest_net k + n_nk rest_net k)%nat) (b_thd b k * (h_H (b_st b) (n_Jd rest_net k) - n_zd rest_net k)) (b_gd b k))) as [gd Ed].
    { intros k Hk. apply G. simpl. lra. }
    change (downstream_geometry oval (b_st b) (b_thd b) (b_gd b) = Some gd) in Ed. rewrite Ed. cbn [bind].
    destruct (all_entries_total 3 (b_As b) (fun j => storage_area (d_store oval j) (storage_depth (h_H (b_st b) j) (n_zj rest_net j) (n_min rest_net)))) as [As Ea].
    { intros j Hj. edestruct (holding_area (d_store oval j)) as (a & Ea & _); [exact (sd_store _ demo_sound j Hj)| |eauto].
      unfold storage_depth. eapply Rlt_le_trans; [|apply Rmax_r]. simpl. lra. }
    change (storage_areas oval (b_st b) (b_As b) = Some As) in Ea. rewrite Ea. cbn [bind]. eauto. }
  destruct L as [m1 E1].
  assert (E : perform_all oval (gauss 3) [Save; Restore] demo_object = Some m1).
  { cbn [perform_all perform bind]. fold m0. rewrite E1. reflexivity. }
  split; [exact U|]. split; [exact P|]. split; [exact B|]. exists m1. split; [exact E|].
  assert (E0 : perform_all oval (gauss 3) [Save] demo_object = Some m0) by reflexivity.
  destruct (C08_links_of_a_model oval (gauss 3) demo_object m0 [Save] U P E0) as [_ F].
  specialize (F (fst (m_saved m0)) (snd (m_saved m0)) m1). rewrite <- surjective_pairing in F. specialize (F E1 0%nat ltac:(simpl; lia)).
  destruct F as (_ & F1 & F2 & _). specialize (F1 eq_refl). cbn [oval d_ell] in F1. rewrite F1 in F2. specialize (F2 ltac:(lra)).
  destruct (C08_ends_of_ellipses oval (gauss 3) demo_object m0 [Save] B E0) as [_ V].
  destruct (V Restore m1 I E1 0%nat _ ltac:(simpl; lia) eq_refl eq_refl) as [_ V2]. auto.
Qed.
