(** Property C41, the part that holds: everything a later step can read is in the saved state, except the indicators of
    submerged ends (P_Replay shows that these do matter).  Objects that agree in both have the same future. *)
From Coq Require Import ZArith.
From Verif Require Import Prelude M_Numerics M_Coeffs M_Recurrence M_Assembly M_Step M_Geometry M_Storage M_Controls M_Simulation M_Model
  S_Numerics S_Geometry S_Superlink S_Network S_Step S_Simulation S_Model S_Replay P_Assembly P_Superlink P_Step P_Limits P_Simulation
  L_Model L_Gauss P_Model P_Replay L_Relate.

Lemma same_state_refl N st : same_state N st st.
Proof. constructor; auto. Qed.
Lemma same_saved_refl D v : same_saved D v v.
Proof. constructor; auto. apply same_state_refl. Qed.
Lemma alike_refl D b : alike D b b.
Proof. constructor; auto. apply same_state_refl. Qed.

(** Objects that agree in the clock, in the body and in what was saved last. *)
Record twins (D : design) (m m' : object) : Prop := mkTwins {
  tw_t : m_t m = m_t m';
  tw_b : alike D (m_body m) (m_body m');
  tw_st : fst (m_saved m) = fst (m_saved m');
  tw_sv : same_saved D (snd (m_saved m)) (snd (m_saved m')) }.

Lemma twins_view D m m' : twins D m m' -> same_view D m m'.
Proof. intros [T [S O W P _ _] _ _]. constructor; auto. Qed.

Section Resume.
Variable D : design.
Variables slv slv' : mat -> arr -> option arr.
Local Notation N := (d_net D).
Hypothesis HD : sound D.
Hypothesis HT : tabled D.
Hypothesis Hslv : solver (n_M N) slv.
Hypothesis Hslv' : solver (n_M N) slv'.

Lemma alike_saved b b' : alike D b b' -> same_saved D (save_body b) (save_body b').
Proof. intros [S O W P _ _]. constructor; auto. Qed.

(** One pass from bodies that agree. *)
Lemma pass_twins i dt fi (m m' : object) : admissible D i dt -> healthy D m -> healthy D m' ->
  m_t m = m_t m' -> alike D (m_body m) (m_body m') -> (fi = false -> twins D m m') ->
  exists m1 m2 m1' m2',
    setup_step' body saved inputs save_body (fun _ i dt v => setup_body D i dt (v_st v)) fi i dt m = Some m1 /\
    solve_step' body saved inputs (fun i dt _ => solve_body D slv i dt) i dt m1 = Some m2 /\
    setup_step' body saved inputs save_body (fun _ i dt v => setup_body D i dt (v_st v)) fi i dt m' = Some m1' /\
    solve_step' body saved inputs (fun i dt _ => solve_body D slv' i dt) i dt m1' = Some m2' /\
    healthy D m2 /\ healthy D m2' /\ twins D m2 m2'.
Proof.
  intros Ha (W & Rc & Ws) (W' & Rc' & Ws') Et Al Hf. unfold setup_step'.
  set (m0 := if fi then save_state body saved save_body m else m). set (m0' := if fi then save_state body saved save_body m' else m').
  assert (B0 : m_body m0 = m_body m) by (unfold m0; destruct fi; reflexivity).
  assert (B0' : m_body m0' = m_body m') by (unfold m0'; destruct fi; reflexivity).
  assert (T0 : twins D m0 m0').
  { unfold m0, m0'. destruct fi; [|auto]. constructor; cbn [save_state m_t m_body m_saved fst snd]; auto. now apply alike_saved. }
  assert (S0 : watered D (v_st (snd (m_saved m0)))) by (unfold m0; destruct fi; auto).
  assert (S0' : watered D (v_st (snd (m_saved m0')))) by (unfold m0'; destruct fi; auto).
  destruct (setup_body_total D HD i dt (v_st (snd (m_saved m0))) (m_body m) Ha W Rc) as (b1 & E1 & _ & R1 & Sv).
  destruct (setup_body_total D HD i dt (v_st (snd (m_saved m0'))) (m_body m') Ha W' Rc') as (b1' & E1' & _ & R1' & Sv').
  destruct (solve_body_total D HD slv Hslv i dt b1 Sv R1) as (b2 & E2 & W2 & R2 & _).
  destruct (solve_body_total D HD slv' Hslv' i dt b1' Sv' R1') as (b2' & E2' & W2' & R2' & _).
  pose proof (setup_body_alike D HD HT i dt _ _ _ _ b1 b1' Al (sv_st _ _ _ (tw_sv _ _ _ T0)) Rc Rc' E1 E1') as Pr.
  pose proof (solve_body_alike D HD slv slv' i dt b1 b1' b2 b2' Hslv Hslv' Pr Sv Sv' E2 E2') as Al2.
  rewrite B0, B0', E1, E1'. cbn [bind].
  eexists. eexists. eexists. eexists. split; [reflexivity|].
  split; [unfold solve_step'; cbn [m_saved m_body m_t m_ic]; rewrite E2; reflexivity|]. split; [reflexivity|].
  split; [unfold solve_step'; cbn [m_saved m_body m_t m_ic]; rewrite E2'; reflexivity|].
  unfold healthy. cbn [m_body m_saved]. split; [auto|]. split; [auto|].
  destruct T0. constructor; cbn [m_t m_body m_saved]; auto. congruence.
Qed.

Lemma all_below_alike tol (H H' K K' : arr) : (forall j, (j < n_M N)%nat -> H j = H' j) -> (forall j, (j < n_M N)%nat -> K j = K' j) ->
  all_below (n_M N) tol H K = all_below (n_M N) tol H' K'.
Proof.
  intros E1 E2. unfold all_below. assert (G : forall l, (forall j, In j l -> (j < n_M N)%nat) ->
    forallb (fun j => Rltb (Rabs (H j - K j)) tol) l = forallb (fun j => Rltb (Rabs (H' j - K' j)) tol) l).
  { induction l as [|j l IH]; intros Hl; simpl; auto. rewrite E1, E2 by (apply Hl; now left). f_equal. apply IH. intros; apply Hl; now right. }
  apply G. intros j Hj. apply in_seq in Hj. lia.
Qed.

Lemma iterate_twins n : forall i dt tol (H H' : arr) (m m' : object), admissible D i dt -> healthy D m -> healthy D m' -> twins D m m' ->
  (forall j, (j < n_M N)%nat -> H j = H' j) ->
  exists r r' p,
    iterate body saved inputs save_body (fun _ i dt v => setup_body D i dt (v_st v)) (fun i dt _ => solve_body D slv i dt)
       heads_of (n_M N) n i dt tol H m = Some (r, p) /\
    iterate body saved inputs save_body (fun _ i dt v => setup_body D i dt (v_st v)) (fun i dt _ => solve_body D slv' i dt)
       heads_of (n_M N) n i dt tol H' m' = Some (r', p) /\
    healthy D r /\ healthy D r' /\ twins D r r'.
Proof.
  induction n as [|n IH]; intros i dt tol H H' m m' Ha Hm Hm' Tw EH; cbn [iterate].
  { exists m, m', 0%nat. auto. }
  set (n0 := mkModel (m_t m - dt) (m_ic m - 1)%Z (m_body m) (m_saved m)). set (n0' := mkModel (m_t m' - dt) (m_ic m' - 1)%Z (m_body m') (m_saved m')).
  assert (T0 : twins D n0 n0') by (destruct Tw as [T B S V]; constructor; cbn; auto; congruence).
  destruct (pass_twins i dt false n0 n0' Ha Hm Hm' (tw_t _ _ _ T0) (tw_b _ _ _ T0) (fun _ => T0)) as (m1 & m2 & m1' & m2' & E1 & E2 & E1' & E2' & H2 & H2' & T2).
  cbv zeta. rewrite E1, E1'. cbn [bind]. rewrite E2, E2'. cbn [bind].
  assert (EK : forall j, (j < n_M N)%nat -> heads_of (m_body m2) j = heads_of (m_body m2') j) by apply (st_H _ _ _ (al_st _ _ _ (tw_b _ _ _ T2))).
  rewrite (all_below_alike tol H H' _ _ EH EK).
  destruct (all_below _ _ _ _).
  { exists m2, m2', 1%nat. auto. }
  destruct (IH i dt tol _ _ m2 m2' Ha H2 H2' T2 EK) as (r & r' & p & -> & -> & Hr & Hr' & Tr). cbn [bind fst snd].
  exists r, r', (S p). auto.
Qed.

(** A step needs only agreeing clocks and bodies: it saves first. *)
Lemma step_twins i dt n tol (m m' : object) : admissible D i dt -> healthy D m -> healthy D m' ->
  m_t m = m_t m' -> alike D (m_body m) (m_body m') ->
  exists r r' p, object_step D slv i dt n tol m = Some (r, p) /\ object_step D slv' i dt n tol m' = Some (r', p) /\
    healthy D r /\ healthy D r' /\ twins D r r'.
Proof.
  intros Ha Hm Hm' Et Al. unfold object_step, step.
  destruct (pass_twins i dt true m m' Ha Hm Hm' Et Al) as (m1 & m2 & m1' & m2' & E1 & E2 & E1' & E2' & H2 & H2' & T2); [discriminate|].
  rewrite E1, E1'. cbn [bind]. rewrite E2, E2'. cbn [bind].
  destruct (Nat.ltb 0 (n - 1)); [|exists m2, m2', 1%nat; auto].
  assert (EK : forall j, (j < n_M N)%nat -> heads_of (m_body m2) j = heads_of (m_body m2') j) by apply (st_H _ _ _ (al_st _ _ _ (tw_b _ _ _ T2))).
  rewrite (all_below_alike tol _ _ _ _ EK (st_H _ _ _ (sv_st _ _ _ (tw_sv _ _ _ T2)))).
  destruct (all_below _ _ _ _); [exists m2, m2', 1%nat; auto|].
  destruct (iterate_twins (n - 1) i dt tol _ _ m2 m2' Ha H2 H2' T2 EK) as (r & r' & p & -> & -> & Hr & Hr' & Tr). cbn [bind fst snd].
  exists r, r', (S p). auto.
Qed.

(** Loading states that agree into objects whose indicators agree. *)
Lemma load_twins s s' (m m' : object) : fst s = fst s' -> same_saved D (snd s) (snd s') ->
  watered D (v_st (snd s)) -> watered D (v_st (snd s')) -> healthy D m -> healthy D m' ->
  (forall k, (k < n_K N)%nat -> b_thu (m_body m) k = b_thu (m_body m') k) -> (forall k, (k < n_K N)%nat -> b_thd (m_body m) k = b_thd (m_body m') k) ->
  exists r r', object_load D s m = Some r /\ object_load D s' m' = Some r' /\ healthy D r /\ healthy D r' /\
    m_t r = m_t r' /\ alike D (m_body r) (m_body r') /\ m_saved r = m_saved m /\ m_saved r' = m_saved m'.
Proof.
  intros Et [Vs Vo Vw Vp] W W' Hm Hm' Tu Td.
  destruct (object_load_total D HD s m W Hm) as (r & E & Hr). destruct (object_load_total D HD s' m' W' Hm') as (r' & E' & Hr').
  exists r, r'. split; auto. split; auto. split; auto. split; auto.
  unfold object_load, load_state, load_body in E, E'.
  destruct (geometries D (restore D (snd s) (m_body m))) as [b|] eqn:G; [|discriminate].
  destruct (geometries D (restore D (snd s') (m_body m'))) as [b'|] eqn:G'; [|discriminate].
  cbn [bind] in E, E'. injection E as <-. injection E' as <-. cbn [m_t m_body m_saved].
  destruct (geometries_inv D _ _ G) as (_ & _ & _ & _ & G1 & G2 & G3 & G4 & _ & _ & G5 & G6 & _).
  destruct (geometries_inv D _ _ G') as (_ & _ & _ & _ & G1' & G2' & G3' & G4' & _ & _ & G5' & G6' & _).
  split; auto. split; [|auto].
  constructor; [rewrite G1, G1'|rewrite G2, G2'|rewrite G3, G3'|rewrite G4, G4'|rewrite G5, G5'|rewrite G6, G6'];
    cbn [restore b_st b_Qo b_Qw b_Qp b_thu b_thd]; auto.
  - intros o Ho. destruct (Nat.eqb_spec (o_n (d_or D)) 0); [lia|auto].
  - intros o Ho. destruct (Nat.eqb_spec (w_n (d_we D)) 0); [lia|auto].
  - intros o Ho. destruct (Nat.eqb_spec (p_n (d_pu D)) 0); [lia|auto].
Qed.

Lemma perform_twins a (m m' : object) : allowed D a -> healthy D m -> healthy D m' -> twins D m m' ->
  exists r r', perform D slv a m = Some r /\ perform D slv' a m' = Some r' /\ healthy D r /\ healthy D r' /\ twins D r r'.
Proof.
  intros Ha Hm Hm' Tw. destruct a as [i dt n tol| |t v|]; cbn [perform allowed] in *.
  - destruct (step_twins i dt n tol m m' Ha Hm Hm' (tw_t _ _ _ Tw) (tw_b _ _ _ Tw)) as (r & r' & p & -> & -> & X). cbn [bind fst]. eauto.
  - exists (object_save m), (object_save m'). split; auto. split; auto.
    destruct Hm as (? & ? & ?). destruct Hm' as (? & ? & ?). destruct Tw as [T B S V].
    split; [split; [|split]; auto|]. split; [split; [|split]; auto|].
    constructor; cbn [object_save save_state m_t m_body m_saved fst snd]; auto. now apply alike_saved.
  - destruct Tw as [T B S V].
    destruct (load_twins (t, v) (t, v) m m' eq_refl (same_saved_refl D v) Ha Ha Hm Hm' (al_thu _ _ _ B) (al_thd _ _ _ B))
      as (r & r' & E & E' & Hr & Hr' & Tt & Al & S1 & S2).
    exists r, r'. split; auto. split; auto. split; auto. split; auto. constructor; auto; rewrite S1, S2; auto.
  - destruct Tw as [T B S V].
    destruct (load_twins (m_saved m) (m_saved m') m m' S V (proj2 (proj2 Hm)) (proj2 (proj2 Hm')) Hm Hm' (al_thu _ _ _ B) (al_thd _ _ _ B))
      as (r & r' & E & E' & Hr & Hr' & Tt & Al & S1 & S2).
    exists r, r'. split; auto. split; auto. split; auto. split; auto. constructor; auto; rewrite S1, S2; auto.
Qed.

Lemma future_twins l : forall (m m' : object), (forall a, In a l -> allowed D a) -> healthy D m -> healthy D m' -> twins D m m' ->
  exists r r', perform_all D slv l m = Some r /\ perform_all D slv' l m' = Some r' /\ twins D r r'.
Proof.
  induction l as [|a l IH]; intros m m' Hl Hm Hm' Tw; cbn [perform_all]; [exists m, m'; auto|].
  destruct (perform_twins a m m') as (r & r' & -> & -> & Hr & Hr' & Tr); auto; [apply Hl; now left|]. cbn [bind].
  apply IH; auto. intros; apply Hl; now right.
Qed.

(** C41, bisimulation: two objects of the same design that show the same clock, heads, depths, flows and control flows and
    have the same indicators of submerged ends show the same values after every future sequence of steps, iterations, saves
    and loads, whatever their histories were, whatever their work arrays hold, and even when they use different linear
    solvers.  The future must not begin by loading an older saved state. *)
Theorem C41_same_state_same_future : forall (m m' : object) future,
  healthy D m -> healthy D m' -> m_t m = m_t m' -> alike D (m_body m) (m_body m') ->
  fresh_future future -> (forall a, In a future -> allowed D a) ->
  exists r r', perform_all D slv future m = Some r /\ perform_all D slv' future m' = Some r' /\ same_view D r r'.
Proof.
  intros m m' l Hm Hm' Et Al Ff Hl. destruct l as [|a l].
  { exists m, m'. split; [reflexivity|]. split; [reflexivity|]. destruct Al as [S O W P _ _]. constructor; auto. }
  assert (G : exists r r', perform D slv a m = Some r /\ perform D slv' a m' = Some r' /\ healthy D r /\ healthy D r' /\ twins D r r').
  { pose proof (Hl a (or_introl eq_refl)) as Ha. destruct a as [i dt n tol| |t v|]; cbn [fresh_future] in Ff; try contradiction; cbn [perform].
    - destruct (step_twins i dt n tol m m' Ha Hm Hm' Et Al) as (r & r' & p & -> & -> & X). cbn [bind fst]. eauto.
    - exists (object_save m), (object_save m'). split; auto. split; auto.
      destruct Hm as (? & ? & ?). destruct Hm' as (? & ? & ?).
      split; [split; [|split]; auto|]. split; [split; [|split]; auto|].
      constructor; cbn [object_save save_state m_t m_body m_saved fst snd]; auto. now apply alike_saved. }
  destruct G as (r & r' & E & E' & Hr & Hr' & Tr). cbn [perform_all]. rewrite E, E'. cbn [bind].
  destruct (future_twins l r r') as (q & q' & F & F' & Tq); auto; [intros; apply Hl; now right|].
  exists q, q'. split; auto. split; auto. now apply twins_view.
Qed.
End Resume.

(** ** Rolling back *)
Section Rollback.
Variable D : design.
Variable slv : mat -> arr -> option arr.
Local Notation N := (d_net D).
Hypothesis HD : sound D.
Hypothesis HT : tabled D.
Hypothesis Hslv : solver (n_M N) slv.

Lemma perform_all_healthy l : forall m : object, (forall a, In a l -> allowed D a) -> healthy D m ->
  exists m', perform_all D slv l m = Some m' /\ healthy D m'.
Proof.
  induction l as [|a l IH]; intros m Hl Hm; cbn [perform_all]; [eauto|].
  destruct (perform_total D slv HD Hslv a m) as (m1 & -> & H1); auto; [apply Hl; now left|]. cbn [bind].
  apply IH; auto. intros; apply Hl; now right.
Qed.

(** C41: keep the saved state of an object, let any history pass, load it back.  If the indicators of submerged ends are
    then those of the time of saving, the continuation is the original one, for every future. *)
Theorem C41_rollback_replays : forall (m m1 : object) history future,
  healthy D m -> (forall a, In a history -> allowed D a) -> (forall a, In a future -> allowed D a) -> fresh_future future ->
  perform_all D slv history m = Some m1 ->
  (forall k, (k < n_K N)%nat -> b_thu (m_body m1) k = b_thu (m_body m) k /\ b_thd (m_body m1) k = b_thd (m_body m) k) ->
  exists r r', perform_all D slv future m = Some r /\
    perform_all D slv (history ++ Load (m_t m) (save_body (m_body m)) :: future) m = Some r' /\ same_view D r r'.
Proof.
  intros m m1 hist fut Hm Hh Hf Ff E Th.
  destruct (perform_all_healthy hist m Hh Hm) as (m1' & E' & H1). rewrite E in E'. injection E' as <-.
  assert (W : watered D (v_st (save_body (m_body m)))) by apply Hm.
  destruct (object_load_total D HD (m_t m, save_body (m_body m)) m1 W H1) as (m2 & E2 & H2).
  assert (Al : m_t m = m_t m2 /\ alike D (m_body m) (m_body m2)).
  { unfold object_load, load_state, load_body in E2. cbn [fst snd] in E2.
    destruct (geometries D (restore D (save_body (m_body m)) (m_body m1))) as [b|] eqn:G; [|discriminate].
    cbn [bind] in E2. injection E2 as <-. cbn [m_t m_body]. split; auto.
    destruct (geometries_inv D _ _ G) as (_ & _ & _ & _ & G1 & G2 & G3 & G4 & _ & _ & G5 & G6 & _).
    constructor; [rewrite G1|rewrite G2|rewrite G3|rewrite G4|rewrite G5|rewrite G6];
      cbn [restore save_body v_st v_Qo v_Qw v_Qp b_st b_Qo b_Qw b_Qp b_thu b_thd]; try apply same_state_refl.
    - intros o Ho. destruct (Nat.eqb_spec (o_n (d_or D)) 0); [lia|auto].
    - intros o Ho. destruct (Nat.eqb_spec (w_n (d_we D)) 0); [lia|auto].
    - intros o Ho. destruct (Nat.eqb_spec (p_n (d_pu D)) 0); [lia|auto].
    - intros k Hk. symmetry. apply Th; auto.
    - intros k Hk. symmetry. apply Th; auto. }
  destruct (C41_same_state_same_future D slv slv HD HT Hslv Hslv m m2 fut Hm H2 (proj1 Al) (proj2 Al) Ff Hf) as (r & r' & F & F' & V).
  exists r, r'. split; auto. split; auto.
  assert (App : forall l l' x, perform_all D slv (l ++ l') x = do y <- perform_all D slv l x; perform_all D slv l' y).
  { clear. induction l as [|a l IH]; intros l' x; cbn [app perform_all]; [reflexivity|]. destruct (perform D slv a x); cbn [bind]; auto. }
  rewrite App, E. cbn [bind perform_all perform]. rewrite E2. exact F'.
Qed.

(** C41: loading a kept state brings back the clock, the heads, depths and flows, the flows in controls and the stored
    volumes, whatever happened since. *)
Theorem C41_load_restores_values : forall (m m1 : object) history,
  healthy D m -> (forall a, In a history -> allowed D a) -> perform_all D slv history m = Some m1 ->
  exists m2, perform D slv (Load (m_t m) (save_body (m_body m))) m1 = Some m2 /\
    m_t m2 = m_t m /\ same_view D m2 m /\ (forall j, (j < n_M N)%nat -> b_Vs (m_body m2) j = b_Vs (m_body m) j).
Proof.
  intros m m1 hist Hm Hh E.
  destruct (perform_all_healthy hist m Hh Hm) as (m1' & E' & H1). rewrite E in E'. injection E' as <-.
  assert (W : watered D (v_st (save_body (m_body m)))) by apply Hm.
  destruct (object_load_total D HD (m_t m, save_body (m_body m)) m1 W H1) as (m2 & E2 & H2).
  exists m2. split; [exact E2|].
  unfold object_load, load_state, load_body in E2. cbn [fst snd] in E2.
  destruct (geometries D (restore D (save_body (m_body m)) (m_body m1))) as [b|] eqn:G; [|discriminate].
  cbn [bind] in E2. injection E2 as <-. cbn [m_t m_body]. split; auto.
  destruct (geometries_inv D _ _ G) as (_ & _ & _ & _ & G1 & G2 & G3 & G4 & G7 & _).
  split; [|intros j _; rewrite G7; reflexivity].
  constructor; cbn [m_t m_body]; auto; [rewrite G1|rewrite G2|rewrite G3|rewrite G4];
    cbn [restore save_body v_st v_Qo v_Qw v_Qp b_st b_Qo b_Qw b_Qp]; try apply same_state_refl.
  - intros o Ho. destruct (Nat.eqb_spec (o_n (d_or D)) 0); [lia|auto].
  - intros o Ho. destruct (Nat.eqb_spec (w_n (d_we D)) 0); [lia|auto].
  - intros o Ho. destruct (Nat.eqb_spec (p_n (d_pu D)) 0); [lia|auto].
Qed.

(** ** Networks without drops *)
Definition submerged (m : object) : Prop :=
  (forall k, (k < n_K N)%nat -> b_thu (m_body m) k = 1 /\ b_thd (m_body m) k = 1) /\
  afloat D (b_st (m_body m)) /\ afloat D (v_st (snd (m_saved m))).
Definition careful (a : action) : Prop := match a with Load _ v => afloat D (v_st v) | _ => True end.
Hypothesis Hlev : level_ends D.
Hypothesis Hmax : forall j, (j < n_M N)%nat -> 0 <= n_maxj N j.

Lemma pass_submerged i dt fi (m m1 m2 : object) : submerged m ->
  setup_step' body saved inputs save_body (fun _ i dt v => setup_body D i dt (v_st v)) fi i dt m = Some m1 ->
  solve_step' body saved inputs (fun i dt _ => solve_body D slv i dt) i dt m1 = Some m2 -> submerged m2.
Proof.
  intros (Th & Af & As) E1 E2. unfold setup_step' in E1.
  set (m0 := if fi then save_state body saved save_body m else m) in *.
  assert (B0 : m_body m0 = m_body m) by (unfold m0; destruct fi; reflexivity).
  assert (S0 : afloat D (v_st (snd (m_saved m0)))) by (unfold m0; destruct fi; auto).
  destruct (setup_body D i dt (v_st (snd (m_saved m0))) (m_body m0)) as [b1|] eqn:Eb; [|discriminate]. cbn [bind] in E1. injection E1 as <-.
  unfold solve_step' in E2. cbn [m_body m_saved m_t m_ic] in E2.
  destruct (solve_body D slv i dt b1) as [b2|] eqn:Es; [|discriminate]. cbn [bind] in E2. injection E2 as <-.
  destruct (setup_body_inv D _ _ _ _ _ Eb) as (bg & Vs & Ao & u & _ & _ & _ & _ & Eq). unfold controls_of in Eq.
  unfold solve_body in Es. destruct (slv _ _) as [H|]; [|discriminate]. cbn [bind] in Es. injection Es as <-.
  split; [|split]; cbn [m_body m_saved b_thu b_thd b_st]; auto.
  - intros k Hk. rewrite Eq. cbn [b_thu b_thd]. rewrite B0. destruct (wf_ends _ (sd_wf _ HD) k Hk) as [J1 J2]. destruct (Hlev k Hk) as [L1 L2].
    pose proof (Af _ J1). pose proof (Af _ J2). unfold theta_k.
    assert (X1 : Rleb (n_zu N k) (h_H (b_st (m_body m)) (n_Ju N k)) = true) by (apply Rleb_true; lra).
    assert (X2 : Rleb (n_zd N k) (h_H (b_st (m_body m)) (n_Jd N k)) = true) by (apply Rleb_true; lra).
    rewrite X1, X2. auto.
  - intros j Hj. exact (proj1 (limit_head_range _ _ _ (Hmax j Hj))).
Qed.

Lemma iterate_submerged n : forall i dt tol H (m : object) r, submerged m ->
  iterate body saved inputs save_body (fun _ i dt v => setup_body D i dt (v_st v)) (fun i dt _ => solve_body D slv i dt)
       heads_of (n_M N) n i dt tol H m = Some r -> submerged (fst r).
Proof.
  induction n as [|n IH]; intros i dt tol H m r Sm E; cbn [iterate] in E; [injection E as <-; auto|].
  set (n0 := mkModel (m_t m - dt) (m_ic m - 1)%Z (m_body m) (m_saved m)) in *. cbv zeta in E.
  destruct (setup_step' _ _ _ _ _ _ _ _ n0) as [m1|] eqn:E1; [|discriminate]. cbn [bind] in E.
  destruct (solve_step' _ _ _ _ _ _ m1) as [m2|] eqn:E2; [|discriminate]. cbn [bind] in E.
  pose proof (pass_submerged i dt false n0 m1 m2 Sm E1 E2) as S2.
  destruct (all_below _ _ _ _); [injection E as <-; auto|].
  destruct (iterate _ _ _ _ _ _ _ _ n _ _ _ _ m2) as [q|] eqn:E3; [|discriminate]. cbn [bind] in E. injection E as <-. cbn [fst]. eapply IH; eauto.
Qed.

Lemma perform_submerged a (m m' : object) : careful a -> submerged m -> perform D slv a m = Some m' -> submerged m'.
Proof.
  intros Ca Sm E.
  assert (LD : forall s x, afloat D (v_st (snd s)) -> object_load D s m = Some x -> submerged x).
  { intros s x Af EL. unfold object_load, load_state, load_body in EL.
    destruct (geometries D (restore D (snd s) (m_body m))) as [b|] eqn:G; [|discriminate]. cbn [bind] in EL. injection EL as <-.
    destruct (geometries_inv D _ _ G) as (_ & _ & _ & _ & G1 & _ & _ & _ & _ & _ & G5 & G6 & _).
    destruct Sm as (Th & A1 & A2). split; [|split]; cbn [m_body m_saved]; auto.
    - rewrite G5, G6. exact Th.
    - rewrite G1. exact Af. }
  destruct a as [i dt n tol| |t v|]; cbn [perform careful] in *.
  - destruct (object_step D slv i dt n tol m) as [[r p]|] eqn:ES; [|discriminate]. cbn [bind fst] in E. injection E as <-.
    unfold object_step, step in ES.
    destruct (setup_step' _ _ _ _ _ _ _ _ m) as [m1|] eqn:E1; [|discriminate]. cbn [bind] in ES.
    destruct (solve_step' _ _ _ _ _ _ m1) as [m2|] eqn:E2; [|discriminate]. cbn [bind] in ES.
    pose proof (pass_submerged i dt true m m1 m2 Sm E1 E2) as S2.
    destruct (Nat.ltb 0 (n - 1)); [|injection ES as <- _; auto].
    destruct (all_below _ _ _ _); [injection ES as <- _; auto|].
    destruct (iterate _ _ _ _ _ _ _ _ (n - 1) _ _ _ _ m2) as [q|] eqn:E3; [|discriminate]. cbn [bind] in ES. injection ES as <- _.
    eapply iterate_submerged; eauto.
  - injection E as <-. destruct Sm as (Th & A1 & A2). split; [|split]; auto.
  - apply (LD (t, v)); auto.
  - apply (LD (m_saved m)); auto. apply Sm.
Qed.

Lemma perform_all_submerged l : forall m m' : object, (forall a, In a l -> careful a) -> submerged m -> perform_all D slv l m = Some m' -> submerged m'.
Proof.
  induction l as [|a l IH]; intros m m' Hl Sm E; cbn [perform_all] in E; [injection E as <-; auto|].
  destruct (perform D slv a m) as [m1|] eqn:E1; [|discriminate]. cbn [bind] in E.
  apply (IH m1); auto; [intros; apply Hl; now right|]. eapply perform_submerged; eauto. apply Hl; now left.
Qed.

(** C41 for networks in which no superlink end lies above the bottom of its junction: rolling back to a saved state after
    any history replays every future exactly. *)
Theorem C41_rollback_exact_without_drops : forall (m : object) history future,
  healthy D m -> submerged m ->
  (forall a, In a history -> allowed D a /\ careful a) -> (forall a, In a future -> allowed D a) -> fresh_future future ->
  exists r r', perform_all D slv future m = Some r /\
    perform_all D slv (history ++ Load (m_t m) (save_body (m_body m)) :: future) m = Some r' /\ same_view D r r'.
Proof.
  intros m hist fut Hm Sm Hh Hf Ff.
  destruct (perform_all_healthy hist m) as (m1 & E1 & H1); auto; [intros a Ha; apply (Hh a Ha)|].
  apply (C41_rollback_replays m m1 hist fut); auto; [intros a Ha; apply (Hh a Ha)|].
  destruct (perform_all_submerged hist m m1) as (Th & _); auto; [intros a Ha; apply (Hh a Ha)|].
  destruct Sm as (Th0 & _). intros k Hk. destruct (Th k Hk) as [-> ->]. destruct (Th0 k Hk) as [-> ->]. auto.
Qed.
End Rollback.

(** ** Witness: the network of C58 with all superlink ends at the bottoms of their junctions *)
Definition flat_net : network :=
  let n := rest_net in
  mkNetwork (n_K n) (n_nk n) (n_i1 n) (n_I1 n) (n_Ju n) (n_Jd n) (n_L n) (n_J n) (n_kI n) (n_fwdi n) (n_bwdi n) (n_isS n) (n_isE n)
    (n_lstart n) (n_lend n) (n_dx n) (n_n n) (n_sf n) (n_So n) (n_Ac n) (n_C n) (n_ctrl n) (n_ASI n) (n_dxu n) (n_dxd n) (n_Cu n) (n_Cd n)
    (fun _ => 0) (n_zd n) (n_nu n) (n_nd n) (n_sfu n) (n_sfd n) (n_Su n) (n_Sd n) (n_M n) (n_bc n) (n_zj n) (n_maxj n) (n_min n) (n_maxk n)
    (n_end_o n) (n_bcm n) (n_damp n) (n_back n).
Definition flat : design :=
  mkDesign flat_net (d_Ik demo) (d_sec demo) (d_ell demo) (d_store demo) (d_or demo) (d_ocode demo) (d_o1 demo) (d_o2 demo) (d_o3 demo)
    (d_we demo) (d_pu demo).

Lemma flat_sound : sound flat.
Proof.
  destruct demo_sound as [[W1 W2 W3 W4] Z Mn Ln Nd En St Or We Pu]. constructor; auto. constructor; auto.
Qed.
Lemma flat_tabled : tabled flat.
Proof.
  constructor.
  - intros i Hi. simpl in *. do 5 (destruct i as [|i]; [simpl; lia|]). lia.
  - intros i Hi. simpl in *. do 5 (destruct i as [|i]; [simpl; auto; right; lia|]). lia.
  - intros o Ho. simpl. lia.
Qed.

(** The same state with other contents of the work arrays and another last saved state. *)
Definition used_object : object :=
  mkModel 0 7%Z (mkBody rest_state (fun o => INR o) zeros zeros (fun _ => geom0) (fun i => {| gm_A := INR i; gm_Pe := 1; gm_R := 2; gm_B := 3 |})
                  (fun _ => geom0) (fun _ => 9) (fun _ => 8) (fun _ => 7) (fun _ => 1) (fun _ => 1) setup0 fresh_system)
    (-5, save_body (body0 rest_state)).
Definition busy : list action := [Step demo_inputs 60 5 (1/1000); Save; Step demo_inputs 30 1 0; Restore; Step demo_inputs 10 8 0].

(** Hypotheses of the three theorems are met: two objects with different work arrays; a busy history between saving and
    loading back; a future with iterations and a rollback of its own. *)
Example C41_example :
  sound flat /\ tabled flat /\ solver 3 (gauss 3) /\ healthy flat demo_object /\ healthy flat used_object /\
  alike flat (m_body demo_object) (m_body used_object) /\ fresh_future busy /\
  (forall a, In a busy -> allowed flat a /\ careful flat a) /\ submerged flat demo_object /\ level_ends flat /\
  (exists r r', perform_all flat (gauss 3) busy demo_object = Some r /\ perform_all flat (gauss 3) busy used_object = Some r' /\ same_view flat r r') /\
  (exists r r', perform_all flat (gauss 3) busy demo_object = Some r /\
     perform_all flat (gauss 3) (busy ++ Load 0 (save_body (m_body demo_object)) :: busy) demo_object = Some r' /\ same_view flat r r').
Proof.
  assert (W : watered flat rest_state).
  { intros i Hi. simpl in Hi. cbn [rest_state h_h flat demo d_Ik]. unfold rest_bed.
    do 5 (destruct i as [|i]; [simpl; lra|]). lia. }
  assert (A : forall dt, 0 < dt -> admissible flat demo_inputs dt).
  { intros dt Hdt. split; auto. simpl. split; intros; lra. }
  assert (H1 : healthy flat demo_object) by (split; [exact W|split; [constructor|exact W]]).
  assert (H2 : healthy flat used_object) by (split; [exact W|split; [constructor|exact W]]).
  assert (Al : alike flat (m_body demo_object) (m_body used_object)).
  { constructor; simpl; auto.
    - apply same_state_refl.
    - intros o Ho. assert (o = 0%nat) by lia. subst o. reflexivity. }
  assert (B : forall a, In a busy -> allowed flat a /\ careful flat a).
  { intros a Ha. simpl in Ha. destruct Ha as [<-|[<-|[<-|[<-|[<-|[]]]]]]; simpl; split; auto; apply A; lra. }
  assert (B' : forall a, In a busy -> allowed flat a) by (intros a Ha; apply (B a Ha)).
  assert (Af : afloat flat rest_state) by (intros j Hj; simpl; lra).
  assert (Sb : submerged flat demo_object) by (split; [simpl; auto|split; exact Af]).
  assert (Lv : level_ends flat) by (intros k Hk; simpl; lra).
  split; [exact flat_sound|]. split; [exact flat_tabled|]. split; [apply gauss_solver|]. split; auto. split; auto. split; auto.
  split; [exact I|]. split; auto. split; auto. split; auto. split.
  - apply (C41_same_state_same_future flat (gauss 3) (gauss 3) flat_sound flat_tabled); auto; try apply gauss_solver; exact I.
  - apply (C41_rollback_exact_without_drops flat (gauss 3) flat_sound flat_tabled (gauss_solver 3) Lv); auto; [intros; simpl; lra|exact I].
Qed.
