(** Properties C22, C23, C26, C28, C33, C36 and C37 for steps of the whole object, after any history: what a user reads
    after [step] returns. *)
From Coq Require Import ZArith.
From Verif Require Import Prelude M_Numerics M_Coeffs M_Recurrence M_Assembly M_Step M_Geometry M_Storage M_Controls M_Simulation M_Model
  S_Numerics S_Geometry S_Superlink S_Network S_Step S_Controls S_Simulation S_Model S_Object L_Assembly L_Forward L_Backward L_Coeffs L_Boundary L_Step P_Assembly P_Superlink P_Step
  P_Limits P_Wellposed P_Controls P_Simulation L_Model L_Gauss P_Model P_Replay.

Section Passes.
Variable D : design.
Variable slv : mat -> arr -> option arr.
Local Notation N := (d_net D).
Hypothesis HD : sound D.
Hypothesis Hslv : solver (n_M N) slv.

(** The last pass of a step, whatever the number of passes; [P]: any property that a pass preserves. *)
Section Last.
Variables (i : inputs) (dt : R) (sv : R * saved) (P : body -> Prop).
Hypothesis Ha : admissible D i dt.
Hypothesis HP : forall b b1 b2, P b -> watered D (b_st b) -> reached D (b_sys b) ->
  setup_body D i dt (v_st (snd sv)) b = Some b1 -> solve_body D slv i dt b1 = Some b2 -> P b2.

Definition last_pass (b : body) (m' : object) : Prop :=
  exists b1, P b /\ watered D (b_st b) /\ reached D (b_sys b) /\
    setup_body D i dt (v_st (snd sv)) b = Some b1 /\ solve_body D slv i dt b1 = Some (m_body m') /\ P (m_body m') /\
    watered D (b_st (m_body m')) /\ reached D (b_sys (m_body m')) /\ m_saved m' = sv.

Lemma pass_last (m m1 m2 : object) : P (m_body m) -> watered D (b_st (m_body m)) -> reached D (b_sys (m_body m)) -> m_saved m = sv ->
  setup_step' body saved inputs save_body (fun _ i dt v => setup_body D i dt (v_st v)) false i dt m = Some m1 ->
  solve_step' body saved inputs (fun i dt _ => solve_body D slv i dt) i dt m1 = Some m2 -> last_pass (m_body m) m2.
Proof.
  intros Pm W Rc Es E1 E2. unfold setup_step' in E1. rewrite Es in E1.
  destruct (setup_body_total D HD i dt (v_st (snd sv)) (m_body m) Ha W Rc) as (b1 & E1' & _ & R1 & Sv).
  rewrite E1' in E1. cbn [bind] in E1. injection E1 as <-. unfold solve_step' in E2. cbn [m_body m_saved m_t m_ic] in E2.
  destruct (solve_body_total D HD slv Hslv i dt b1 Sv R1) as (b2 & E2' & W2 & R2 & _). rewrite E2' in E2. cbn [bind] in E2.
  injection E2 as <-. exists b1. cbn [m_body m_saved]. repeat split; auto. exact (HP _ _ _ Pm W Rc E1' E2').
Qed.

Lemma iterate_last n : forall tol H b0 (m m' : object) p, last_pass b0 m ->
  iterate body saved inputs save_body (fun _ i dt v => setup_body D i dt (v_st v)) (fun i dt _ => solve_body D slv i dt)
       heads_of (n_M N) n i dt tol H m = Some (m', p) ->
  (n = 0%nat /\ p = 0%nat /\ m' = m) \/
  exists q mb, p = S q /\ last_pass (m_body mb) m' /\
    iterate body saved inputs save_body (fun _ i dt v => setup_body D i dt (v_st v)) (fun i dt _ => solve_body D slv i dt)
       heads_of (n_M N) q i dt tol H m = Some (mb, q).
Proof.
  induction n as [|n IH]; intros tol H b0 m m' p Lm E; cbn [iterate] in E; [injection E as <- <-; auto|]. cbv zeta in E. right.
  destruct (setup_step' _ _ _ _ _ _ _ _ _) as [m1|] eqn:E1; [|discriminate]. cbn [bind] in E.
  destruct (solve_step' _ _ _ _ _ _ m1) as [m2|] eqn:E2; [|discriminate]. cbn [bind] in E.
  destruct Lm as (b1 & _ & _ & _ & _ & _ & Pm & Wm & Rm & Sm).
  assert (L2 : last_pass (m_body m) m2)
    by (apply (pass_last (mkModel (m_t m - dt) (m_ic m - 1) (m_body m) (m_saved m)) m1 m2); auto).
  destruct (all_below _ _ _ _) eqn:Eb; [injection E as <- <-; exists 0%nat, m; auto|].
  destruct (iterate _ _ _ _ _ _ _ _ n _ _ _ _ _) as [[r q]|] eqn:E3; [|discriminate]. cbn [bind fst snd] in E. injection E as <- <-.
  destruct (IH _ _ _ _ _ _ L2 E3) as [(-> & -> & ->)|(q' & mb & -> & Lb & Ib)]; [exists 0%nat, m; auto|].
  exists (S q'), mb. split; [reflexivity|]. split; [exact Lb|]. cbn [iterate]. cbv zeta. rewrite E1. cbn [bind]. rewrite E2. cbn [bind].
  rewrite Eb, Ib. reflexivity.
Qed.
End Last.

(** The object from which the last of [p] passes started: the object itself if there was one pass only, otherwise what
    the same call limited to [p - 1] passes returns. *)
Definition before_last (i : inputs) (dt tol : R) (m : object) (p : nat) (mb : object) : Prop :=
  (p = 1%nat /\ mb = m) \/ exists q, p = S q /\ (1 <= q)%nat /\ object_step D slv i dt q tol m = Some (mb, q).

Lemma step_last (P : body -> Prop) i dt n tol (m m' : object) p : admissible D i dt -> healthy D m -> P (m_body m) ->
  (forall b b1 b2, P b -> watered D (b_st b) -> reached D (b_sys b) ->
     setup_body D i dt (b_st (m_body m)) b = Some b1 -> solve_body D slv i dt b1 = Some b2 -> P b2) ->
  object_step D slv i dt n tol m = Some (m', p) ->
  exists mb, before_last i dt tol m p mb /\ last_pass i dt (m_t m, save_body (m_body m)) P (m_body mb) m'.
Proof.
  intros Ha (W & Rc & Ws) Pm HP E. unfold object_step, step in E.
  set (f := fun (_ : bool) i dt v => setup_body D i dt (v_st v)) in *.
  assert (E0 : setup_step' body saved inputs save_body f true i dt m = setup_step' body saved inputs save_body f false i dt (object_save m)) by reflexivity.
  destruct (setup_step' _ _ _ _ _ true _ _ _) as [m1|] eqn:E1; [|discriminate]. cbn [bind] in E.
  destruct (solve_step' _ _ _ _ _ _ m1) as [m2|] eqn:E2; [|discriminate]. cbn [bind] in E.
  assert (L2 : last_pass i dt (m_t m, save_body (m_body m)) P (m_body m) m2)
    by (apply (pass_last i dt (m_t m, save_body (m_body m)) P Ha HP (object_save m) m1 m2); auto).
  destruct (Nat.ltb 0 (n - 1)) eqn:En; [|injection E as <- <-; exists m; split; [left|]; auto].
  destruct (all_below _ _ _ _) eqn:Eb; [injection E as <- <-; exists m; split; [left|]; auto|].
  destruct (iterate _ _ _ _ _ _ _ _ _ _ _ _ _ _) as [[r q]|] eqn:E3; [|discriminate]. cbn [bind fst snd] in E. injection E as <- <-.
  apply Nat.ltb_lt in En.
  destruct (iterate_last i dt (m_t m, save_body (m_body m)) P Ha HP _ _ _ _ _ _ _ L2 E3) as [(X & _)|(q' & mb & -> & Lb & Ib)]; [lia|].
  exists mb. split; [|exact Lb]. right. exists (S q'). split; [reflexivity|]. split; [lia|].
  unfold object_step, step. fold f. rewrite E1. cbn [bind]. rewrite E2. cbn [bind].
  change (iterate body saved inputs save_body f (fun i dt _ => solve_body D slv i dt) heads_of (n_M N) q' i dt tol (heads_of (m_body m2)) m2 = Some (mb, q')) in Ib.
  replace (S q' - 1)%nat with q' by lia. destruct q' as [|q']; [cbn in Ib |- *; injection Ib as <-; reflexivity|].
  cbn [Nat.ltb Nat.leb]. rewrite Eb, Ib. reflexivity.
Qed.

(** What one pass computed: geometry, coefficients, a solution of the assembled system, the new state. *)
Lemma pass_facts i dt sv b b1 b2 : admissible D i dt -> watered D (b_st b) -> reached D (b_sys b) ->
  setup_body D i dt sv b = Some b1 -> solve_body D slv i dt b1 = Some b2 ->
  exists bg Vs Ao u H, geometries D b = Some bg /\ wet N (geometry_of bg) /\ (forall j, (j < n_M N)%nat -> 0 < b_As bg j) /\
    storage_volumes D (b_st b) (b_Vs b) = Some Vs /\ orifice_areas D (b_st b) (i_uo i) (b_Ao b) = Some Ao /\
    setup_step N (geometry_of bg) (work_of (b_cf b)) (b_st b) sv (i_Q0 i) dt = Some u /\
    let '(CO, CW, CP) := controls_of D i (b_st b) Ao (b_Qo b) (b_Qw b) (b_Qp b) in
    let K := superlinks_of N (geometry_of bg) u in
    reachable (n_M N) (n_bc N) K CO CW CP (b_sys b) /\ network_ok (n_M N) K CO CW CP /\
    solves (n_M N) (matrix (n_M N) (n_bc N) K CO CW CP (b_As bg) (h_H sv) (i_Hbc i) (i_Qin i) dt (b_sys b))
      (s_b (assembled (n_M N) (n_bc N) K CO CW CP (b_As bg) (h_H sv) (i_Hbc i) (i_Qin i) dt (b_sys b))) H /\
    (forall H', solves (n_M N) (matrix (n_M N) (n_bc N) K CO CW CP (b_As bg) (h_H sv) (i_Hbc i) (i_Qin i) dt (b_sys b))
      (s_b (assembled (n_M N) (n_bc N) K CO CW CP (b_As bg) (h_H sv) (i_Hbc i) (i_Qin i) dt (b_sys b))) H' ->
      forall j, (j < n_M N)%nat -> H j = H' j) /\
    b_st b2 = M_Step.solve_step N u (b_st b) H /\ b_cf b2 = u /\ b_Ao b2 = Ao /\ b_Vs b2 = Vs /\
    b_thu b2 = (fun k => theta_k (h_H (b_st b) (n_Ju N k)) (n_zu N k)) /\
    b_thd b2 = (fun k => theta_k (h_H (b_st b) (n_Jd N k)) (n_zd N k)).
Proof.
  intros Ha W Rc E1 E2.
  destruct (setup_body_total D HD i dt sv b Ha W Rc) as (b1' & E1' & _ & R1 & [Ex Un]). rewrite E1 in E1'. injection E1' as <-.
  unfold solve_body in E2. destruct (Hslv _ _ Ex Un) as (H & EH & SH). rewrite EH in E2. cbn [bind] in E2. injection E2 as <-.
  destruct (setup_body_inv _ _ _ _ _ _ E1) as (bg & Vs & Ao & u & Eg & EV & EO & Eu & Eb).
  destruct (geometries_total D HD b W) as (bg' & Eg' & Wt & PA & _). rewrite Eg in Eg'. injection Eg' as <-.
  unfold controls_of in *. subst b1. cbn [b_cf b_st b_thu b_thd b_sys b_Ao b_Vs] in *.
  exists bg, Vs, Ao, u, H. repeat (split; [solve [auto]|]).
  set (CO := orifice_controls _ _ _ _ _) in *. set (CW := weir_controls _ _ _ _ _) in *. set (CP := pump_controls _ _ _ _ _) in *.
  set (K := superlinks_of N (geometry_of bg) u) in *.
  assert (SN : same_network (blank_links D) K [blank_or D; blank_we D; blank_pu D] [CO; CW; CP]) by (repeat split; reflexivity).
  split; [apply (reachable_transfer _ _ _ _ _ _ _ _ _ _ _ SN Rc)|].
  split; [|split; [exact SH|split; [intros H' SH'; exact (Un H H' SH SH')|auto 10]]].
  destruct HD as [Wf Z Mn Ln Nd En St Or We Pu]. split; [apply Wf|]. split; [apply Or|]. split; [exact We|apply Pu].
Qed.

Lemma geometries_at b bg : geometries D b = Some bg -> geometry_at D (b_st b) (b_thu b) (b_thd b) (geometry_of bg).
Proof.
  intros E. destruct (geometries_inv _ _ _ E) as (El & Eu & Ed & EA & _).
  constructor.
  - intros i Hi. pose proof (all_entries_spec _ _ _ _ El i Hi) as X. cbv beta zeta in X. eexists; eexists; split; [exact X|]. auto.
  - intros i Hi. pose proof (all_entries_spec _ _ _ _ Eu i Hi) as X. cbv beta zeta in X. eexists; eexists; split; [exact X|]. auto.
  - intros i Hi. pose proof (all_entries_spec _ _ _ _ Ed i Hi) as X. cbv beta zeta in X. eexists; eexists; split; [exact X|]. auto.
  - intros i Hi. exact (all_entries_spec _ _ _ _ EA i Hi).
Qed.

Lemma healthy_history m history m' : constructed D m -> (forall a, In a history -> allowed D a) -> perform_all D slv history m = Some m' ->
  healthy D m'.
Proof.
  intros (Es & W & Ws) Hall Ep.
  assert (Hm : healthy D m) by (split; [auto|split; [|auto]]; rewrite Es; constructor). clear Es W Ws.
  revert m Hm Ep. induction history as [|a l IH]; simpl; intros m Hm Ep; [injection Ep as <-; auto|].
  destruct (perform_total D slv HD Hslv a m) as (m1 & E1 & H1); auto; [apply Hall; now left|]. rewrite E1 in Ep. cbn [bind] in Ep.
  apply (IH (fun x Hx => Hall x (or_intror Hx)) m1); auto.
Qed.

Lemma limit_head_cases z mx H : 0 <= mx ->
  (H < z -> limit_head z mx H = z) /\ (z <= H <= z + mx -> limit_head z mx H = H) /\ (z + mx < H -> limit_head z mx H = z + mx).
Proof. intros Hm. unfold limit_head, Rmin, Rmax. repeat split; intros; destruct (Rle_dec H z); destruct (Rle_dec _ (z + mx)); lra. Qed.

(** C23: after any history, a step with any number of iterations gives every junction with a prescribed head exactly that
    head; a prescribed head outside the junction's limits is replaced by the nearer limit. *)
Theorem C23_step_takes_prescribed_heads : forall m history m1 i dt n tol m2 p j,
  constructed D m -> (forall a, In a history -> allowed D a) -> perform_all D slv history m = Some m1 ->
  admissible D i dt -> object_step D slv i dt n tol m1 = Some (m2, p) ->
  (j < n_M N)%nat -> n_bc N j = true -> 0 <= n_maxj N j ->
  let H := h_H (b_st (m_body m2)) j in
  (n_zj N j <= i_Hbc i j <= n_zj N j + n_maxj N j -> H = i_Hbc i j) /\
  (i_Hbc i j < n_zj N j -> H = n_zj N j) /\ (n_zj N j + n_maxj N j < i_Hbc i j -> H = n_zj N j + n_maxj N j).
Proof.
  intros m history m1 i dt n tol m2 p j Hc Hall Eh Ha E Hj Hb Hmx HH.
  pose proof (healthy_history _ _ _ Hc Hall Eh) as Hm.
  destruct (step_last (fun _ => True) i dt n tol m1 m2 p Ha Hm I) as (mb & Bl & b1 & _ & W & Rc & E1 & E2 & _); auto.
  destruct (pass_facts _ _ _ _ _ _ Ha W Rc E1 E2) as (bg & Vs & Ao & u & Hs & _ & _ & _ & _ & _ & _ & F). unfold controls_of in F.
  destruct F as (Hr & Hn & Sol & _ & Est & _).
  assert (EH : Hs j = i_Hbc i j).
  { refine (proj1 (proj2 (C23_boundary_row_prescribes_head _ _ _ _ _ _ _ _ _ _ _ _ j Hr Hn Hj Hb) Hs) (Sol j Hj)). }
  assert (E' : HH = limit_head (n_zj N j) (n_maxj N j) (i_Hbc i j)) by (unfold HH; rewrite Est, <- EH; reflexivity).
  rewrite E'. destruct (limit_head_cases (n_zj N j) (n_maxj N j) (i_Hbc i j) Hmx) as (A & B & C). auto.
Qed.

Lemma free_heads u st H : heads_free N (M_Step.solve_step N u st H) ->
  forall j, (j < n_M N)%nat -> h_H (M_Step.solve_step N u st H) j = H j.
Proof.
  intros Hf j Hj. specialize (Hf j Hj). revert Hf. unfold M_Step.solve_step. cbn [h_H].
  unfold limit_head, Rmin, Rmax. destruct (Rle_dec (H j) (n_zj N j)); destruct (Rle_dec _ (n_zj N j + n_maxj N j)); intros; lra.
Qed.

(** The balance after one pass, with the model's own coefficient tables; the theorem C22 below states them through the
    discharge laws. *)
Lemma pass_balance i dt sv b b1 b2 : admissible D i dt -> watered D (b_st b) -> reached D (b_sys b) ->
  setup_body D i dt sv b = Some b1 -> solve_body D slv i dt b1 = Some b2 -> heads_free N (b_st b2) ->
  exists bg Ao, geometries D b = Some bg /\ orifice_areas D (b_st b) (i_uo i) (b_Ao b) = Some Ao /\
  forall j, (j < n_M N)%nat -> n_bc N j = false ->
  let H := h_H (b_st b2) in
  junction_surface N (geometry_of bg) (h_H (b_st b)) j * (H j - h_H sv j) / dt
  = i_Qin i j
    + sum_if (fun k => Nat.eqb (n_Jd N k) j) (h_Qd (b_st b2)) (n_K N)
    - sum_if (fun k => Nat.eqb (n_Ju N k) j) (h_Qu (b_st b2)) (n_K N)
    + net_inflow (control_elements (orifice_controls (with_areas D Ao) (b_Qo b) (i_uo i) (h_H (b_st b)) (n_zj N))) H j
    + net_inflow (control_elements (weir_controls (d_we D) (b_Qw b) (i_uw i) (h_H (b_st b)) (n_zj N))) H j
    + net_inflow (control_elements (pump_controls (d_pu D) (b_Qp b) (i_up i) (h_H (b_st b)) (n_zj N))) H j.
Proof.
  intros Ha W Rc E1 E2 Hf.
  destruct (pass_facts _ _ _ _ _ _ Ha W Rc E1 E2) as (bg & Vs & Ao & u & Hs & Eg & Wt & _ & _ & EO & Eu & F). unfold controls_of in F.
  destruct F as (Hr & Hn & Sol & _ & Est & _).
  exists bg, Ao. split; [exact Eg|]. split; auto. intros j Hj Hb H.
  assert (EH : forall j, (j < n_M N)%nat -> H j = Hs j).
  { intros j' Hj'. unfold H. rewrite Est. rewrite Est in Hf. now apply free_heads. }
  set (CO := orifice_controls _ _ _ _ _) in *. set (CW := weir_controls _ _ _ _ _) in *. set (CP := pump_controls _ _ _ _ _) in *.
  pose proof (proj1 (C22_row_is_water_balance _ _ _ _ _ _ _ _ _ _ dt _ Hs j Hr Hn ltac:(destruct Ha; lra) Hj Hb) (Sol j Hj)) as B.
  pose proof (sd_z _ HD) as Hz. pose proof (wf_ends _ (sd_wf _ HD)) as He. destruct Hn as (_ & N2 & N3 & N4).
  assert (EC : forall C, ends_in (n_M N) (c_n C) (c_Ju C) (c_Jd C) -> net_inflow (control_elements C) H j = net_inflow (control_elements C) Hs j).
  { intros C HC. unfold net_inflow. simpl. f_equal; apply sum_if_ext; intros k Hk; (split; [reflexivity|]); intros _;
      destruct (HC k Hk); rewrite !EH by auto; reflexivity. }
  rewrite (EC CO N2), (EC CW N3), (EC CP N4), (EH j Hj).
  assert (EA : attached_area (b_As bg) (n_K N) (n_Ju N) (n_Jd N) (n_dxu N) (g_Bu (geometry_of bg)) (fun k => hl (u_hu u k)) (n_dxd N)
                 (g_Bd (geometry_of bg)) (fun k => hl (u_hd u k)) j = junction_surface N (geometry_of bg) (h_H (b_st b)) j).
  { unfold junction_surface, attached_area. cbn [geometry_of g_Asj].
    f_equal; [f_equal|]; apply sum_if_ext; intros k Hk; (split; [reflexivity|]); intros _.
    - destruct (setup_theta N _ _ _ _ _ _ u Eu k Hk) as (-> & _). reflexivity.
    - destruct (setup_theta N _ _ _ _ _ _ u Eu k Hk) as (_ & _ & -> & _). reflexivity. }
  cbn [superlinks_of k_n k_Ju k_Jd k_dxu k_Bu k_thu k_dxd k_Bd k_thd] in B. rewrite EA in B. rewrite B.
  assert (EK : net_inflow (superlink_elements (superlinks_of N (geometry_of bg) u)) Hs j
               = sum_if (fun k => Nat.eqb (n_Jd N k) j) (h_Qd (b_st b2)) (n_K N)
                 - sum_if (fun k => Nat.eqb (n_Ju N k) j) (h_Qu (b_st b2)) (n_K N)).
  { unfold net_inflow. simpl. f_equal; apply sum_if_ext; intros k Hk; (split; [reflexivity|]); intros _;
      destruct (He k Hk) as [J1 J2]; rewrite <- (EH _ J1), <- (EH _ J2); unfold H; rewrite Est; reflexivity. }
  rewrite EK. ring.
Qed.

Lemma step_balance : forall m history m1 i dt n tol m2 p,
  constructed D m -> (forall a, In a history -> allowed D a) -> perform_all D slv history m = Some m1 ->
  admissible D i dt -> object_step D slv i dt n tol m1 = Some (m2, p) -> heads_free N (b_st (m_body m2)) ->
  exists mb G Ao, let b := m_body mb in before_last i dt tol m1 p mb /\ geometry_at D (b_st b) (b_thu b) (b_thd b) G /\ orifice_areas D (b_st b) (i_uo i) (b_Ao b) = Some Ao /\
  forall j, (j < n_M N)%nat -> n_bc N j = false ->
  let H := h_H (b_st (m_body m2)) in
  junction_surface N G (h_H (b_st b)) j * (H j - h_H (b_st (m_body m1)) j) / dt
  = i_Qin i j
    + sum_if (fun k => Nat.eqb (n_Jd N k) j) (h_Qd (b_st (m_body m2))) (n_K N)
    - sum_if (fun k => Nat.eqb (n_Ju N k) j) (h_Qu (b_st (m_body m2))) (n_K N)
    + net_inflow (control_elements (orifice_controls (with_areas D Ao) (b_Qo b) (i_uo i) (h_H (b_st b)) (n_zj N))) H j
    + net_inflow (control_elements (weir_controls (d_we D) (b_Qw b) (i_uw i) (h_H (b_st b)) (n_zj N))) H j
    + net_inflow (control_elements (pump_controls (d_pu D) (b_Qp b) (i_up i) (h_H (b_st b)) (n_zj N))) H j.
Proof.
  intros m history m1 i dt n tol m2 p Hc Hall Eh Ha E Hf.
  pose proof (healthy_history _ _ _ Hc Hall Eh) as Hm.
  destruct (step_last (fun _ => True) i dt n tol m1 m2 p Ha Hm I) as (mb & Bl & b1 & _ & W & Rc & E1 & E2 & _); auto.
  destruct (pass_balance _ _ _ _ _ _ Ha W Rc E1 E2 Hf) as (bg & Ao & Eg & EO & B).
  exists mb, (geometry_of bg), Ao. split; [exact Bl|]. split; [now apply geometries_at|]. split; auto.
Qed.

(** C22, C35: after any history, if a step leaves all heads strictly between their limits, the balance of every junction
    without prescribed head holds with the flows the object then reports for the superlinks and with control flows [qo],
    [qw], [qp] that are linearisations of the discharge laws at the heads before the last pass (object [mb]) around the
    flows reported there; the orifices are open as at these heads, and the water surface is the one at these heads. *)
Theorem C22_step_balances_every_junction : forall m history m1 i dt n tol m2 p,
  constructed D m -> (forall a, In a history -> allowed D a) -> perform_all D slv history m = Some m1 ->
  admissible D i dt -> object_step D slv i dt n tol m1 = Some (m2, p) -> heads_free N (b_st (m_body m2)) ->
  exists mb G (qo qw qp : nat -> R -> R -> R),
  let b := m_body mb in let Hb := h_H (b_st b) in let H := h_H (b_st (m_body m2)) in
  let O := d_or D in let W := d_we D in let P := d_pu D in
  before_last i dt tol m1 p mb /\ geometry_at D (b_st b) (b_thu b) (b_thd b) G /\
  (forall o, (o < o_n O)%nat -> exists A_old A,
     orifice_geometry (d_ocode D o) (i_uo i o) (Rmax (Hb (o_Ju O o)) (Hb (o_Jd O o)) - n_zj N (o_Ju O o) - o_z O o)
       (d_o1 D o) (d_o2 D o) (d_o3 D o) A_old = Some A /\
     (0 <= o_tau O o * o_ymax O o * i_uo i o ->
      linearises (orifice_law A (o_C O o) (n_zj N (o_Ju O o) + o_z O o) (o_tau O o * o_ymax O o * i_uo i o)
                    (Hb (o_Ju O o)) (Hb (o_Jd O o)) (o_oneway O o))
        (b_Qo b o) (Hb (o_Ju O o)) (Hb (o_Jd O o)) (qo o))) /\
  (forall w, (w < w_n W)%nat ->
     linearises (weir_law (w_L W w) (w_s W w) (w_Cr W w) (w_Ct W w)
                   (n_zj N (w_Ju W w) + w_z W w + (1 - i_uw i w) * w_ymax W w) (Hb (w_Ju W w)) (Hb (w_Jd W w)))
       (b_Qw b w) (Hb (w_Ju W w)) (Hb (w_Jd W w)) (qw w)) /\
  (forall q, (q < p_n P)%nat ->
     (exists al be ch, 0 <= al /\ be <= 0 /\ forall Hu Hd, qp q Hu Hd = al * Hu + be * Hd + ch) /\
     (Hb (p_Ju P q) <= n_zj N (p_Ju P q) + p_z P q -> forall Hu Hd, qp q Hu Hd = 0) /\
     let dH := Rmax (p_min P q) (Rmin (p_max P q) (Hb (p_Jd P q) - Hb (p_Ju P q))) in
     (n_zj N (p_Ju P q) + p_z P q < Hb (p_Ju P q) -> 0 < b_Qp b q ->
      p_b P q * fpow (b_Qp b q) (p_c P q) = i_up i q * (p_a P q - dH) ->
      qp q (Hb (p_Ju P q)) (Hb (p_Jd P q)) = b_Qp b q)) /\
  forall j, (j < n_M N)%nat -> n_bc N j = false ->
  junction_surface N G Hb j * (H j - h_H (b_st (m_body m1)) j) / dt
  = i_Qin i j
    + sum_if (fun k => Nat.eqb (n_Jd N k) j) (h_Qd (b_st (m_body m2))) (n_K N)
    - sum_if (fun k => Nat.eqb (n_Ju N k) j) (h_Qu (b_st (m_body m2))) (n_K N)
    + (sum_if (fun o => Nat.eqb (o_Jd O o) j) (fun o => qo o (H (o_Ju O o)) (H (o_Jd O o))) (o_n O)
       - sum_if (fun o => Nat.eqb (o_Ju O o) j) (fun o => qo o (H (o_Ju O o)) (H (o_Jd O o))) (o_n O))
    + (sum_if (fun w => Nat.eqb (w_Jd W w) j) (fun w => qw w (H (w_Ju W w)) (H (w_Jd W w))) (w_n W)
       - sum_if (fun w => Nat.eqb (w_Ju W w) j) (fun w => qw w (H (w_Ju W w)) (H (w_Jd W w))) (w_n W))
    + (sum_if (fun q => Nat.eqb (p_Jd P q) j) (fun q => qp q (H (p_Ju P q)) (H (p_Jd P q))) (p_n P)
       - sum_if (fun q => Nat.eqb (p_Ju P q) j) (fun q => qp q (H (p_Ju P q)) (H (p_Jd P q))) (p_n P)).
Proof.
  intros m history m1 i dt n tol m2 p Hc Hall Eh Ha E Hf.
  destruct (step_balance _ _ _ _ _ _ _ _ _ Hc Hall Eh Ha E Hf) as (mb & G & Ao & Bl & Ga & EO & B).
  set (Hb := h_H (b_st (m_body mb))) in *. set (O := d_or D) in *. set (W := d_we D) in *. set (P := d_pu D) in *.
  exists mb, G,
    (fun o => linear_orifice (b_Qo (m_body mb) o) (Ao o) (o_C O o) (Hb (o_Ju O o)) (Hb (o_Jd O o)) (i_uo i o) (n_zj N (o_Ju O o)) (o_z O o)
                (o_tau O o) (o_ymax O o) (o_oneway O o)),
    (fun w => linear_weir (b_Qw (m_body mb) w) (Hb (w_Ju W w)) (Hb (w_Jd W w)) (i_uw i w) (n_zj N (w_Ju W w)) (w_z W w) (w_ymax W w) (w_L W w)
                (w_s W w) (w_Cr W w) (w_Ct W w)),
    (fun q => linear_pump (b_Qp (m_body mb) q) (Hb (p_Ju P q)) (Hb (p_Jd P q)) (i_up i q) (n_zj N (p_Ju P q)) (p_z P q) (p_max P q) (p_min P q)
                (p_a P q) (p_b P q) (p_c P q)).
  intros b Hb' H O' W' P'. unfold b, Hb', O', W', P'. clear Hb' O' W' P'. fold Hb O W P.
  split; [exact Bl|]. split; [exact Ga|]. split; [|split; [|split]].
  - intros o Ho. exists (b_Ao (m_body mb) o), (Ao o). split; [exact (all_entries_spec _ _ _ _ EO o Ho)|].
    intros Hy. now apply C35_linearised_orifice_around_any_flow.
  - intros w Hw. apply C35_linearised_weir_around_any_flow.
  - intros q Hq. destruct (sd_pu _ HD) as [_ Pu]. destruct (Pu q Hq) as (B1 & B2 & B3). destruct Ha as (_ & Hup & _).
    apply linear_pump_law; [now apply Hup|exact B1|exact B2|apply B3].
  - intros j Hj Hbj. specialize (B j Hj Hbj). cbv zeta in B. fold Hb in B. refine (eq_trans B _). unfold net_inflow.
    cbn [control_elements e_n e_Ju e_Jd e_in e_out orifice_controls weir_controls pump_controls from_coeffs c_n c_Ju c_Jd c_a c_b c_c with_areas o_n o_Ju o_Jd o_A o_C o_z o_tau o_ymax o_oneway].
    fold O W P H. unfold linear_orifice, linear_weir, linear_pump.
    f_equal; [f_equal; [f_equal|]|]; f_equal; apply sum_if_ext; intros k Hk; (split; [reflexivity|]); intros _;
      match goal with |- context [fst (fst ?c)] => destruct c as [[al be] ch] end; reflexivity.
Qed.

(** C26: after any history, on a network without prescribed heads (default end method), if a step leaves all heads strictly
    between their limits and all internal depths inside theirs, the stored volume has changed by dt times the inflow since
    the state before the step; the water surface is the one before the last pass (object [mb]). *)
Theorem C26_object_conserves_volume : forall m history m1 i dt n tol m2 p,
  constructed D m -> (forall a, In a history -> allowed D a) -> perform_all D slv history m = Some m1 ->
  admissible D i dt -> object_step D slv i dt n tol m1 = Some (m2, p) ->
  n_end_o N = false -> (forall j, (j < n_M N)%nat -> n_bc N j = false) ->
  heads_free N (b_st (m_body m2)) -> depths_inside N (b_cf (m_body m2)) (b_st (m_body m2)) ->
  exists mb G, let b := m_body mb in before_last i dt tol m1 p mb /\ geometry_at D (b_st b) (b_thu b) (b_thd b) G /\
    stored_volume_change N G (h_H (b_st b)) (b_st (m_body m1)) (b_st (m_body m2)) = dt * total_inflow N (i_Qin i) (i_Q0 i).
Proof.
  intros m history m1 i dt n tol m2 p Hc Hall Eh Ha E He Hb Hf Hd.
  pose proof (healthy_history _ _ _ Hc Hall Eh) as Hm.
  destruct (step_last (fun _ => True) i dt n tol m1 m2 p Ha Hm I) as (mb & Bl & b1 & _ & W & Rc & E1 & E2 & _); auto.
  destruct (pass_facts _ _ _ _ _ _ Ha W Rc E1 E2) as (bg & Vs & Ao & u & Hs & Eg & Wt & _ & _ & EO & Eu & F). unfold controls_of in F.
  destruct F as (Hr & Hn & Sol & _ & Est & Ecf & _).
  set (b := m_body mb) in *. exists mb, (geometry_of bg). split; [exact Bl|]. fold b. split; [now apply geometries_at|].
  rewrite Ecf in Hd. rewrite Est in Hf, Hd |- *.
  refine (C26_step_conserves_volume N (geometry_of bg) _ (b_st b) (b_st (m_body m1)) (i_Q0 i) (i_Qin i) dt u _ _ _ (i_Hbc i) (b_sys b) Hs
            (sd_wf _ HD) Wt (proj1 Ha) (or_introl (sd_z _ HD)) He Hb Eu Hr Hn Sol _ Hd).
  intros j Hj. rewrite <- (free_heads u (b_st b) Hs Hf j Hj). specialize (Hf j Hj). lra.
Qed.

(** The control flows the object reports after a step; summary of the three theorems below. *)
Lemma reported_flows_healthy : forall m1 i dt n tol m2 p,
  healthy D m1 ->
  admissible D i dt -> object_step D slv i dt n tol m1 = Some (m2, p) ->
  let H := h_H (b_st (m_body m2)) in
  exists mb, before_last i dt tol m1 p mb /\ let st := b_st (m_body mb) in
  (forall o, (o < o_n (d_or D))%nat -> exists A_old A V_u V_d, let O := d_or D in
     orifice_geometry (d_ocode D o) (i_uo i o) (Rmax (h_H st (o_Ju O o)) (h_H st (o_Jd O o)) - n_zj N (o_Ju O o) - o_z O o)
       (d_o1 D o) (d_o2 D o) (d_o3 D o) A_old = Some A /\
     storage_volume (d_store D (o_Ju O o)) (Rmax (h_H st (o_Ju O o) - n_zj N (o_Ju O o)) (n_min N)) = Some V_u /\
     storage_volume (d_store D (o_Jd O o)) (Rmax (h_H st (o_Jd O o) - n_zj N (o_Jd O o)) (n_min N)) = Some V_d /\
     (0 <= o_tau O o * o_ymax O o * i_uo i o ->
      let Q := orifice_law A (o_C O o) (n_zj N (o_Ju O o) + o_z O o) (o_tau O o * o_ymax O o * i_uo i o)
                 (H (o_Ju O o)) (H (o_Jd O o)) (o_oneway O o) in
      let V := if Rltb (H (o_Jd O o)) (H (o_Ju O o)) then V_u else V_d in
      (Rabs Q * dt <= V -> b_Qo (m_body m2) o = Q) /\
      (0 <= V < Rabs Q * dt -> b_Qo (m_body m2) o = (if Rltb Q 0 then - V else V) / dt))) /\
  (forall w, (w < w_n (d_we D))%nat -> let W := d_we D in
     b_Qw (m_body m2) w = weir_law (w_L W w) (w_s W w) (w_Cr W w) (w_Ct W w)
       (n_zj N (w_Ju W w) + w_z W w + (1 - i_uw i w) * w_ymax W w) (H (w_Ju W w)) (H (w_Jd W w))) /\
  (forall q, (q < p_n (d_pu D))%nat -> let P := d_pu D in
     let Q := b_Qp (m_body m2) q in
     0 <= Q /\ (H (p_Ju P q) <= n_zj N (p_Ju P q) + p_z P q -> Q = 0) /\ (i_up i q = 0 -> Q = 0) /\
     (n_zj N (p_Ju P q) + p_z P q < H (p_Ju P q) -> 0 < i_up i q ->
      p_min P q <= H (p_Jd P q) - H (p_Ju P q) <= p_max P q ->
      p_b P q * fpow Q (p_c P q) = i_up i q * (p_a P q - (H (p_Jd P q) - H (p_Ju P q))))).
Proof.
  intros m1 i dt n tol m2 p Hm Ha E H.
  destruct (step_last (fun _ => True) i dt n tol m1 m2 p Ha Hm I) as (mb & Bl & b1 & _ & W & Rc & E1 & E2 & _); auto.
  destruct (setup_body_inv _ _ _ _ _ _ E1) as (bg & Vs & Ao & u & Eg & EV & EO & Eu & Eb). unfold controls_of in Eb.
  unfold solve_body in E2. destruct (slv _ _) as [Hs|]; [|discriminate]. cbn [bind] in E2. injection E2 as E2.
  set (b := m_body mb) in *. exists mb. split; [exact Bl|]. fold b. pose proof HD as [Wf Z Mn Ln Nd En St Or We Pu]. destruct Ha as (Hdt & Hup & Huo).
  assert (EQo : b_Qo (m_body m2) = if Nat.eqb (o_n (d_or D)) 0 then b_Qo b1 else
    (fun k => let O := d_or D in solve_orifice_flows (b_Ao b1 k) (o_C O k) (H (o_Ju O k)) (H (o_Jd O k)) (i_uo i k) (n_zj N (o_Ju O k)) (o_z O k)
                (o_tau O k) (o_ymax O k) (o_oneway O k) (b_Vs b1 (o_Ju O k)) (b_Vs b1 (o_Jd O k)) dt)) by (unfold H; rewrite <- E2; reflexivity).
  assert (EQw : b_Qw (m_body m2) = if Nat.eqb (w_n (d_we D)) 0 then b_Qw b1 else
    (fun k => let W := d_we D in weir_discharge (H (w_Ju W k)) (H (w_Jd W k)) (i_uw i k) (n_zj N (w_Ju W k)) (w_z W k) (w_ymax W k) (w_L W k)
                (w_s W k) (w_Cr W k) (w_Ct W k))) by (unfold H; rewrite <- E2; reflexivity).
  assert (EQp : b_Qp (m_body m2) = if Nat.eqb (p_n (d_pu D)) 0 then b_Qp b1 else
    (fun k => let P := d_pu D in pump_discharge (H (p_Ju P k)) (H (p_Jd P k)) (i_up i k) (n_zj N (p_Ju P k)) (p_z P k) (p_max P k) (p_min P k)
                (p_a P k) (p_b P k) (p_c P k))) by (unfold H; rewrite <- E2; reflexivity).
  clear E2 E. split; [|split].
  - intros o Ho. destruct Or as [Or _]. destruct (Or o Ho) as [J1 J2].
    destruct (Nat.eqb_spec (o_n (d_or D)) 0); [lia|].
    exists (b_Ao b o), (Ao o), (Vs (o_Ju (d_or D) o)), (Vs (o_Jd (d_or D) o)). intros O.
    split; [exact (all_entries_spec _ _ _ _ EO o Ho)|]. split; [exact (all_entries_spec _ _ _ _ EV _ J1)|].
    split; [exact (all_entries_spec _ _ _ _ EV _ J2)|]. intros Hy Q V.
    rewrite EQo. rewrite Eb. cbn [b_Ao b_Vs]. cbv zeta. unfold solve_orifice_flows. rewrite C33_orifice_discharge_is_the_law by exact Hy.
    fold O. fold Q. unfold limit_orifice. fold V. unfold sign, Rabs.
    split; intros HV.
    + assert (X : (if Rcase_abs Q then - Q else Q) <= V / dt).
      { apply (Rmult_le_reg_r dt); auto. unfold Rdiv. rewrite Rmult_assoc, Rinv_l, Rmult_1_r by lra. exact HV. }
      rewrite Rmin_left by exact X. destruct (Rcase_abs Q); destruct (Rltb_spec Q 0); destruct (Rltb_spec 0 Q); lra.
    + assert (X : V / dt <= (if Rcase_abs Q then - Q else Q)).
      { apply (Rmult_le_reg_r dt); auto. unfold Rdiv. rewrite Rmult_assoc, Rinv_l, Rmult_1_r by lra. unfold Rabs in HV. lra. }
      rewrite Rmin_right by exact X. unfold Rabs in HV. destruct (Rcase_abs Q); destruct (Rltb_spec Q 0); destruct (Rltb_spec 0 Q); try lra.
      all: match goal with |- _ * (?v / _) = _ => change v with V end; try (unfold Rdiv; ring).
      exfalso. assert (X0 : Q = 0) by lra. rewrite X0 in HV. lra.
  - intros w Hw W0. rewrite EQw. destruct (Nat.eqb_spec (w_n (d_we D)) 0); [lia|]. cbv zeta. apply C36_weir_discharge_is_the_law.
  - intros q Hq P Q. unfold Q. rewrite EQp. destruct (Nat.eqb_spec (p_n (d_pu D)) 0); [lia|]. cbv zeta. fold P.
    destruct Pu as [_ Pu]. destruct (Pu q Hq) as (B1 & B2 & B3). fold P in B1, B2, B3.
    destruct (C37_pump_flow (H (p_Ju P q)) (H (p_Jd P q)) (i_up i q) (n_zj N (p_Ju P q)) (p_z P q) (p_max P q) (p_min P q) (p_a P q)
      (p_b P q) (p_c P q) (Hup q Hq) B1 B2 (proj1 B3) (proj2 B3)) as (C1 & C2 & C3 & _ & C4). repeat split; auto.
Qed.

Lemma reported_flows : forall m history m1 i dt n tol m2 p,
  constructed D m -> (forall a, In a history -> allowed D a) -> perform_all D slv history m = Some m1 ->
  admissible D i dt -> object_step D slv i dt n tol m1 = Some (m2, p) ->
  let H := h_H (b_st (m_body m2)) in
  exists mb, before_last i dt tol m1 p mb /\ let st := b_st (m_body mb) in
  (forall o, (o < o_n (d_or D))%nat -> exists A_old A V_u V_d, let O := d_or D in
     orifice_geometry (d_ocode D o) (i_uo i o) (Rmax (h_H st (o_Ju O o)) (h_H st (o_Jd O o)) - n_zj N (o_Ju O o) - o_z O o)
       (d_o1 D o) (d_o2 D o) (d_o3 D o) A_old = Some A /\
     storage_volume (d_store D (o_Ju O o)) (Rmax (h_H st (o_Ju O o) - n_zj N (o_Ju O o)) (n_min N)) = Some V_u /\
     storage_volume (d_store D (o_Jd O o)) (Rmax (h_H st (o_Jd O o) - n_zj N (o_Jd O o)) (n_min N)) = Some V_d /\
     (0 <= o_tau O o * o_ymax O o * i_uo i o ->
      let Q := orifice_law A (o_C O o) (n_zj N (o_Ju O o) + o_z O o) (o_tau O o * o_ymax O o * i_uo i o)
                 (H (o_Ju O o)) (H (o_Jd O o)) (o_oneway O o) in
      let V := if Rltb (H (o_Jd O o)) (H (o_Ju O o)) then V_u else V_d in
      (Rabs Q * dt <= V -> b_Qo (m_body m2) o = Q) /\
      (0 <= V < Rabs Q * dt -> b_Qo (m_body m2) o = (if Rltb Q 0 then - V else V) / dt))) /\
  (forall w, (w < w_n (d_we D))%nat -> let W := d_we D in
     b_Qw (m_body m2) w = weir_law (w_L W w) (w_s W w) (w_Cr W w) (w_Ct W w)
       (n_zj N (w_Ju W w) + w_z W w + (1 - i_uw i w) * w_ymax W w) (H (w_Ju W w)) (H (w_Jd W w))) /\
  (forall q, (q < p_n (d_pu D))%nat -> let P := d_pu D in
     let Q := b_Qp (m_body m2) q in
     0 <= Q /\ (H (p_Ju P q) <= n_zj N (p_Ju P q) + p_z P q -> Q = 0) /\ (i_up i q = 0 -> Q = 0) /\
     (n_zj N (p_Ju P q) + p_z P q < H (p_Ju P q) -> 0 < i_up i q ->
      p_min P q <= H (p_Jd P q) - H (p_Ju P q) <= p_max P q ->
      p_b P q * fpow Q (p_c P q) = i_up i q * (p_a P q - (H (p_Jd P q) - H (p_Ju P q))))).
Proof.
  intros m history m1 i dt n tol m2 p Hc Hall Eh. exact (reported_flows_healthy m1 i dt n tol m2 p (healthy_history _ _ _ Hc Hall Eh)).
Qed.

(** C33: after any history, the flow an orifice reports is the discharge law at the reported heads, with the open area of
    its section filled to the higher head before the last pass (object [mb]), limited by the volume stored there. *)
Theorem C33_object_reports_orifice_law : forall m history m1 i dt n tol m2 p,
  constructed D m -> (forall a, In a history -> allowed D a) -> perform_all D slv history m = Some m1 ->
  admissible D i dt -> object_step D slv i dt n tol m1 = Some (m2, p) ->
  let H := h_H (b_st (m_body m2)) in
  exists mb, before_last i dt tol m1 p mb /\ let st := b_st (m_body mb) in
  (forall o, (o < o_n (d_or D))%nat -> exists A_old A V_u V_d, let O := d_or D in
     orifice_geometry (d_ocode D o) (i_uo i o) (Rmax (h_H st (o_Ju O o)) (h_H st (o_Jd O o)) - n_zj N (o_Ju O o) - o_z O o)
       (d_o1 D o) (d_o2 D o) (d_o3 D o) A_old = Some A /\
     storage_volume (d_store D (o_Ju O o)) (Rmax (h_H st (o_Ju O o) - n_zj N (o_Ju O o)) (n_min N)) = Some V_u /\
     storage_volume (d_store D (o_Jd O o)) (Rmax (h_H st (o_Jd O o) - n_zj N (o_Jd O o)) (n_min N)) = Some V_d /\
     (0 <= o_tau O o * o_ymax O o * i_uo i o ->
      let Q := orifice_law A (o_C O o) (n_zj N (o_Ju O o) + o_z O o) (o_tau O o * o_ymax O o * i_uo i o)
                 (H (o_Ju O o)) (H (o_Jd O o)) (o_oneway O o) in
      let V := if Rltb (H (o_Jd O o)) (H (o_Ju O o)) then V_u else V_d in
      (Rabs Q * dt <= V -> b_Qo (m_body m2) o = Q) /\
      (0 <= V < Rabs Q * dt -> b_Qo (m_body m2) o = (if Rltb Q 0 then - V else V) / dt))).
Proof.
  intros m history m1 i dt n tol m2 p Hc Hall Eh Ha E H. destruct (reported_flows _ _ _ _ _ _ _ _ _ Hc Hall Eh Ha E) as (mb & Bl & X & _). exists mb. split; [exact Bl|exact X].
Qed.

(** C36: after any history, the flow a weir reports is the discharge law at the reported heads. *)
Theorem C36_object_reports_weir_law : forall m history m1 i dt n tol m2 p,
  constructed D m -> (forall a, In a history -> allowed D a) -> perform_all D slv history m = Some m1 ->
  admissible D i dt -> object_step D slv i dt n tol m1 = Some (m2, p) ->
  let H := h_H (b_st (m_body m2)) in
  (forall w, (w < w_n (d_we D))%nat -> let W := d_we D in
     b_Qw (m_body m2) w = weir_law (w_L W w) (w_s W w) (w_Cr W w) (w_Ct W w)
       (n_zj N (w_Ju W w) + w_z W w + (1 - i_uw i w) * w_ymax W w) (H (w_Ju W w)) (H (w_Jd W w))).
Proof.
  intros m history m1 i dt n tol m2 p Hc Hall Eh Ha E H. destruct (reported_flows _ _ _ _ _ _ _ _ _ Hc Hall Eh Ha E) as (mb & _ & _ & X & _). exact X.
Qed.

(** C37: after any history, the flow a pump reports is on its curve at the reported heads. *)
Theorem C37_object_reports_pump_curve : forall m history m1 i dt n tol m2 p,
  constructed D m -> (forall a, In a history -> allowed D a) -> perform_all D slv history m = Some m1 ->
  admissible D i dt -> object_step D slv i dt n tol m1 = Some (m2, p) ->
  let H := h_H (b_st (m_body m2)) in
  (forall q, (q < p_n (d_pu D))%nat -> let P := d_pu D in
     let Q := b_Qp (m_body m2) q in
     0 <= Q /\ (H (p_Ju P q) <= n_zj N (p_Ju P q) + p_z P q -> Q = 0) /\ (i_up i q = 0 -> Q = 0) /\
     (n_zj N (p_Ju P q) + p_z P q < H (p_Ju P q) -> 0 < i_up i q ->
      p_min P q <= H (p_Jd P q) - H (p_Ju P q) <= p_max P q ->
      p_b P q * fpow Q (p_c P q) = i_up i q * (p_a P q - (H (p_Jd P q) - H (p_Ju P q))))).
Proof.
  intros m history m1 i dt n tol m2 p Hc Hall Eh Ha E H. destruct (reported_flows _ _ _ _ _ _ _ _ _ Hc Hall Eh Ha E) as (mb & _ & _ & _ & X). exact X.
Qed.

End Passes.

(** ** C28 over whole runs *)
Section Rest.
Variable D : design.
Variable slv : mat -> arr -> option arr.
Local Notation N := (d_net D).
Hypothesis HD : sound D.
Hypothesis Hslv : solver (n_M N) slv.
Variables (zI : arr) (H0 : R).
Hypothesis Hbed : bed N zI.
Hypothesis Hlev : level_inside N zI H0.

Lemma surface_positive G H j : wet N G -> (j < n_M N)%nat -> 0 < g_Asj G j -> 0 < junction_surface N G H j.
Proof.
  intros Wt Hj HA. unfold junction_surface, attached_area.
  assert (P : forall p f n, (forall k, (k < n)%nat -> 0 <= f k) -> 0 <= sum_if p f n).
  { intros p f n Hf. unfold sum_if. induction n as [|n IH]; simpl; [lra|].
    assert (0 <= sum_n (fun k => if p k then f k else 0) n) by (apply IH; intros; apply Hf; lia).
    specialize (Hf n ltac:(lia)). destruct (p n); lra. }
  assert (A : forall x y, 0 <= above x y) by (intros; unfold above; destruct (Rleb _ _); lra).
  match goal with |- 0 < _ + ?a + ?b => assert (0 <= a /\ 0 <= b) end; [|lra].
  split; apply P; intros k Hk; destruct (wet_ends _ _ Wt k Hk) as (B1 & B2 & B3 & B4); apply Rmult_le_pos; try lra;
    repeat apply Rmult_le_pos; auto.
Qed.

Lemma quiet_controls st i Ao Qo Qw Qp : quiet D H0 i -> at_rest N zI H0 st ->
  let '(CO, CW, CP) := controls_of D i st Ao Qo Qw Qp in idle CO H0 /\ idle CW H0 /\ idle CP H0.
Proof.
  intros Hq Hst. unfold controls_of. pose proof (C28_controls_idle_at_rest H0) as (IW & IO & IP).
  pose proof HD as [Wf Z Mn Ln Nd En St Or We Pu]. destruct Or as [Or _]. destruct Pu as [Pu _]. pose proof (ar_heads _ _ _ _ Hst) as EH.
  split; [|split].
  - assert (X := IO (with_areas D Ao) Qo (i_uo i) (n_zj N)). intros k Hk. simpl in Hk.
    assert (Y : forall k, (k < o_n (with_areas D Ao))%nat ->
      0 <= o_tau (with_areas D Ao) k * o_ymax (with_areas D Ao) k * i_uo i k /\
      (Qo k = 0 \/ o_A (with_areas D Ao) k = 0 \/ H0 <= n_zj N (o_Ju (with_areas D Ao) k) + o_z (with_areas D Ao) k \/
       n_zj N (o_Ju (with_areas D Ao) k) + o_z (with_areas D Ao) k + o_tau (with_areas D Ao) k * o_ymax (with_areas D Ao) k * i_uo i k < H0)).
    { intros o Ho. destruct (q_orifices _ _ _ Hq o Ho) as [A B]. split; [exact A|]. right. right. exact B. }
    specialize (X Y k Hk). simpl in X |- *. destruct (Or k Hk) as [J1 J2]. rewrite !EH by auto. exact X.
  - intros k Hk. specialize (IW (d_we D) Qw (i_uw i) (n_zj N) k Hk). simpl in IW, Hk |- *. destruct (We k Hk) as [J1 J2]. rewrite !EH by auto. exact IW.
  - intros k Hk. specialize (IP (d_pu D) Qp (i_up i) (n_zj N) (q_pumps _ _ _ Hq) k Hk). simpl in IP, Hk |- *.
    destruct (Pu k Hk) as [J1 J2]. rewrite !EH by auto. exact IP.
Qed.

Lemma rest_pass i dt sv b b1 b2 : admissible D i dt -> quiet D H0 i -> at_rest N zI H0 sv -> watered D (b_st b) -> reached D (b_sys b) ->
  still D zI H0 b -> setup_body D i dt sv b = Some b1 -> solve_body D slv i dt b1 = Some b2 -> still D zI H0 b2.
Proof.
  intros Ha Hq Hsv W Rc [Hb Zo Zw Zp] E1 E2.
  destruct (pass_facts D slv HD Hslv _ _ _ _ _ _ Ha W Rc E1 E2) as (bg & Vs & Ao & u & Hs & Eg & Wt & PA & _ & EO & Eu & F).
  pose proof (quiet_controls (b_st b) i Ao (b_Qo b) (b_Qw b) (b_Qp b) Hq Hb) as IC. unfold controls_of in F, IC.
  destruct F as (Hr & Hn & Sol & _ & Est & _). destruct IC as (IO & IW & IP).
  destruct C35_linearised_controls_are_ordered as (OO & OW & OP).
  pose proof HD as [Wf Z Mn Ln Nd En St Or We Pu]. destruct Or as [Or _]. destruct Pu as [Pj Pu]. pose proof Ha as (Hdt & Hup & _).
  assert (R2 : at_rest N zI H0 (b_st b2)).
  { rewrite Est.
    refine (proj2 (C28_water_at_rest_stays_at_rest N (geometry_of bg) _ (b_st b) sv (i_Q0 i) (i_Qin i) dt u _ _ _ (i_Hbc i) (b_sys b) zI H0
      Wf Wt Hdt (or_introl Z) Hbed Hlev Hb Hsv (q_in_internal _ _ _ Hq) (q_in _ _ _ Hq) (q_bc _ _ _ Hq) (OO _ _ _ _ _) (OW _ _ _ _ _) (OP _ _ _ _ _ _)
      IO IW IP _ Eu Hr Hn) Hs Sol).
    - intros k Hk. split; [apply Hup; auto|apply Pu; auto].
    - intros j Hj _. apply surface_positive; auto. apply PA; auto. }
  pose proof (ar_heads _ _ _ _ R2) as EH. unfold solve_body in E2. destruct (slv _ _) as [x|]; [|discriminate]. cbn [bind] in E2.
  injection E2 as <-. cbn [b_st h_H] in EH.
  constructor; [exact R2| | |].
  - intros o Ho. cbn [b_Qo]. destruct (Nat.eqb_spec (o_n (d_or D)) 0); [lia|]. cbv zeta. destruct (Or o Ho) as [J1 J2].
    match goal with |- context [solve_orifice_flows ?a ?c ?hu ?hd ?u ?zi ?zo ?ta ?ym ?ow ?vu ?vd ?t] =>
      change hu with (limit_head (n_zj N (o_Ju (d_or D) o)) (n_maxj N (o_Ju (d_or D) o)) (x (o_Ju (d_or D) o)));
      change hd with (limit_head (n_zj N (o_Jd (d_or D) o)) (n_maxj N (o_Jd (d_or D) o)) (x (o_Jd (d_or D) o))) end.
    pose proof (EH _ J1) as EH1. pose proof (EH _ J2) as EH2. cbn [M_Step.solve_step h_H] in EH1, EH2. rewrite EH1, EH2.
    destruct (q_orifices _ _ _ Hq o Ho) as [A B]. unfold solve_orifice_flows. rewrite C33_orifice_discharge_is_the_law by exact A.
    assert (X : forall a c ow, orifice_law a c (n_zj N (o_Ju (d_or D) o) + o_z (d_or D) o) (o_tau (d_or D) o * o_ymax (d_or D) o * i_uo i o) H0 H0 ow = 0).
    { intros a c ow. unfold orifice_law. destruct (ow && Rleb H0 H0)%bool; [reflexivity|]. rewrite Rmax_left, Rmin_left by lra.
      assert (Y : orifice_head (n_zj N (o_Ju (d_or D) o) + o_z (d_or D) o) (o_tau (d_or D) o * o_ymax (d_or D) o * i_uo i o) H0 H0 = 0).
      { unfold orifice_head. destruct B as [B|B]; repeat match goal with |- context [Rleb ?p ?q] => destruct (Rleb_spec p q)
          | |- context [Rltb ?p ?q] => destruct (Rltb_spec p q) end; lra. }
      rewrite Y, Rabs_R0, Rmult_0_r, sqrt_0. ring. }
    rewrite X. unfold limit_orifice, sign. destruct (Rltb_spec 0 0); [lra|]. ring.
  - intros w Hw. cbn [b_Qw]. destruct (Nat.eqb_spec (w_n (d_we D)) 0); [lia|]. cbv zeta. destruct (We w Hw) as [J1 J2].
    rewrite C36_weir_discharge_is_the_law. pose proof (EH _ J1) as EH1. pose proof (EH _ J2) as EH2.
    cbn [M_Step.solve_step h_H] in EH1, EH2 |- *. rewrite EH1, EH2.
    unfold weir_law. rewrite Rmax_left, Rmin_left by lra. unfold weir_effective_head.
    repeat match goal with |- context [Rleb ?p ?q] => destruct (Rleb_spec p q) | |- context [Rltb ?p ?q] => destruct (Rltb_spec p q) end; try lra;
      try (rewrite sqrt_0; ring). all: replace (H0 - H0) with 0 by ring; rewrite sqrt_0; ring.
  - intros q Hq'. cbn [b_Qp]. destruct (Nat.eqb_spec (p_n (d_pu D)) 0); [lia|]. cbv zeta. destruct (Pu q Hq') as (B1 & B2 & B3).
    apply (C37_pump_flow _ _ _ _ _ _ _ _ _ _ (Hup q Hq') B1 B2 (proj1 B3) (proj2 B3)). apply (q_pumps _ _ _ Hq); auto.
Qed.

(** Saved values of a still object. *)
Definition still_saved (v : saved) : Prop :=
  at_rest N zI H0 (v_st v) /\ (forall o, (o < o_n (d_or D))%nat -> v_Qo v o = 0) /\
  (forall w, (w < w_n (d_we D))%nat -> v_Qw v w = 0) /\ (forall p, (p < p_n (d_pu D))%nat -> v_Qp v p = 0).
Definition gentle (a : action) : Prop :=
  match a with Step i dt _ _ => admissible D i dt /\ quiet D H0 i | Load _ v => watered D (v_st v) /\ still_saved v | Save | Restore => True end.

Lemma still_load v (m m' : object) t : still_saved v -> still D zI H0 (m_body m) -> object_load D (t, v) m = Some m' -> still D zI H0 (m_body m').
Proof.
  intros (S1 & S2 & S3 & S4) Hm E. unfold object_load, load_state in E. cbn [fst snd] in E. unfold load_body in E.
  destruct (geometries D _) as [b|] eqn:Eg; [|discriminate]. cbn [bind] in E. injection E as <-. cbn [m_body].
  destruct (geometries_inv _ _ _ Eg) as (_ & _ & _ & _ & Est & Eo & Ew & Ep & _). constructor.
  - rewrite Est. exact S1.
  - intros o Ho. rewrite Eo. unfold restore. cbn [b_Qo]. destruct (Nat.eqb_spec (o_n (d_or D)) 0); [lia|auto].
  - intros w Hw. rewrite Ew. unfold restore. cbn [b_Qw]. destruct (Nat.eqb_spec (w_n (d_we D)) 0); [lia|auto].
  - intros q Hq. rewrite Ep. unfold restore. cbn [b_Qp]. destruct (Nat.eqb_spec (p_n (d_pu D)) 0); [lia|auto].
Qed.

(** C28: on every sound design (any mixture of sections, storages and controls), an object at rest at level H0 stays at
    rest for ever: after any history of steps with quiet inputs and any number of iterations, saves, loads and restores,
    every action has succeeded, all heads are H0, all depths H0 minus the bed, and every reported flow is zero. *)
Theorem C28_rest_lasts_for_every_history : forall m history,
  constructed D m -> still D zI H0 (m_body m) -> still_saved (snd (m_saved m)) -> (forall a, In a history -> gentle a) ->
  exists m', perform_all D slv history m = Some m' /\ still D zI H0 (m_body m').
Proof.
  intros m history (Es & W & Ws) Sm Sv Hall.
  assert (Hm : healthy D m) by (split; [auto|split; [|auto]]; rewrite Es; constructor). clear Es W Ws.
  revert m Hm Sm Sv Hall. induction history as [|a l IH]; intros m Hm Sm Sv Hall; cbn [perform_all]; [eauto|].
  assert (Ga : gentle a) by (apply Hall; now left).
  assert (Al : allowed D a) by (destruct a; simpl in *; tauto).
  destruct (perform_total D slv HD Hslv a m Al Hm) as (m1 & E1 & H1). rewrite E1. cbn [bind].
  assert (X : still D zI H0 (m_body m1) /\ still_saved (snd (m_saved m1))).
  { destruct a as [i dt n tol| |t v|]; cbn [perform] in E1; cbn [gentle] in Ga.
    - destruct (object_step D slv i dt n tol m) as [[r p]|] eqn:E; [|discriminate]. cbn [bind fst] in E1. injection E1 as <-.
      destruct Ga as [Ga Gq].
      destruct (step_last D slv HD Hslv (still D zI H0) i dt n tol m r p Ga Hm Sm) as (mb & _ & b1 & Sb & _ & _ & _ & _ & Sb2 & _ & _ & Sav); auto.
      { intros b b1 b2 Sb Wb Rb F1 F2. exact (rest_pass i dt _ b b1 b2 Ga Gq (sl_rest _ _ _ _ Sm) Wb Rb Sb F1 F2). }
      split; [exact Sb2|]. rewrite Sav. cbn [snd]. destruct Sm. split; [|split; [|split]]; auto.
    - injection E1 as <-. destruct Sm. split; [constructor; auto|]. cbn. split; [|split; [|split]]; auto.
    - split; [apply (still_load v m m1 t); tauto|].
      assert (Y : m_saved m1 = m_saved m \/ snd (m_saved m1) = v).
      { revert E1. unfold object_load, load_state. destruct (load_body _ _ _); [|discriminate]. cbn [bind]. intros [= <-]. cbn. auto. }
      destruct Y as [-> | ->]; tauto.
    - split; [apply (still_load (snd (m_saved m)) m m1 (fst (m_saved m))); auto; now rewrite <- surjective_pairing|].
      assert (Y : m_saved m1 = m_saved m).
      { revert E1. unfold object_load, load_state. destruct (load_body _ _ _); [|discriminate]. cbn [bind]. intros [= <-]. reflexivity. }
      now rewrite Y. }
  destruct X as [X1 X2]. apply IH; auto. intros; apply Hall; now right.
Qed.
End Rest.

(** ** Witnesses *)

(** C28: the design of P_Model (floodplain, pipe, transect, three kinds of storage, orifice, weir, pump), level 10 m. *)
Definition quiet_inputs : inputs := mkInputs (fun _ => 10) zeros zeros (fun _ => 1/2) (fun _ => 1/2) zeros.
Example C28_rest_example :
  let history := [Step quiet_inputs 60 5 0; Save; Step quiet_inputs 10 1 0; Restore; Step quiet_inputs 1 3 0] in
  sound demo /\ solver 3 (gauss 3) /\ constructed demo demo_object /\ bed rest_net rest_bed /\ level_inside rest_net rest_bed 10 /\
  still demo rest_bed 10 (m_body demo_object) /\ still_saved demo rest_bed 10 (snd (m_saved demo_object)) /\
  (forall a, In a history -> gentle demo rest_bed 10 a) /\
  exists m', perform_all demo (gauss 3) history demo_object = Some m' /\ h_H (b_st (m_body m')) 1%nat = 10.
Proof.
  intros history. destruct C28_example as (B & L & Rs & _). destruct C58_example as (_ & _ & C & _).
  assert (S1 : still demo rest_bed 10 (m_body demo_object)) by (constructor; [exact Rs|reflexivity|reflexivity|reflexivity]).
  assert (S2 : still_saved demo rest_bed 10 (snd (m_saved demo_object))) by (split; [exact Rs|split; [reflexivity|split; reflexivity]]).
  assert (Q : quiet demo 10 quiet_inputs).
  { constructor; try reflexivity. intros o Ho. simpl in *. split; [lra|right; lra]. }
  assert (A : forall dt, 0 < dt -> admissible demo quiet_inputs dt).
  { intros dt Hdt. split; [exact Hdt|split]; simpl; intros; unfold zeros; lra. }
  assert (Hg : forall a, In a history -> gentle demo rest_bed 10 a).
  { intros a Ha. repeat (destruct Ha as [<-|Ha]; [simpl; try split; auto; apply A; lra|]). destruct Ha. }
  repeat (split; [solve [auto | exact demo_sound | apply gauss_solver]|]).
  destruct (C28_rest_lasts_for_every_history demo (gauss 3) demo_sound (gauss_solver 3) rest_bed 10 B L demo_object history C S1 S2 Hg) as (m' & E & St).
  exists m'. split; [exact E|]. apply (ar_heads _ _ _ _ (sl_rest _ _ _ _ St)). simpl. lia.
Qed.

(** C23: on the same design a step with 5 iterations takes the prescribed head 1 m at junction 2 (it was 10 m). *)
Example C23_object_example :
  exists m' p, object_step demo (gauss 3) demo_inputs 60 5 (1/1000) demo_object = Some (m', p) /\ h_H (b_st (m_body m')) 2%nat = 1.
Proof.
  destruct C58_example as (_ & _ & C & A & _). specialize (A 60 ltac:(lra)).
  destruct (object_step_total demo (gauss 3) demo_sound (gauss_solver 3) demo_inputs 60 5 (1/1000) demo_object A) as ((m' & p) & E & _).
  { apply (healthy_history demo (gauss 3) demo_sound (gauss_solver 3) demo_object []); auto. intros a []. }
  exists m', p. split; [exact E|].
  refine (proj1 (C23_step_takes_prescribed_heads demo (gauss 3) demo_sound (gauss_solver 3) demo_object [] demo_object demo_inputs 60 5 (1/1000) m' p
    2%nat C _ eq_refl A E _ eq_refl _) _); simpl; try lia; try lra; intros a [].
Qed.

(** C22, C26: an open rectangular channel of width 1 between two storages of 5 m2, filled with 11/60 m3/s at each end:
    the object reports a level of 3 m after 60 s and a flow of 11/120 m3/s into the channel. *)
Definition fill : design :=
  mkDesign fill_net (fun i => i) (fun _ => Regular {| shape := 3%nat; g1 := 10; g2 := 1; g3 := 0; g4 := 0; g5 := 0; g6 := 0; g7 := 0 |})
    (fun _ _ _ _ => 0) (fun _ => Functional 0 0 5) (d_or drop) (d_ocode drop) (d_o1 drop) (d_o2 drop) (d_o3 drop) (d_we drop) (d_pu drop).
Definition fill_object : object := mkModel 0 0%Z (body0 fill_state) (0, save_body (body0 fill_state)).
Definition fill_inputs : inputs := mkInputs zeros (fun _ => 11 / 60) zeros zeros zeros zeros.

Lemma fill_sound : sound fill.
Proof.
  constructor.
  - exact (proj1 C26_example).
  - reflexivity.
  - simpl. lra.
  - simpl. intros i Hi. repeat split; try lra; try lia; discriminate.
  - simpl; intros; lra.
  - simpl; intros; lra.
  - simpl; intros; lra.
  - split; intros k Hk; simpl in Hk; lia.
  - intros k Hk; simpl in Hk; lia.
  - split; intros k Hk; simpl in Hk; lia.
Qed.

Lemma fill_pass G w u : wet fill_net G -> g_B G 0%nat = 1 -> g_Bu G 0%nat = 1 -> g_Bd G 0%nat = 1 ->
  setup_step fill_net G w fill_state fill_state zeros 60 = Some u ->
  solve_superlink_flows (flow_coeffs fill_net u 0) 3 3 = (11 / 120, - (11 / 120)) /\
  solve_superlink_depths (u_hu u 0) (u_hd u 0) (11 / 120) (- (11 / 120)) 3 3 = (3, 3).
Proof.
  intros Hwet GB GU GD Hu. pose proof (proj1 C26_example) as Hwf.
  pose proof (setup_facts_ok _ _ _ _ _ _ _ _ Hu) as [Fm Fn Ff Fb Fhu Fhd].
  destruct (setup_signs fill_net G w fill_state fill_state zeros 60 Hwf Hwet ltac:(lra) u Hu) as [HW HP].
  assert (HS : superlink_solution (ma (u_m u)) (mb (u_m u)) (mc (u_m u)) (mP (u_m u)) (g_A G) (u_E u) (u_D u) 0 0 1
                 (fun j => match j with O => 11 / 120 | S O => 0 | _ => - (11 / 120) end) (fun _ => 3)).
  { destruct (link_coeffs_entries _ _ _ _ _ _ Fm) as (Ea & Ec & EP & _).
    pose proof (node_coeffs_entries _ _ _ _ _ _ _ _ _ _ _ _ _ _ _ _ _ _ _ _ Fn) as En.
    destruct (wet_links _ _ Hwet 0%nat ltac:(simpl; lia)) as (PA & _).
    split.
    - intros j Hj. assert (j = 0%nat) by lia. subst j. simpl Nat.add. rewrite Ea, Ec, EP.
      unfold a_ik, c_ik, u_Ik, u_Ip1k, u_ik, P_ik. simpl. destruct (Reqb_spec (g_A G 0%nat) 0); [lra|].
      replace (0 / g_A G 0%nat) with 0 by (unfold Rdiv; ring). rewrite Ropp_0, Rmax_left by lra. lra.
    - intros j Hj. destruct (En (0 + j)%nat ltac:(simpl; lia)) as [-> ->]. unfold node_width, zeros.
      destruct j as [|[|j]]; [| |lia]; simpl; rewrite ?GB, ?GU, ?GD; lra. }
  apply boundary_unique.
  - exact (setup_det fill_net G w fill_state fill_state zeros 60 Hwf Hwet ltac:(lra) (or_introl eq_refl) u Hu 0%nat ltac:(simpl; lia)).
  - pose proof (end_meaning _ _ _ _ _ _ _ 0 0 1 (u_f u) (u_b u) ltac:(lia)
      (forward_recurrence_ok _ _ _ _ _ _ _ _ _ _ _ _ _ (wf_layout _ Hwf) Ff 0%nat ltac:(simpl; lia))
      (backward_recurrence_ok _ _ _ _ _ _ _ _ _ _ _ _ _ _ _ (wf_layout _ Hwf) (fun k _ => conj eq_refl eq_refl) Fb 0%nat ltac:(simpl; lia))
      (fun j Hj => proj1 (HP 0%nat j (le_n 1) Hj))
                 (fun j Hj => proj1 (proj2 (HP 0%nat j (le_n 1) Hj))) false _ _ HS) as EM.
    cbv beta zeta in EM. simpl Nat.add in EM. destruct EM as [E1 E2].
    destruct (setup_theta fill_net G w fill_state fill_state zeros 60 u Hu 0%nat ltac:(simpl; lia)) as (T1 & T2 & T3 & T4).
    assert (G0 : hk (u_hu u 0%nat) = 0 /\ hk (u_hd u 0%nat) = 0).
    { pose proof (Fhu 0%nat (le_n 1)) as Z1. pose proof (Fhd 0%nat (le_n 1)) as Z2. injection Z1 as <-. injection Z2 as <-. simpl.
      unfold gamma_uk, gamma_dk. rewrite Rabs_R0. unfold safe_divide.
      split; match goal with |- context [Reqb ?x ?y] => destruct (Reqb_spec x y) end; try lra; unfold Rdiv; ring. }
    destruct G0 as [G1 G2].
    unfold above in T1, T2, T3, T4. simpl in T1, T2, T3, T4. destruct (Rleb_spec 0 2); [|lra].
    unfold end_equations. rewrite T1, T2, T3, T4, G1, G2. simpl n_end_o. simpl n_I1. simpl n_nk. simpl Nat.add. repeat split; auto; lra.
Qed.

Example C26_object_example :
  sound fill /\ constructed fill fill_object /\ admissible fill fill_inputs 60 /\
  exists m', object_step fill (gauss 2) fill_inputs 60 1 0 fill_object = Some (m', 1%nat) /\
    heads_free fill_net (b_st (m_body m')) /\ depths_inside fill_net (b_cf (m_body m')) (b_st (m_body m')) /\
    (forall j, (j < 2)%nat -> h_H (b_st (m_body m')) j = 3) /\ h_Qu (b_st (m_body m')) 0%nat = 11 / 120.
Proof.
  pose proof fill_sound as HD. pose proof (gauss_solver 2) as Hs.
  assert (C : constructed fill fill_object).
  { split; [reflexivity|]. split; intros i Hi; simpl; lra. }
  assert (A : admissible fill fill_inputs 60) by (split; [lra|split; simpl; intros; lia]).
  assert (Hm : healthy fill fill_object) by (apply (healthy_history fill (gauss 2) HD Hs fill_object []); auto; intros a []).
  split; [exact HD|]. split; [exact C|]. split; [exact A|].
  destruct (setup_body_total fill HD fill_inputs 60 fill_state (m_body fill_object) A (proj1 Hm) (proj1 (proj2 Hm))) as (b1 & E1 & _ & R1 & Sv).
  destruct (solve_body_total fill HD (gauss 2) Hs fill_inputs 60 b1 Sv R1) as (b2 & E2 & _).
  exists (mkModel 60 1%Z b2 (0, save_body (m_body fill_object))). split.
  { unfold object_step, step, setup_step'. cbn [save_state m_saved snd v_st save_body m_body fill_object b_st].
    change (v_st (save_body (body0 fill_state))) with fill_state. change (b_st (body0 fill_state)) with fill_state.
    change (m_body fill_object) with (body0 fill_state) in E1. rewrite E1. cbn [bind]. unfold solve_step'. cbn [m_body m_saved]. rewrite E2.
    cbn [bind]. replace (0 + 60) with 60 by lra. cbn. repeat f_equal; lra. }
  cbn [m_body].
  destruct (pass_facts fill (gauss 2) HD Hs _ _ _ _ _ _ A (proj1 Hm) (proj1 (proj2 Hm)) E1 E2)
    as (bg & Vs & Ao & u & H & Eg & Wt & _ & _ & _ & Eu & F). unfold controls_of in F.
  destruct F as (Hr & Hn & Sol & Un & Est & Ecf & _).
  pose proof (geometries_at fill _ _ Eg) as [GL GU GD GS].
  assert (B1 : g_B (geometry_of bg) 0%nat = 1).
  { destruct (GL 0%nat ltac:(simpl; lia)) as (o & gm & X & _ & _ & ->). simpl in X. injection X as <-. reflexivity. }
  assert (B2 : g_Bu (geometry_of bg) 0%nat = 1).
  { destruct (GU 0%nat ltac:(simpl; lia)) as (o & gm & X & _ & _ & ->). simpl in X. injection X as <-. reflexivity. }
  assert (B3 : g_Bd (geometry_of bg) 0%nat = 1).
  { destruct (GD 0%nat ltac:(simpl; lia)) as (o & gm & X & _ & _ & ->). simpl in X. injection X as <-. reflexivity. }
  assert (B4 : forall j, (j < 2)%nat -> b_As bg j = 5).
  { intros j Hj. specialize (GS j Hj). revert GS. unfold storage_area. simpl. intros [= <-]. unfold functional_area.
    match goal with |- context [Rltb (Rmax ?x ?y) 0] => pose proof (Rmax_r x y); destruct (Rltb_spec (Rmax x y) 0) end; [lra|ring]. }
  destruct (fill_pass _ _ _ Wt B1 B2 B3 Eu) as [HE1 HE2].
  assert (EH : forall j, (j < 2)%nat -> H j = 3).
  { refine (Un (fun _ => 3) _). intros j Hj. apply C22_row_is_water_balance; auto; try lra.
    destruct (setup_theta fill_net (geometry_of bg) _ fill_state fill_state zeros 60 u Eu 0%nat (le_n 1)) as (T1 & _ & T3 & _).
    unfold above in T1, T3. simpl in T1, T3. destruct (Rleb_spec 0 2); [|lra].
    unfold attached_area. rewrite (B4 j Hj). simpl in Hj.
    unfold net_inflow, sum_if. cbn [superlink_elements control_elements superlinks_of e_n e_Ju e_Jd e_in e_out c_n c_Ju c_Jd
      k_n k_Ju k_Jd k_dxu k_Bu k_thu k_dxd k_Bd k_thd k_au k_bu k_cu k_ad k_bd k_cd].
    pose proof (f_equal fst HE1) as Q1. pose proof (f_equal snd HE1) as Q2. cbn in Q1, Q2.
    cbn in B2, B3. cbn. rewrite B2, B3, T1, T3. rewrite T1, T3 in Q1, Q2. destruct j as [|[|j]]; [| |lia]; cbn; lra. }
  assert (EL : forall j, (j < 2)%nat -> limit_head 0 100 (H j) = 3).
  { intros j Hj. rewrite EH by auto. apply limit_head_id. lra. }
  rewrite Est, Ecf.
  assert (EQ : forall k, (k < 1)%nat -> solve_superlink_flows (flow_coeffs fill_net u k) (limit_head 0 100 (H 0%nat)) (limit_head 0 100 (H 1%nat))
                 = (11 / 120, - (11 / 120))).
  { intros k Hk. destruct k; [|lia]. rewrite !EL by lia. exact HE1. }
  split; [|split; [|split]].
  - intros j Hj. change (0 < limit_head 0 100 (H j) < 0 + 100). rewrite EL by exact Hj. lra.
  - intros k Hk. simpl in Hk. destruct k; [|lia].
    assert (ED : end_depths fill_net u (M_Step.solve_step fill_net u (b_st (m_body fill_object)) H) 0 = (3, 3)).
    { set (f := solve_superlink_flows (flow_coeffs fill_net u 0) (limit_head 0 100 (H 0%nat)) (limit_head 0 100 (H 1%nat))).
      change (solve_superlink_depths (u_hu u 0) (u_hd u 0) (fst f) (snd f) (limit_head 0 100 (H 0%nat)) (limit_head 0 100 (H 1%nat)) = (3, 3)).
      unfold f. rewrite EQ by lia. rewrite !EL by lia. exact HE2. }
    change (d_net fill) with fill_net. rewrite ED. simpl. repeat split; try lra; lia.
  - intros j Hj. change (limit_head 0 100 (H j) = 3). auto.
  - change (fst (solve_superlink_flows (flow_coeffs fill_net u 0) (limit_head 0 100 (H 0%nat)) (limit_head 0 100 (H 1%nat))) = 11 / 120).
    rewrite EQ by lia. reflexivity.
Qed.

(** C33, C36, C37: the design [demo] has an orifice, a weir and a pump; its step succeeds. *)
Example C33_object_example :
  (0 < o_n (d_or demo))%nat /\ (0 < w_n (d_we demo))%nat /\ (0 < p_n (d_pu demo))%nat /\
  0 <= o_tau (d_or demo) 0%nat * o_ymax (d_or demo) 0%nat * i_uo demo_inputs 0%nat /\
  exists m' p, object_step demo (gauss 3) demo_inputs 60 5 (1/1000) demo_object = Some (m', p) /\
    b_Qw (m_body m') 0%nat = weir_law 2 1 1 1 (0 + w_z (d_we demo) 0%nat + (1 - 1/2) * w_ymax (d_we demo) 0%nat)
      (h_H (b_st (m_body m')) 1%nat) (h_H (b_st (m_body m')) 2%nat).
Proof.
  split; [simpl; lia|]. split; [simpl; lia|]. split; [simpl; lia|]. split; [simpl; lra|].
  destruct C58_example as (_ & _ & C & A & _). specialize (A 60 ltac:(lra)).
  destruct C23_object_example as (m' & p & E & _). exists m', p. split; [exact E|].
  assert (X := C36_object_reports_weir_law demo (gauss 3) demo_sound (gauss_solver 3) demo_object [] demo_object demo_inputs 60 5%nat (1/1000) m' p
    C (fun a (F : In a []) => match F with end) eq_refl A E 0%nat ltac:(simpl; lia)). exact X.
Qed.
