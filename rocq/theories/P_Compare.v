(** Property C72: how the heads answer to the inflows. Within one step, more inflow or higher prescribed heads never lower
    a head, and a change of the inflows moves the heads by no more water than it brings. *)
From Coq Require Import ZArith.
From Verif Require Import Prelude M_Numerics M_Coeffs M_Recurrence M_Assembly M_Step M_Geometry M_Storage M_Controls M_Simulation M_Model
  S_Numerics S_Geometry S_Superlink S_Network S_Step S_Controls S_Simulation S_Model S_Object L_Assembly L_Forward L_Backward L_Coeffs L_Boundary L_Step P_Assembly P_Superlink P_Step
  L_Pivots L_Dominance P_Limits P_Wellposed P_Controls P_Simulation L_Model L_Gauss P_Model P_Replay P_Object.

(** ** Matrices with non-positive off-diagonal entries and positive column sums *)

Section Columns.
Variables (M : nat) (bc : nat -> bool) (A : mat) (c d r : arr).
Hypothesis Hoff : forall i j, i <> j -> A i j <= 0.
Hypothesis Hcol : forall j, (j < M)%nat -> c j <= sum_n (fun i => A i j) M.
Hypothesis Hbc : forall j, (j < M)%nat -> bc j = true -> d j <= 0.
Hypothesis Hrow : forall i, (i < M)%nat -> bc i = false -> sum_n (fun j => A i j * d j) M = r i.

Let up (j : nat) : bool := if bc j then false else Rltb 0 (d j).

(** Weighted by the column sums, the positive part of [d] is bounded by the right-hand side where [d] is positive. *)
Lemma positive_part : sum_n (fun j => if up j then c j * d j else 0) M <= sum_n (fun i => if up i then r i else 0) M.
Proof.
  assert (E : sum_n (fun i => if up i then r i else 0) M = sum_n (fun j => sum_n (fun i => if up i then A i j else 0) M * d j) M).
  { rewrite (sum_n_ext _ (fun i => sum_n (fun j => (if up i then A i j else 0) * d j) M)).
    - rewrite sum_n_swap. apply sum_n_ext. intros j _. now rewrite <- sum_n_scal_r.
    - intros i Hi. destruct (up i) eqn:Eu.
      + rewrite Hrow; auto. unfold up in Eu. destruct (bc i); [discriminate|auto].
      + rewrite sum_n_0; auto. intros; ring. }
  rewrite E. apply sum_n_le. intros j Hj. destruct (up j) eqn:Eu.
  - assert (P : 0 < d j). { unfold up in Eu. destruct (bc j); [discriminate|]. destruct (Rltb_spec 0 (d j)); [auto|discriminate]. }
    apply Rmult_le_compat_r; [lra|]. eapply Rle_trans; [apply Hcol; auto|]. apply sum_n_le. intros i Hi.
    destruct (up i) eqn:Ei; [lra|]. apply Hoff. intros ->. congruence.
  - assert (P : d j <= 0).
    { unfold up in Eu. destruct (bc j) eqn:Eb; [auto|]. destruct (Rltb_spec 0 (d j)); [discriminate|lra]. }
    assert (X : sum_n (fun i => if up i then A i j else 0) M <= 0).
    { apply (Rle_trans _ (sum_n (fun _ => 0) M)); [|rewrite sum_n_zero; lra]. apply sum_n_le. intros i Hi. destruct (up i) eqn:Ei; [|apply Rle_refl]. apply Hoff. intros ->. congruence. }
    nra.
Qed.

(** Nowhere positive right-hand side: nowhere positive solution. *)
Lemma sign_kept : (forall j, (j < M)%nat -> bc j = false -> 0 < c j) -> (forall i, (i < M)%nat -> bc i = false -> r i <= 0) ->
  forall j, (j < M)%nat -> d j <= 0.
Proof.
  intros Hc Hr j Hj. destruct (bc j) eqn:Eb; [auto|]. destruct (Rle_or_lt (d j) 0) as [|P]; [auto|exfalso].
  pose proof positive_part as X.
  assert (U : forall i, up i = true -> bc i = false /\ 0 < d i).
  { intros i Ei. unfold up in Ei. destruct (bc i); [discriminate|]. destruct (Rltb_spec 0 (d i)); [auto|discriminate]. }
  assert (Y : sum_n (fun i => if up i then r i else 0) M <= 0).
  { apply (Rle_trans _ (sum_n (fun _ => 0) M)); [|rewrite sum_n_zero; lra]. apply sum_n_le. intros i Hi. destruct (up i) eqn:Ei; [|apply Rle_refl]. apply Hr; auto. now apply U. }
  assert (Z : (if up j then c j * d j else 0) = 0).
  { apply (L_Linear.sum_n_zero_terms (fun j => if up j then c j * d j else 0) M); auto; [|lra].
    intros i Hi. destruct (up i) eqn:Ei; [|lra]. destruct (U i Ei). apply Rmult_le_pos; [|lra]. left. auto. }
  unfold up in Z. rewrite Eb in Z. destruct (Rltb_spec 0 (d j)); [|lra]. pose proof (Hc j Hj Eb). nra.
Qed.
End Columns.

(** The change of the heads, weighted by the column sums, is at most the change of the right-hand side. *)
Lemma contraction M bc (A : mat) (c d r : arr) :
  (forall i j, i <> j -> A i j <= 0) -> (forall j, (j < M)%nat -> c j <= sum_n (fun i => A i j) M) ->
  (forall j, (j < M)%nat -> bc j = true -> d j = 0) ->
  (forall i, (i < M)%nat -> bc i = false -> sum_n (fun j => A i j * d j) M = r i) ->
  sum_n (fun j => if bc j then 0 else c j * Rabs (d j)) M <= sum_n (fun i => if bc i then 0 else Rabs (r i)) M.
Proof.
  intros Hoff Hcol Hbc Hrow.
  pose proof (positive_part M bc A c d r Hoff Hcol (fun j Hj Hb => Req_le _ _ (Hbc j Hj Hb)) Hrow) as P1.
  pose proof (positive_part M bc A c (fun j => - d j) (fun i => - r i) Hoff Hcol) as P2. cbv beta in P2.
  assert (P2' := P2 (fun j Hj Hb => Req_le _ _ (eq_trans (f_equal Ropp (Hbc j Hj Hb)) Ropp_0))). clear P2.
  assert (R : forall i, (i < M)%nat -> bc i = false -> sum_n (fun j => A i j * - d j) M = - r i).
  { intros i Hi Hb. rewrite <- (Hrow i Hi Hb), <- sum_n_opp. apply sum_n_ext. intros; ring. }
  specialize (P2' R). pose proof (Rplus_le_compat _ _ _ _ P1 P2') as P. rewrite <- !sum_n_plus in P.
  eapply Rle_trans; [|eapply Rle_trans; [exact P|]]; apply sum_n_le; intros j Hj; destruct (bc j); try lra;
    destruct (Rltb_spec 0 (d j)); destruct (Rltb_spec 0 (- d j)); try lra.
  - rewrite Rabs_pos_eq; lra.
  - rewrite Rabs_left; lra.
  - replace (d j) with 0 by lra. rewrite Rabs_R0. lra.
  - pose proof (Rle_abs (r j)). lra.
  - pose proof (Rle_abs (- r j)). rewrite Rabs_Ropp in H. lra.
  - pose proof (Rabs_pos (r j)). lra.
Qed.

(** ** The assembled system *)

Section System.
Variables (M : nat) (bc : nat -> bool) (K : superlinks) (CO CW CP : controls).
Variables (A_sj H_prev : arr) (dt : R) (s : system).
Hypothesis Hr : reachable M bc K CO CW CP s.
Hypothesis Hn : network_ok M K CO CW CP.
Hypothesis Hdt : 0 < dt.
Hypothesis HK : superlinks_ordered K.
Hypothesis HO : controls_ordered CO.
Hypothesis HW : controls_ordered CW.
Hypothesis HP : controls_ordered CP.
Variables (b1 b2 q1 q2 H1 H2 : arr).
Let lhs (b q : arr) := matrix M bc K CO CW CP A_sj H_prev b q dt s.
Let rhs (b q : arr) := s_b (assembled M bc K CO CW CP A_sj H_prev b q dt s).
Hypothesis S1 : solves M (lhs b1 q1) (rhs b1 q1) H1.
Hypothesis S2 : solves M (lhs b2 q2) (rhs b2 q2) H2.
Let surface (j : nat) : R :=
  attached_area A_sj (k_n K) (k_Ju K) (k_Jd K) (k_dxu K) (k_Bu K) (k_thu K) (k_dxd K) (k_Bd K) (k_thd K) j.
Let N : mat := fun i j =>
    entry nobc 1 (diag_A K A_sj dt) (k_Ju K) (k_Jd K) (k_ad K) (k_bu K) (k_n K) i j
    + entry nobc 0 (diag_C CO) (c_Ju CO) (c_Jd CO) (c_a CO) (c_b CO) (c_n CO) i j
    + entry nobc 0 (diag_C CW) (c_Ju CW) (c_Jd CW) (c_a CW) (c_b CW) (c_n CW) i j
    + entry nobc 0 (diag_C CP) (c_Ju CP) (c_Jd CP) (c_a CP) (c_b CP) (c_n CP) i j.

Lemma row_difference i : (i < M)%nat ->
  if bc i then H1 i - H2 i = b1 i - b2 i else sum_n (fun j => N i j * (H1 j - H2 j)) M = q1 i - q2 i.
Proof.
  intros Hi. pose proof (S1 i Hi) as R1. pose proof (S2 i Hi) as R2. unfold row_holds in R1, R2.
  pose proof (reachable_clean _ _ _ _ _ _ _ Hr) as Hc.
  assert (RB : forall b q, rhs b q i = if bc i then b i else A_sj i * H_prev i / dt + q i + (rhs_K K H_prev dt i + rhs_C CO i + rhs_C CW i + rhs_C CP i)).
  { intros b q. destruct (assembly_ok M bc K CO CW CP A_sj H_prev b q dt s Hc) as (_ & _ & E). apply E. }
  rewrite RB in R1, R2. clear RB.
  assert (EL : forall b q (H : arr), sum_n (fun j => lhs b q i j * H j) M
             = sum_n (fun j => (if bc i then (if Nat.eqb i j then 1 else 0) else N i j) * H j) M).
  { intros b q H. apply sum_n_ext. intros j Hj. f_equal. apply l_entries; auto. }
  rewrite EL in R1, R2. destruct (bc i).
  - rewrite (sum_n_single (fun j => (if Nat.eqb i j then 1 else 0) * H1 j) M i Hi) in R1
      by (intros j _ Hne; destruct (Nat.eqb_spec i j); [congruence|ring]).
    rewrite (sum_n_single (fun j => (if Nat.eqb i j then 1 else 0) * H2 j) M i Hi) in R2
      by (intros j _ Hne; destruct (Nat.eqb_spec i j); [congruence|ring]).
    rewrite Nat.eqb_refl in R1, R2. lra.
  - rewrite (sum_n_ext _ (fun j => N i j * H1 j - N i j * H2 j)) by (intros; ring). rewrite sum_n_minus. lra.
Qed.

Lemma system_monotone : (forall j, (j < M)%nat -> bc j = false -> 0 < surface j) ->
  (forall j, (j < M)%nat -> bc j = true -> b1 j <= b2 j) -> (forall j, (j < M)%nat -> bc j = false -> q1 j <= q2 j) ->
  forall j, (j < M)%nat -> H1 j <= H2 j.
Proof.
  intros Hs Hb Hq j Hj.
  cut (H1 j - H2 j <= 0); [lra|].
  apply (sign_kept M bc N (fun j => surface j / dt) (fun j => H1 j - H2 j) (fun j => q1 j - q2 j)); auto.
  - intros i i' Hne. apply N_off; auto.
  - intros i Hi. apply (column_sum_bound M K CO CW CP); auto.
  - intros i Hi Eb. pose proof (row_difference i Hi) as X. rewrite Eb in X. specialize (Hb i Hi Eb). lra.
  - intros i Hi Eb. pose proof (row_difference i Hi) as X. rewrite Eb in X. exact X.
  - intros i Hi Eb. apply div_pos_pos; auto.
  - intros i Hi Eb. specialize (Hq i Hi Eb). lra.
Qed.

Lemma system_stable : (forall j, (j < M)%nat -> bc j = true -> b1 j = b2 j) ->
  sum_n (fun j => if bc j then 0 else surface j * Rabs (H1 j - H2 j)) M
  <= dt * sum_n (fun j => if bc j then 0 else Rabs (q1 j - q2 j)) M.
Proof.
  intros Hb.
  assert (X : sum_n (fun j => if bc j then 0 else surface j / dt * Rabs (H1 j - H2 j)) M <= sum_n (fun j => if bc j then 0 else Rabs (q1 j - q2 j)) M).
  { apply (contraction M bc N (fun j => surface j / dt) (fun j => H1 j - H2 j) (fun j => q1 j - q2 j)).
    - intros i i' Hne. apply N_off; auto.
    - intros i Hi. apply (column_sum_bound M K CO CW CP); auto.
    - intros i Hi Eb. pose proof (row_difference i Hi) as Y. rewrite Eb in Y. rewrite (Hb i Hi Eb) in Y. lra.
    - intros i Hi Eb. pose proof (row_difference i Hi) as Y. rewrite Eb in Y. exact Y. }
  apply (Rmult_le_compat_l dt) in X; [|lra]. eapply Rle_trans; [|exact X]. rewrite <- sum_n_scal. apply Req_le, sum_n_ext.
  intros j _. destruct (bc j); [ring|]. field. lra.
Qed.
End System.

(** Limiting keeps the order of two heads and brings them no further apart. *)
Lemma limit_head_mono z mx a b : a <= b -> limit_head z mx a <= limit_head z mx b.
Proof.
  intros H. unfold limit_head, Rmin, Rmax. destruct (Rle_dec a z); destruct (Rle_dec b z);
    repeat match goal with |- context [Rle_dec ?x ?y] => destruct (Rle_dec x y) end; lra.
Qed.
Lemma limit_head_lip z mx a b : Rabs (limit_head z mx a - limit_head z mx b) <= Rabs (a - b).
Proof.
  unfold limit_head, Rmin, Rmax. destruct (Rle_dec a z); destruct (Rle_dec b z);
    repeat match goal with |- context [Rle_dec ?x ?y] => destruct (Rle_dec x y) end;
    unfold Rabs; repeat match goal with |- context [Rcase_abs ?x] => destruct (Rcase_abs x) end; lra.
Qed.

(** ** Steps of the object *)

(** Two sets of inputs that differ in the inflows to the superjunctions and in the prescribed heads only. *)
Record same_settings (i i' : inputs) : Prop := {
  ss_Q0 : i_Q0 i' = i_Q0 i; ss_uo : i_uo i' = i_uo i; ss_uw : i_uw i' = i_uw i; ss_up : i_up i' = i_up i }.

Section Object.
Variable D : design.
Variable slv : mat -> arr -> option arr.
Local Notation N := (d_net D).
Hypothesis HD : sound D.
Hypothesis Hslv : solver (n_M N) slv.

(** The two solved systems of two single-pass steps from the same object. *)
Lemma two_steps m history m1 i i' dt tol tol' m2 p m2' p' :
  constructed D m -> (forall a, In a history -> allowed D a) -> perform_all D slv history m = Some m1 ->
  admissible D i dt -> same_settings i i' ->
  object_step D slv i dt 1 tol m1 = Some (m2, p) -> object_step D slv i' dt 1 tol' m1 = Some (m2', p') ->
  exists G K CO CW CP s As H H', let b := m_body m1 in
    geometry_at D (b_st b) (b_thu b) (b_thd b) G /\
    reachable (n_M N) (n_bc N) K CO CW CP s /\ network_ok (n_M N) K CO CW CP /\
    superlinks_ordered K /\ controls_ordered CO /\ controls_ordered CW /\ controls_ordered CP /\
    (forall j, (j < n_M N)%nat ->
       attached_area As (k_n K) (k_Ju K) (k_Jd K) (k_dxu K) (k_Bu K) (k_thu K) (k_dxd K) (k_Bd K) (k_thd K) j = junction_surface N G (h_H (b_st b)) j /\
       0 < junction_surface N G (h_H (b_st b)) j) /\
    solves (n_M N) (matrix (n_M N) (n_bc N) K CO CW CP As (h_H (b_st b)) (i_Hbc i) (i_Qin i) dt s)
      (s_b (assembled (n_M N) (n_bc N) K CO CW CP As (h_H (b_st b)) (i_Hbc i) (i_Qin i) dt s)) H /\
    solves (n_M N) (matrix (n_M N) (n_bc N) K CO CW CP As (h_H (b_st b)) (i_Hbc i') (i_Qin i') dt s)
      (s_b (assembled (n_M N) (n_bc N) K CO CW CP As (h_H (b_st b)) (i_Hbc i') (i_Qin i') dt s)) H' /\
    (forall j, h_H (b_st (m_body m2)) j = limit_head (n_zj N j) (n_maxj N j) (H j)) /\
    (forall j, h_H (b_st (m_body m2')) j = limit_head (n_zj N j) (n_maxj N j) (H' j)).
Proof.
  intros Hc Hall Eh Ha [E0 Eo Ew Ep] E E'.
  assert (Ha' : admissible D i' dt) by (unfold admissible; rewrite Ep, Eo; exact Ha).
  pose proof (healthy_history D slv HD Hslv _ _ _ Hc Hall Eh) as Hm.
  destruct (step_last D slv HD Hslv (fun _ => True) i dt 1 tol m1 m2 p Ha Hm I) as (mb & Bl & c1 & _ & W & Rc & X1 & X2 & _); auto.
  destruct (step_last D slv HD Hslv (fun _ => True) i' dt 1 tol' m1 m2' p' Ha' Hm I) as (mb' & Bl' & c1' & _ & W' & Rc' & X1' & X2' & _); auto.
  assert (Q : forall i tol m2 p mb, object_step D slv i dt 1 tol m1 = Some (m2, p) -> before_last D slv i dt tol m1 p mb -> mb = m1).
  { intros j t x q y Ej [[_ ->]|(q' & -> & Hq' & _)]; [reflexivity|]. exfalso. revert Ej. unfold object_step, step. cbn [Nat.sub Nat.ltb Nat.leb].
    destruct (setup_step' _ _ _ _ _ _ _ _ _); [|discriminate]. cbn [bind]. destruct (solve_step' _ _ _ _ _ _ _); [|discriminate]. cbn [bind].
    intros [= _ Eq]. lia. }
  rewrite (Q _ _ _ _ _ E Bl) in *. rewrite (Q _ _ _ _ _ E' Bl') in *. clear Q Bl Bl' Rc' W'.
  cbn [snd] in X1, X1'. change (v_st (save_body (m_body m1))) with (b_st (m_body m1)) in X1, X1'.
  destruct (pass_facts D slv HD Hslv _ _ _ _ _ _ Ha W Rc X1 X2) as (bg & Vs & Ao & u & H & Eg & Wt & PA & _ & EO & Eu & F).
  destruct (pass_facts D slv HD Hslv _ _ _ _ _ _ Ha' W Rc X1' X2') as (bg' & Vs' & Ao' & u' & H' & Eg' & _ & _ & _ & EO' & Eu' & F').
  rewrite Eg in Eg'. injection Eg' as <-. rewrite Eo, EO in EO'. injection EO' as <-. rewrite E0, Eu in Eu'. injection Eu' as <-.
  unfold controls_of in F, F'. rewrite Eo, Ew, Ep in F'.
  destruct F as (Hr & Hn & Sol & _ & Est & _). destruct F' as (_ & _ & Sol' & _ & Est' & _).
  destruct C35_linearised_controls_are_ordered as (OO & OW & OP).
  pose proof HD as [Wf Z Mn Ln Nd En St Or We Pu]. pose proof Ha as (Hdt & Hup & _).
  exists (geometry_of bg). do 6 eexists. exists H, H'. cbv zeta. split; [now apply geometries_at|]. split; [exact Hr|]. split; [exact Hn|].
  split; [apply (setup_ordered N (geometry_of bg) (work_of (b_cf (m_body m1))) (b_st (m_body m1)) (b_st (m_body m1)) (i_Q0 i) dt Wf Wt Hdt (or_introl Z)); auto|].
  split; [apply OO|]. split; [apply OW|]. split; [apply OP; intros k Hk; split; [apply Hup; auto|apply Pu; auto]|].
  split; [|split; [exact Sol|split; [exact Sol'|]]].
  - intros j Hj. split; [|apply surface_positive; auto; apply PA; auto].
    unfold junction_surface, attached_area. cbn [geometry_of g_Asj superlinks_of k_n k_Ju k_Jd k_dxu k_Bu k_thu k_dxd k_Bd k_thd].
    f_equal; [f_equal|]; apply sum_if_ext; intros k Hk; (split; [reflexivity|]); intros _.
    + destruct (setup_theta N _ _ _ _ _ _ u Eu k Hk) as (-> & _). reflexivity.
    + destruct (setup_theta N _ _ _ _ _ _ u Eu k Hk) as (_ & _ & -> & _). reflexivity.
  - split; intros j; [rewrite Est|rewrite Est']; reflexivity.
Qed.

(** C72: after any history, if one step is taken with larger inflows or higher prescribed heads, and otherwise the same
    inputs, no superjunction ends up with a lower head. *)
Theorem C72_more_inflow_never_lowers_a_head : forall m history m1 i i' dt tol tol' m2 p m2' p',
  constructed D m -> (forall a, In a history -> allowed D a) -> perform_all D slv history m = Some m1 ->
  admissible D i dt -> same_settings i i' ->
  (forall j, (j < n_M N)%nat -> n_bc N j = false -> i_Qin i j <= i_Qin i' j) ->
  (forall j, (j < n_M N)%nat -> n_bc N j = true -> i_Hbc i j <= i_Hbc i' j) ->
  object_step D slv i dt 1 tol m1 = Some (m2, p) -> object_step D slv i' dt 1 tol' m1 = Some (m2', p') ->
  forall j, (j < n_M N)%nat -> h_H (b_st (m_body m2)) j <= h_H (b_st (m_body m2')) j.
Proof.
  intros m history m1 i i' dt tol tol' m2 p m2' p' Hc Hall Eh Ha Hs Hq Hb E E' j Hj. pose proof (proj1 Ha) as Hdt.
  destruct (two_steps _ _ _ _ _ _ _ _ _ _ _ _ Hc Hall Eh Ha Hs E E')
    as (G & K & CO & CW & CP & s & As & H & H' & _ & Hr & Hn & HK & HO & HW & HP & Sf & S1 & S2 & E1 & E2).
  rewrite E1, E2. apply limit_head_mono.
  refine (system_monotone _ _ _ _ _ _ _ _ _ _ Hr Hn Hdt HK HO HW HP _ _ _ _ _ _ S1 S2 _ Hb Hq j Hj).
  intros j' Hj' _. destruct (Sf j' Hj') as [-> ?]. auto.
Qed.

(** C72: after any history, a change of the inflows of one step moves the heads by no more water than it brings: the
    water surface at the superjunctions ([junction_surface]: storages and half of the end pieces of the superlinks, at the
    levels before the step) times the changes of the heads is at most the volume by which the inflows differ. *)
Theorem C72_heads_move_by_at_most_the_added_water : forall m history m1 i i' dt tol tol' m2 p m2' p',
  constructed D m -> (forall a, In a history -> allowed D a) -> perform_all D slv history m = Some m1 ->
  admissible D i dt -> same_settings i i' ->
  (forall j, (j < n_M N)%nat -> n_bc N j = true -> i_Hbc i j = i_Hbc i' j) ->
  object_step D slv i dt 1 tol m1 = Some (m2, p) -> object_step D slv i' dt 1 tol' m1 = Some (m2', p') ->
  let b := m_body m1 in
  exists G, geometry_at D (b_st b) (b_thu b) (b_thd b) G /\
    (forall j, (j < n_M N)%nat -> 0 < junction_surface N G (h_H (b_st b)) j) /\
    sum_n (fun j => if n_bc N j then 0 else
             junction_surface N G (h_H (b_st b)) j * Rabs (h_H (b_st (m_body m2)) j - h_H (b_st (m_body m2')) j)) (n_M N)
    <= dt * sum_n (fun j => if n_bc N j then 0 else Rabs (i_Qin i j - i_Qin i' j)) (n_M N).
Proof.
  intros m history m1 i i' dt tol tol' m2 p m2' p' Hc Hall Eh Ha Hs Hb E E' b. pose proof (proj1 Ha) as Hdt.
  destruct (two_steps _ _ _ _ _ _ _ _ _ _ _ _ Hc Hall Eh Ha Hs E E')
    as (G & K & CO & CW & CP & s & As & H & H' & HG & Hr & Hn & HK & HO & HW & HP & Sf & S1 & S2 & E1 & E2).
  exists G. split; [exact HG|]. split; [intros j Hj; apply Sf; auto|].
  eapply Rle_trans; [|exact (system_stable _ _ _ _ _ _ _ _ _ _ Hr Hn Hdt HK HO HW HP _ _ _ _ _ _ S1 S2 Hb)].
  apply sum_n_le. intros j Hj. destruct (n_bc N j); [lra|]. destruct (Sf j Hj) as [-> P]. unfold b in *.
  apply Rmult_le_compat_l; [lra|]. rewrite E1, E2. apply limit_head_lip.
Qed.
End Object.

(** The open channel of C26 with and without its inflow of 11/60 m3/s at each end: without inflow no head exceeds the 3 m
    reached with it, and over the water surface of the two ends the heads differ by at most the 22 m3 that flow in. *)
Example C72_example :
  let dry := mkInputs zeros zeros zeros zeros zeros zeros in
  sound fill /\ constructed fill fill_object /\ admissible fill dry 60 /\ same_settings dry fill_inputs /\
  exists m2 m2' p, object_step fill (gauss 2) fill_inputs 60 1 0 fill_object = Some (m2', 1%nat) /\
    object_step fill (gauss 2) dry 60 1 0 fill_object = Some (m2, p) /\
    (forall j, (j < 2)%nat -> h_H (b_st (m_body m2')) j = 3) /\
    (forall j, (j < 2)%nat -> h_H (b_st (m_body m2)) j <= 3) /\
    exists G, geometry_at fill fill_state (b_thu (m_body fill_object)) (b_thd (m_body fill_object)) G /\
      sum_n (fun j => junction_surface fill_net G (fun _ => 2) j * Rabs (h_H (b_st (m_body m2)) j - 3)) 2 <= 22.
Proof.
  intros dry. destruct C26_object_example as (HD & C & A & m2' & E' & _ & _ & H3 & _).
  assert (A0 : admissible fill dry 60) by (split; [lra|split; simpl; intros; lia]).
  assert (Ss : same_settings dry fill_inputs) by (split; reflexivity).
  assert (Hm : healthy fill fill_object) by (apply (healthy_history fill (gauss 2) HD (gauss_solver 2) fill_object []); auto; intros a []).
  destruct (object_step_total fill (gauss 2) HD (gauss_solver 2) dry 60 1 0 fill_object A0 Hm) as ((m2 & p) & E & _).
  repeat (split; [assumption|]). exists m2, m2', p. repeat (split; [assumption|]). split.
  - intros j Hj. rewrite <- (H3 j Hj).
    refine (C72_more_inflow_never_lowers_a_head fill (gauss 2) HD (gauss_solver 2) fill_object [] fill_object dry fill_inputs 60 0 0 m2 p m2' 1
      C _ eq_refl A0 Ss _ _ E E' j Hj).
    + intros a [].
    + intros k _ _. simpl. unfold zeros. lra.
    + intros k _ Hb. discriminate.
  - destruct (C72_heads_move_by_at_most_the_added_water fill (gauss 2) HD (gauss_solver 2) fill_object [] fill_object dry fill_inputs 60 0 0 m2 p m2' 1
      C (fun a (F : In a []) => match F with end) eq_refl A0 Ss (fun k _ (Hb : false = true) => match Bool.diff_false_true Hb with end) E E') as (G & HG & _ & X).
    exists G. split; [exact HG|]. eapply Rle_trans; [|eapply Rle_trans; [exact X|]].
    + apply Req_le, sum_n_ext. intros j Hj. cbv beta. rewrite (H3 j Hj). reflexivity.
    + simpl. unfold zeros. rewrite !Rabs_left by lra. lra.
Qed.
