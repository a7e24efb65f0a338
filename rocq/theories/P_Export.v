(** Property C69: the matrices handed to the user describe the step. *)
From Verif Require Import Prelude M_Coeffs M_Recurrence M_Assembly S_Network L_Assembly P_Assembly M_Export.

(** ** Specification: a linear step  A1 H = A2 H' + d, row by row *)
Definition step_row (n : nat) (A1 A2 : mat) (d H H' : arr) (j : nat) : Prop :=
  sum_n (fun i => A1 j i * H i) n = sum_n (fun i => A2 j i * H' i) n + d j.

Lemma sum_single f n k : (k < n)%nat -> (forall i, (i < n)%nat -> i <> k -> f i = 0) -> sum_n f n = f k.
Proof.
  induction n as [|n IH]; intros Hk H0; [lia|]. simpl. destruct (Nat.eq_dec k n) as [->|].
  - rewrite sum_n_0; [ring|]. intros i Hi. apply H0; lia.
  - rewrite IH; [|lia|intros; apply H0; lia]. rewrite (H0 n); [ring|lia|lia].
Qed.

Lemma previous_row M bc A_sj dt H j : (j < M)%nat ->
  sum_n (fun i => previous_head_matrix M bc A_sj dt j i * H i) M = if bc j then 0 else A_sj j * H j / dt.
Proof.
  intros Hj. rewrite (sum_single _ M j) by (auto; intros i Hi Ne; unfold previous_head_matrix;
    replace (Nat.eqb j i) with false by (symmetry; apply Nat.eqb_neq; auto); rewrite andb_false_r; ring).
  unfold previous_head_matrix. rewrite Nat.eqb_refl. destruct (Nat.ltb_spec j M); [|lia]. simpl.
  destruct (bc j); [ring|]. unfold Rdiv. ring.
Qed.

Section Statements.
Variables (M : nat) (bc : nat -> bool) (K : superlinks) (CO CW CP : controls).
Variables (A_sj H_prev H_bc Q : arr) (dt : R) (s0 : system).
Hypothesis Hr : reachable M bc K CO CW CP s0.
Hypothesis Hn : network_ok M K CO CW CP.

Local Notation s := (assembled M bc K CO CW CP A_sj H_prev H_bc Q dt s0).
Local Notation A := (matrix M bc K CO CW CP A_sj H_prev H_bc Q dt s0).
(** What the user is handed after the step. *)
Definition handed (H : arr) : state_space :=
  state_space_system M (c_n CO) (c_n CW) (c_n CP) bc s A_sj H H_prev Q dt.

Lemma s_b_free j : bc j = false -> s_b s j = A_sj j * H_prev j / dt + Q j + s_D s j.
Proof.
  intros Hb. unfold assembled, sparse_matrix_equations.
  destruct (numba_create_A_matrix _ _ _ _ _ _ _ _ _ _ _ _ _ _ _) as [A' F].
  destruct (assemble_controls _ _ _ _ _ CO) as [[Om Od] D1]. destruct (assemble_controls _ _ _ _ _ CW) as [[Wm Wd] D2].
  destruct (assemble_controls _ _ _ _ _ CP) as [[Pm Pd] D3]. cbn [s_b s_D]. now rewrite Hb.
Qed.

(** *** Junctions without a boundary condition *)

(** The step the user reads off the matrices, A1 H = A2 H' + D + Q, is the row that the heads were solved from, and so
    the junction's water balance: surface attached to the junction times the rise of the head over the step equals inflow
    plus net flow along superlinks and controls. *)
Theorem C69_matrices_reproduce_water_balance :
  forall H j, dt <> 0 -> (j < M)%nat -> bc j = false ->
  let w := handed H in
  (step_row M (ss_A1 w) (ss_A2 w) (fun j => ss_D w j + ss_Q w j) (ss_next w) (ss_prev w) j <-> row_holds M A (s_b s) H j) /\
  (step_row M (ss_A1 w) (ss_A2 w) (fun j => ss_D w j + ss_Q w j) (ss_next w) (ss_prev w) j <->
   attached_area A_sj (k_n K) (k_Ju K) (k_Jd K) (k_dxu K) (k_Bu K) (k_thu K) (k_dxd K) (k_Bd K) (k_thd K) j
     * (H j - H_prev j) / dt
   = Q j + net_inflow (superlink_elements K) H j + net_inflow (control_elements CO) H j
     + net_inflow (control_elements CW) H j + net_inflow (control_elements CP) H j).
Proof.
  intros H j Hdt Hj Hb. cbv zeta.
  assert (E : step_row M (ss_A1 (handed H)) (ss_A2 (handed H)) (fun j => ss_D (handed H) j + ss_Q (handed H) j)
                (ss_next (handed H)) (ss_prev (handed H)) j <-> row_holds M A (s_b s) H j).
  { unfold step_row, row_holds, handed, state_space_system. cbn [ss_A1 ss_A2 ss_D ss_Q ss_next ss_prev].
    rewrite previous_row by auto. rewrite Hb, s_b_free by auto. unfold matrix. split; intros X; lra. }
  split; [exact E|].
  rewrite E. apply (C22_row_is_water_balance M bc K CO CW CP A_sj H_prev H_bc Q dt s0 H j); auto.
Qed.

(** The heads a step reports satisfy the exported step at every junction without boundary condition, as long as no head
    was cut off at the invert or at the maximum depth. *)
Theorem C69_reported_heads_satisfy_exported_step :
  forall z_inv max_depth Hs j, solves M A (s_b s) Hs -> dt <> 0 -> (j < M)%nat -> bc j = false ->
  (forall i, (i < M)%nat -> z_inv i <= Hs i <= z_inv i + max_depth i) ->
  let H := (fun i => limit_head (z_inv i) (max_depth i) (Hs i)) in
  let w := handed H in
  step_row M (ss_A1 w) (ss_A2 w) (fun j => ss_D w j + ss_Q w j) (ss_next w) (ss_prev w) j.
Proof.
  intros z mx Hs j Hsol Hdt Hj Hb Hlim. cbv zeta.
  apply (proj1 (C69_matrices_reproduce_water_balance (fun i => limit_head (z i) (mx i) (Hs i)) j Hdt Hj Hb)).
  pose proof (Hsol j Hj) as X. unfold row_holds in *. rewrite <- X. apply sum_n_ext. intros i Hi.
  destruct (Hlim i Hi). unfold limit_head. rewrite Rmax_left, Rmin_left by lra. reflexivity.
Qed.

(** *** The augmented form says the same *)
Theorem C69_augmented_form_agrees :
  forall H j, (j <= M)%nat ->
  let '(A1, A2, q, Hn) := augmented_system M (c_n CO) (c_n CW) (c_n CP) bc s A_sj H Q dt in
  let w := handed H in
  let ext v := (fun i => if Nat.ltb i M then v i else 1) in
  step_row (S M) A1 A2 q (ext Hn) (ext H_prev) j <->
  (j = M \/ step_row M (ss_A1 w) (ss_A2 w) (fun j => ss_D w j + ss_Q w j) (ss_next w) (ss_prev w) j).
Proof.
  intros H j Hj. unfold augmented_system. cbv zeta. unfold step_row, handed, state_space_system.
  cbn [ss_A1 ss_A2 ss_D ss_Q ss_next ss_prev]. cbn [sum_n].
  destruct (Nat.eq_dec j M) as [->|Ne].
  - rewrite !Nat.ltb_irrefl, Nat.eqb_refl. cbn [andb].
    assert (Z : forall v : arr, sum_n (fun i => (if Nat.eqb i M then 1 else 0) * v i) M = 0).
    { intros v. apply sum_n_0. intros i Hi. replace (Nat.eqb i M) with false by (symmetry; apply Nat.eqb_neq; lia). ring. }
    rewrite !Z. split; [auto|intros; ring].
  - assert (Lj : (j < M)%nat) by lia. destruct (Nat.ltb_spec j M) as [_|]; [|lia].
    rewrite Nat.ltb_irrefl. replace (Nat.eqb j M) with false by (symmetry; apply Nat.eqb_neq; auto).
    rewrite Nat.eqb_refl. cbn [andb].
    rewrite previous_row by auto.
    rewrite (sum_n_ext _ (fun i => system_matrix (c_n CO) (c_n CW) (c_n CP) s j i * H i)).
    2:{ intros i Hi. destruct (Nat.ltb_spec i M); [reflexivity|lia]. }
    rewrite (sum_single (fun i => (if Nat.eqb j i then _ else _) * _) M j Lj).
    2:{ intros i Hi Nei. replace (Nat.eqb j i) with false by (symmetry; apply Nat.eqb_neq; auto).
        replace (Nat.eqb i M) with false by (symmetry; apply Nat.eqb_neq; lia). ring. }
    rewrite Nat.eqb_refl. destruct (Nat.ltb_spec j M); [|lia].
    assert (X : (if bc j then 0 else A_sj j / dt) * H_prev j = if bc j then 0 else A_sj j * H_prev j / dt).
    { destruct (bc j); [ring|]. unfold Rdiv. ring. }
    rewrite X. split; [intros Y; right; lra|intros [|Y]; [lia|lra]].
Qed.

(** *** Boundary junctions *)

(** There the exported row reads H j = D j + Q j, so it holds with the head the step imposes only if the prescribed
    head happens to be D j + Q j. *)
Theorem C69_boundary_row_reads :
  forall H j, (j < M)%nat -> bc j = true ->
  let w := handed H in
  step_row M (ss_A1 w) (ss_A2 w) (fun j => ss_D w j + ss_Q w j) (ss_next w) (ss_prev w) j <-> H j = s_D s j + Q j.
Proof.
  intros H j Hj Hb. cbv zeta. unfold step_row, handed, state_space_system. cbn [ss_A1 ss_A2 ss_D ss_Q ss_next ss_prev].
  rewrite previous_row, Hb by auto.
  pose proof (matrix_row M bc K CO CW CP A_sj H_prev H_bc Q dt s0 H j Hr Hn Hj) as X. rewrite Hb in X.
  unfold matrix in X. rewrite X. split; intros; lra.
Qed.

(** *** Dependence on the previous heads *)

(** With the coefficients of the step held fixed, the right-hand side depends on the previous head of a junction through
    the whole water surface attached to it. *)
Theorem C69_sensitivity_to_previous_heads :
  forall H_prev' j, dt <> 0 -> (j < M)%nat -> bc j = false ->
  s_b (assembled M bc K CO CW CP A_sj H_prev' H_bc Q dt s0) j - s_b s j
  = attached_area A_sj (k_n K) (k_Ju K) (k_Jd K) (k_dxu K) (k_Bu K) (k_thu K) (k_dxd K) (k_Bd K) (k_thd K) j / dt
    * (H_prev' j - H_prev j).
Proof.
  intros H_prev' j Hdt Hj Hb.
  set (A0 := attached_area _ _ _ _ _ _ _ _ _ _ j).
  pose proof (row_residual M bc K CO CW CP A_sj H_prev H_bc Q dt s0 H_prev j Hr Hn Hdt Hj Hb) as E1.
  pose proof (row_residual M bc K CO CW CP A_sj H_prev' H_bc Q dt s0 H_prev j Hr Hn Hdt Hj Hb) as E2.
  fold A0 in E1, E2.
  pose proof (matrix_row M bc K CO CW CP A_sj H_prev H_bc Q dt s0 H_prev j Hr Hn Hj) as R1.
  pose proof (matrix_row M bc K CO CW CP A_sj H_prev' H_bc Q dt s0 H_prev j Hr Hn Hj) as R2.
  rewrite Hb in R1, R2. rewrite R1 in E1. rewrite R2 in E2. unfold Rdiv in *.
  replace (A0 * / dt * (H_prev' j - H_prev j)) with (A0 * (H_prev j - H_prev j) * / dt - A0 * (H_prev j - H_prev' j) * / dt) by ring.
  lra.
Qed.
End Statements.

(** ** What is missing *)

(** A boundary junction: two junctions, the second held at 3 m, a superlink between them.  The heads (2, 3) solve the
    step, but do not satisfy the exported second row, which reads H = 0. *)
Theorem C69_boundary_heads_refuted :
  exists M bc K A_sj H_prev H_bc Q dt Hs,
    let s0 := fresh_system in
    reachable M bc K no_controls no_controls no_controls s0 /\ network_ok M K no_controls no_controls no_controls /\ 0 < dt /\
    solves M (matrix M bc K no_controls no_controls no_controls A_sj H_prev H_bc Q dt s0)
             (s_b (assembled M bc K no_controls no_controls no_controls A_sj H_prev H_bc Q dt s0)) Hs /\
    exists j, (j < M)%nat /\ bc j = true /\ Hs j = H_bc j /\
      let w := handed M bc K no_controls no_controls no_controls A_sj H_prev H_bc Q dt s0 Hs in
      ~ step_row M (ss_A1 w) (ss_A2 w) (fun j => ss_D w j + ss_Q w j) (ss_next w) (ss_prev w) j.
Proof.
  set (K := mkSuperlinks 1 (fun _ => 0%nat) (fun _ => 1%nat) (fun _ => 1) (fun _ => -1) zeros (fun _ => 1) (fun _ => -1) zeros
             zeros zeros zeros zeros zeros zeros).
  set (bc := fun j => Nat.eqb j 1).
  exists 2%nat, bc, K, (fun _ => 1), (fun _ => 1), (fun _ => 3), zeros, 1, (fun j => if Nat.eqb j 0 then 2 else 3). cbv zeta.
  assert (Hr : reachable 2 bc K no_controls no_controls no_controls fresh_system) by constructor.
  assert (Hn : network_ok 2 K no_controls no_controls no_controls).
  { unfold network_ok, ends_in; simpl. repeat split; intros; lia. }
  split; [exact Hr|]. split; [exact Hn|]. split; [lra|]. split.
  - intros j Hj. destruct j as [|[|j]]; [| |lia].
    + apply C22_row_is_water_balance; auto; try lra.
      unfold attached_area, net_inflow, sum_if. simpl. unfold zeros. simpl. lra.
    + apply C23_boundary_row_prescribes_head; auto.
  - exists 1%nat. split; [lia|]. split; [reflexivity|]. split; [reflexivity|].
    intros X. apply (C69_boundary_row_reads 2 bc K no_controls no_controls no_controls _ _ _ _ _ fresh_system Hr Hn) in X; auto.
    cbn in X. unfold zeros, upd, xi in X. cbn in X. lra.
Qed.

(** The exported A2 carries only the area of the junction itself.  A junction with area 1 m2, and a superlink end piece of
    10 m by 1 m attached to it: a head 1 m higher at the start of the step changes the right-hand side by 6, the exported
    matrix says 1. *)
Theorem C69_exported_sensitivity_refuted :
  exists M bc K A_sj H_prev H_prev' H_bc Q dt j,
    let s0 := fresh_system in
    reachable M bc K no_controls no_controls no_controls s0 /\ network_ok M K no_controls no_controls no_controls /\ 0 < dt /\
    (j < M)%nat /\ bc j = false /\
    let w := handed M bc K no_controls no_controls no_controls A_sj H_prev H_bc Q dt s0 H_prev in
    s_b (assembled M bc K no_controls no_controls no_controls A_sj H_prev' H_bc Q dt s0) j
    - s_b (assembled M bc K no_controls no_controls no_controls A_sj H_prev H_bc Q dt s0) j
    <> sum_n (fun i => ss_A2 w j i * (H_prev' i - H_prev i)) M.
Proof.
  set (K := mkSuperlinks 1 (fun _ => 0%nat) (fun _ => 1%nat) (fun _ => 1) (fun _ => -1) zeros (fun _ => 1) (fun _ => -1) zeros
             (fun _ => 10) (fun _ => 1) (fun _ => 1) (fun _ => 10) (fun _ => 1) (fun _ => 1)).
  set (bc := fun j => Nat.eqb j 1).
  exists 2%nat, bc, K, (fun _ => 1), (fun _ => 1), (fun _ => 2), (fun _ => 3), zeros, 1, 0%nat. cbv zeta.
  assert (Hr : reachable 2 bc K no_controls no_controls no_controls fresh_system) by constructor.
  assert (Hn : network_ok 2 K no_controls no_controls no_controls).
  { unfold network_ok, ends_in; simpl. repeat split; intros; lia. }
  split; [exact Hr|]. split; [exact Hn|]. split; [lra|]. split; [lia|]. split; [reflexivity|].
  rewrite (C69_sensitivity_to_previous_heads 2 bc K no_controls no_controls no_controls _ _ _ _ _ fresh_system Hr Hn)
    by (auto; lra).
  cbn [handed state_space_system ss_A2 sum_n]. unfold previous_head_matrix, attached_area, sum_if. simpl. lra.
Qed.

(** ** A concrete network *)

(** The network of C22-C25 (parallel and opposite superlinks, orifice, weir, pump, boundary at the last junction). *)
Example C69_example :
  let s0 := fresh_system in
  reachable 3 ex_bc ex_K (ex_C 0 1 1) (ex_C 0 1 (1 / 2)) (ex_C 1 0 3) s0 /\
  network_ok 3 ex_K (ex_C 0 1 1) (ex_C 0 1 (1 / 2)) (ex_C 1 0 3) /\
  let w := handed 3 ex_bc ex_K (ex_C 0 1 1) (ex_C 0 1 (1 / 2)) (ex_C 1 0 3) (fun _ => 5) (fun _ => 7) (fun _ => 1) zeros 1 s0
             (fun _ => 7) in
  ss_A2 w 0%nat 0%nat = 5 /\ ss_A2 w 2%nat 2%nat = 0 /\ ss_A1 w 2%nat 2%nat = 1 /\ ss_D w 0%nat <> 0.
Proof.
  cbv zeta. split; [constructor|]. split.
  { unfold network_ok, ends_in; simpl. repeat split; intros; try lia; destruct k as [|[|[|k]]]; simpl; lia. }
  unfold handed, state_space_system, previous_head_matrix. cbn [ss_A2 ss_A1 ss_D]. simpl. split; [lra|]. split; [reflexivity|].
  assert (Hr : reachable 3 ex_bc ex_K (ex_C 0 1 1) (ex_C 0 1 (1 / 2)) (ex_C 1 0 3) fresh_system) by constructor.
  split.
  - destruct (C23_boundary_row_prescribes_head 3 ex_bc ex_K (ex_C 0 1 1) (ex_C 0 1 (1 / 2)) (ex_C 1 0 3)
      (fun _ => 5) (fun _ => 7) (fun _ => 1) zeros 1 fresh_system 2 Hr) as [X _]; [|lia|reflexivity|].
    { unfold network_ok, ends_in; simpl. repeat split; intros; try lia; destruct k as [|[|[|k]]]; simpl; lia. }
    exact (X 2%nat ltac:(lia)).
  - cbn. unfold numba_add_at, zeros, upd, xi. cbn. lra.
Qed.
