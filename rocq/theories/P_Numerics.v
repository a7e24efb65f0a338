(** Properties C01-C05: sampling of tables and root finders. *)
From Verif Require Import Prelude M_Numerics S_Numerics L_Interp L_Newton.

(** Witness table used by the examples. *)
Definition ex_t : list R := [0; 1; 3].
Definition ex_v : list R := [2; 4; 4].
Lemma ex_t_ascending : ascending ex_t.
Proof.
  intros i j a b Hij Hi Hj. unfold ex_t in *.
  destruct i as [|[|[|i]]]; destruct j as [|[|[|j]]]; simpl in *; try lia;
    try (destruct i; discriminate); try (destruct j; discriminate);
    inversion Hi; inversion Hj; subst; lra.
Qed.
Lemma ex_v_nondecreasing : nondecreasing ex_v.
Proof.
  intros i j a b Hij Hi Hj. unfold ex_v in *.
  destruct i as [|[|[|i]]]; destruct j as [|[|[|j]]]; simpl in *; try lia;
    try (destruct i; discriminate); try (destruct j; discriminate);
    inversion Hi; inversion Hj; subst; lra.
Qed.

(** *** C01 *)

(** Before the first time the first row is returned (both methods). *)
Theorem C01_before_table : forall xp fp x x0 method,
  length fp = length xp -> nth_error xp 0 = Some x0 -> x <= x0 ->
  interpolate_sample x xp fp method = nth_error fp 0.
Proof. intros; eapply interp_left; eauto. Qed.

(** After the last time the last row is returned (both methods). *)
Theorem C01_after_table : forall xp fp x xn method,
  ascending xp -> length fp = length xp ->
  nth_error xp (length xp - 1) = Some xn -> xn < x ->
  interpolate_sample x xp fp method = nth_error fp (length fp - 1).
Proof. intros; eapply interp_right_strict; eauto. Qed.

(** Between two neighbouring times the linear sample lies between their values. *)
Theorem C01_between_neighbours : forall xp fp x i xl xr fl fr,
  ascending xp -> length fp = length xp ->
  nth_error xp i = Some xl -> nth_error xp (S i) = Some xr ->
  nth_error fp i = Some fl -> nth_error fp (S i) = Some fr ->
  xl <= x <= xr ->
  exists v, interpolate_sample x xp fp 1 = Some v /\ between fl fr v.
Proof.
  intros xp fp x i xl xr fl fr Ha Hlen Hl Hr Hfl Hfr Hx.
  exists (fl + (fr - fl) / (xr - xl) * (x - xl)). split.
  - eapply interp_affine; eauto.
  - apply affine_between; auto. apply (Ha i (S i)); auto; lia.
Qed.

(** Sampling never fails and never leaves the range of the table. *)
Theorem C01_never_leaves_data : forall xp fp x,
  ascending xp -> xp <> [] -> length fp = length xp ->
  exists v i j a b, interpolate_sample x xp fp 1 = Some v /\
    nth_error fp i = Some a /\ nth_error fp j = Some b /\ a <= v <= b.
Proof. exact interp_total. Qed.

(** 'nearest' returns the row of a nearest table time. *)
Theorem C01_nearest_is_nearest_row : forall xp fp x,
  ascending xp -> xp <> [] -> length fp = length xp ->
  exists i xi fi, nth_error xp i = Some xi /\ nth_error fp i = Some fi /\
    interpolate_sample x xp fp 0 = Some fi /\
    forall j xj, nth_error xp j = Some xj -> Rabs (x - xi) <= Rabs (x - xj).
Proof. exact interp_nearest. Qed.

Example C01_example :
  ascending ex_t /\ ex_t <> [] /\ length ex_v = length ex_t /\
  interpolate_sample (1/2) ex_t ex_v 1 = Some 3 /\ interpolate_sample (-1) ex_t ex_v 1 = Some 2 /\
  interpolate_sample 9 ex_t ex_v 0 = Some 4.
Proof.
  split; [exact ex_t_ascending|]. split; [discriminate|]. split; [reflexivity|].
  split; [|split].
    rewrite (interp_affine ex_t ex_v (1/2) 0 0 1 2 4); auto using ex_t_ascending; try lra.
    f_equal; field.
  - rewrite (interp_left ex_t ex_v (-1) 0); auto; lra.
  - rewrite (interp_right_strict ex_t ex_v 9 3); auto using ex_t_ascending; lra.
Qed.

(** *** C02 *)

Theorem C02_exact_at_knots : forall xp fp i xi fi,
  ascending xp -> length fp = length xp ->
  nth_error xp i = Some xi -> nth_error fp i = Some fi ->
  interpolate_sample xi xp fp 1 = Some fi.
Proof. exact interp_knot. Qed.

Theorem C02_affine_between_knots : forall xp fp x i xl xr fl fr,
  ascending xp -> length fp = length xp ->
  nth_error xp i = Some xl -> nth_error xp (S i) = Some xr ->
  nth_error fp i = Some fl -> nth_error fp (S i) = Some fr ->
  xl <= x <= xr ->
  interpolate_sample x xp fp 1 = Some (fl + (fr - fl) / (xr - xl) * (x - xl)).
Proof. exact interp_affine. Qed.

Theorem C02_monotone : forall xp fp x y vx vy,
  ascending xp -> xp <> [] -> length fp = length xp -> nondecreasing fp -> x <= y ->
  interpolate_sample x xp fp 1 = Some vx -> interpolate_sample y xp fp 1 = Some vy -> vx <= vy.
Proof. exact interp_monotone. Qed.

Lemma interp_opp xp fp x : interpolate_sample x xp (map Ropp fp) 1 = option_map Ropp (interpolate_sample x xp fp 1).
Proof.
  unfold interpolate_sample. rewrite !nth_error_map. destruct (Nat.eqb _ 0); [reflexivity|].
  destruct (Nat.leb _ _); [reflexivity|]. destruct (nth_error xp (searchsorted xp x - 1)); [|reflexivity].
  destruct (nth_error xp (searchsorted xp x)); [|reflexivity].
  destruct (nth_error fp (searchsorted xp x - 1)); [|reflexivity].
  destruct (nth_error fp (searchsorted xp x)); [|reflexivity].
  cbn [option_map]. replace (Nat.eqb 1 1) with true by reflexivity. cbv zeta. destruct (Reqb _ 0); [reflexivity|].
  cbn [option_map]. f_equal. ring.
Qed.
(** Tables of falling values: a larger input never gives a larger value. *)
Theorem C02_monotone_falling : forall xp fp x y vx vy,
  ascending xp -> xp <> [] -> length fp = length xp ->
  (forall i j a b, (i <= j)%nat -> nth_error fp i = Some a -> nth_error fp j = Some b -> b <= a) -> x <= y ->
  interpolate_sample x xp fp 1 = Some vx -> interpolate_sample y xp fp 1 = Some vy -> vy <= vx.
Proof.
  intros xp fp x y vx vy Asc Ne L Fall Hxy Ex Ey. cut (- vx <= - vy); [lra|].
  apply (interp_monotone xp (map Ropp fp) x y); auto.
  - rewrite map_length; auto.
  - intros i j a b Hij Ha Hb. rewrite nth_error_map in Ha, Hb.
    destruct (nth_error fp i) as [u|] eqn:Eu; [|discriminate]. destruct (nth_error fp j) as [v|] eqn:Ev; [|discriminate].
    injection Ha as <-. injection Hb as <-. pose proof (Fall i j u v Hij Eu Ev). lra.
  - rewrite interp_opp, Ex. reflexivity.
  - rewrite interp_opp, Ey. reflexivity.
Qed.

Example C02_example :
  ascending ex_t /\ nondecreasing ex_v /\ interpolate_sample 1 ex_t ex_v 1 = Some 4.
Proof.
  split; [exact ex_t_ascending|]. split; [exact ex_v_nondecreasing|].
  apply (interp_knot ex_t ex_v 1); auto using ex_t_ascending.
Qed.

(** *** C03 *)

(** For arbitrary [f] and [df]: the answer is inside the bracket; the only exception is 'No zero found'
    (in particular no division by zero). *)
Theorem C03_stays_in_bracket : forall f df x0 x_lb x_ub max_iter atol,
  (exists x, bounded_newton_raphson f df x0 x_lb x_ub max_iter atol = Root x /\ between x_lb x_ub x) \/
  bounded_newton_raphson f df x0 x_lb x_ub max_iter atol = NoZeroFound.
Proof.
  intros. pose proof (bnewton_bracket f df x0 x_lb x_ub max_iter atol) as H.
  destruct (bounded_newton_raphson f df x0 x_lb x_ub max_iter atol); eauto; contradiction.
Qed.

(** The search always succeeds when max_iter >= K(K+1)/2 for a bracket shorter than 2^K atol,
    whatever the function and the derivative. *)
Theorem C03_terminates_with_answer : forall f df x0 x_lb x_ub atol K max_iter,
  0 < atol -> (1 <= K)%nat -> Rabs (x_ub - x_lb) < 2 ^ K * atol ->
  (K * (K + 1) <= 2 * max_iter)%nat ->
  exists x, bounded_newton_raphson f df x0 x_lb x_ub max_iter atol = Root x.
Proof. exact bnewton_terminates. Qed.

(** Finding: when the function is larger at the lower bound the bounds are swapped before the start
    point is compared with them, so the user's start point is discarded. *)
Theorem C03_start_point_discarded_when_decreasing : forall f df x0 x0' x_lb x_ub max_iter atol,
  x_lb < x_ub -> f x_ub < f x_lb ->
  bounded_newton_raphson f df x0 x_lb x_ub max_iter atol
  = bounded_newton_raphson f df x0' x_lb x_ub max_iter atol.
Proof.
  intros f df x0 x0' x_lb x_ub n atol Hb Hf. unfold bounded_newton_raphson. f_equal.
  unfold bnewton_init. destruct (Rltb_spec (f x_ub) (f x_lb)); [|lra].
  assert (G : forall z, Rltb z x_ub || Rltb x_lb z = true).
  { intros z. destruct (Rltb_spec z x_ub); simpl; auto. destruct (Rltb_spec x_lb z); auto; lra. }
  now rewrite !G.
Qed.

(** On f(x) = 2x - 2, bracket [0,4], start 3, the answer is found (non-vacuity of C03/C04). *)
Example C03_example :
  (exists x, bounded_newton_raphson (fun x => 2 * x - 2) (fun _ => 2) 3 0 4 28 (1/16) = Root x
             /\ between 0 4 x) /\ (fun x => 2 * x - 2) 0 * (fun x => 2 * x - 2) 4 < 0.
Proof.
  split; [|simpl; lra].
  destruct (C03_terminates_with_answer (fun x => 2 * x - 2) (fun _ => 2) 3 0 4 (1/16) 7 28) as [x E].
  - lra.
  - lia.
  - rewrite Rabs_right by lra. simpl; lra.
  - lia.
  - exists x; split; auto.
    destruct (C03_stays_in_bracket (fun x => 2 * x - 2) (fun _ => 2) 3 0 4 28 (1/16)) as [[y [Ey By]]|E'].
    + rewrite E in Ey; inversion Ey; subst; auto.
    + rewrite E in E'; discriminate.
Qed.

(** *** C04 *)
Theorem C04_answer_close_to_sign_change : forall f df x0 x_lb x_ub max_iter atol x,
  (forall y, between x_lb x_ub y -> continuity_pt f y) ->
  f x_lb * f x_ub < 0 ->
  bounded_newton_raphson f df x0 x_lb x_ub max_iter atol = Root x ->
  (exists z, between x_lb x_ub z /\ f z = 0 /\ Rabs (x - z) < atol) \/
  (exists p, between x_lb x_ub p /\ df p <> 0 /\ x = p - f p / df p /\ Rabs (f p) < atol * Rabs (df p)).
Proof. exact bnewton_accuracy. Qed.

Example C04_example :
  exists x, bounded_newton_raphson (fun x => 2 * x - 2) (fun _ => 2) 3 0 4 28 (1/16) = Root x /\
    (forall y, between 0 4 y -> continuity_pt (fun x => 2 * x - 2) y).
Proof.
  destruct C03_example as [[x [E _]] _]. exists x; split; auto.
  intros y _. apply derivable_continuous_pt. reg.
Qed.

(** *** C05 *)

(** A returned point is an exact zero or the last of at most [max_iter] Newton iterates, with its last
    update within tolerance; and it is the first such iterate. *)
Theorem C05_returns_only_converged : forall f df x0 max_iter atol rtol x,
  newton_raphson f df x0 max_iter atol rtol = Root x ->
  let it := newton_iterate f df x0 in
  exists k, (k < max_iter)%nat /\
    (forall i, (i < k)%nat -> f (it i) <> 0 /\ df (it i) <> 0 /\
                              atol + rtol * Rabs (it i) < Rabs (it (S i) - it i)) /\
    ((x = it k /\ f x = 0) \/
     (x = it (S k) /\ f (it k) <> 0 /\ df (it k) <> 0 /\ Rabs (x - it k) <= atol + rtol * Rabs (it k))).
Proof.
  intros f df x0 n atol rtol x E. pose proof (newton_raphson_outcome f df x0 n atol rtol) as H.
  rewrite E in H. exact H.
Qed.

(** It raises 'Derivative is zero' only at an iterate with zero slope, 'No solution found' only if none of
    the max_iter iterates is a zero or converged, and never divides by zero. *)
Theorem C05_raises_only_when_unconverged : forall f df x0 max_iter atol rtol,
  let it := newton_iterate f df x0 in
  match newton_raphson f df x0 max_iter atol rtol with
  | Root _ => True
  | DerivativeIsZero => exists k, (k < max_iter)%nat /\ f (it k) <> 0 /\ df (it k) = 0
  | NoZeroFound => forall k, (k < max_iter)%nat ->
      f (it k) <> 0 /\ df (it k) <> 0 /\ atol + rtol * Rabs (it k) < Rabs (it (S k) - it k)
  | ZeroDivision => False
  end.
Proof.
  intros f df x0 n atol rtol it. pose proof (newton_raphson_outcome f df x0 n atol rtol) as H.
  destruct (newton_raphson f df x0 n atol rtol); auto; exact H.
Qed.

Example C05_example : newton_raphson (fun x => 2 * x - 2) (fun _ => 2) 3 5 (1/10) 0 = Root 1.
Proof.
  unfold newton_raphson; simpl.
  destruct (Reqb_spec (2 * (1 * 3) - 2) 0); [lra|].
  destruct (Reqb_spec 2 0); [lra|].
  destruct (Rleb_spec (Rabs (1 * 3 - (2 * (1 * 3) - 2) / 2 - 1 * 3)) (1 / 10 + 0 * Rabs (1 * 3))).
  - exfalso. rewrite Rabs_left1 in r by lra. lra.
  - destruct (Reqb_spec (2 * (1 * 3 - (2 * (1 * 3) - 2) / 2) - 2) 0); [f_equal; lra|lra].
Qed.

