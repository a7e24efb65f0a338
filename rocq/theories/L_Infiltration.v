From Verif Require Import Prelude M_Coeffs M_Numerics S_Numerics L_Newton L_Geometry M_Infiltration.

(** ** Logarithm inequalities *)
Lemma ln_le_sub1 v : 0 < v -> ln v <= v - 1.
Proof.
  intros H. pose proof (exp_ineq1_le (ln v)) as E. rewrite exp_ln in E by auto. lra.
Qed.
Lemma ln_lt_sub1 v : 0 < v -> v <> 1 -> ln v < v - 1.
Proof.
  intros H N. assert (ln v <> 0) by (intros E; apply N; rewrite <- (exp_ln v), E by auto; apply exp_0).
  pose proof (exp_ineq1 (ln v) H0) as E. rewrite exp_ln in E by auto. lra.
Qed.
Lemma sinh_ge s : 0 <= s -> s <= (exp s - exp (- s)) / 2.
Proof.
  intros H.
  assert (D : forall t, derivable_pt_lim (fun t => (exp t - exp (- t)) / 2 - t) t ((exp t + exp (- t)) / 2 - 1)).
  { intros t.
    assert (E : derivable_pt_lim (fun t => (exp t - exp (- t)) * / 2 - t) t
                  (((exp t - exp (- t) * -1) * / 2 + (exp t - exp (- t)) * 0) - 1)).
    { apply (derivable_pt_lim_minus (fun t => (exp t - exp (- t)) * / 2) (fun t => t));
        [|apply derivable_pt_lim_id].
      apply (derivable_pt_lim_mult (fun t => exp t - exp (- t)) (fun _ => / 2));
        [|apply derivable_pt_lim_const].
      apply (derivable_pt_lim_minus exp (fun t => exp (- t))); [apply derivable_pt_lim_exp|].
      apply (derivable_pt_lim_comp (fun t => - t) exp); [|apply derivable_pt_lim_exp].
      replace (-1) with (- 1) by lra. apply (derivable_pt_lim_opp (fun t => t)), derivable_pt_lim_id. }
    replace ((exp t + exp (- t)) / 2 - 1) with (((exp t - exp (- t) * -1) * / 2 + (exp t - exp (- t)) * 0) - 1) by lra.
    exact E. }
  pose proof (nonneg_lim_increasing _ _ D) as I.
  assert (N : forall t, 0 <= (exp t + exp (- t)) / 2 - 1).
  { intros t. pose proof (exp_pos t). rewrite exp_Ropp.
    assert (0 <= (exp t - 1) ^ 2 / exp t)
      by (apply Rmult_le_pos; [apply pow2_ge_0|apply Rlt_le, Rinv_0_lt_compat; auto]).
    replace ((exp t - 1) ^ 2 / exp t) with (exp t + / exp t - 2) in H1 by (field; lra). lra. }
  specialize (I N 0 s H). cbv beta in I. rewrite Ropp_0, exp_0 in I. lra.
Qed.
(** Trapezoid bound for 1/y. *)
Lemma ln_trapezoid X P : 0 < X -> X <= P -> ln P - ln X <= (P - X) * (/ X + / P) / 2.
Proof.
  intros HX HP. assert (H0 : 0 <= ln P - ln X).
  { destruct (Req_dec X P) as [->|N]; [lra|]. pose proof (ln_increasing X P HX). lra. }
  pose proof (sinh_ge _ H0) as S.
  assert (E1 : exp (ln P - ln X) = P / X).
  { unfold Rminus. rewrite exp_plus, exp_Ropp, !exp_ln by lra. reflexivity. }
  rewrite exp_Ropp, E1 in S.
  replace ((P - X) * (/ X + / P) / 2) with ((P / X - / (P / X)) / 2) by (field; lra). lra.
Qed.
Lemma ln_quad u : 0 <= u -> u - u ^ 2 / 2 <= ln (1 + u).
Proof.
  intros H.
  assert (D : forall t, derivable_pt_lim (fun t => t - (exp t - 1) + (exp t - 1) * (exp t - 1) * / 2) t ((exp t - 1) ^ 2)).
  { intros t.
    assert (D1 : derivable_pt_lim (fun t => exp t - 1) t (exp t - 0)).
    { apply (derivable_pt_lim_minus exp (fun _ => 1)); [apply derivable_pt_lim_exp|apply derivable_pt_lim_const]. }
    assert (E : derivable_pt_lim (fun t => t - (exp t - 1) + (exp t - 1) * (exp t - 1) * / 2) t
      ((1 - (exp t - 0)) + (((exp t - 0) * (exp t - 1) + (exp t - 1) * (exp t - 0)) * / 2
                            + (exp t - 1) * (exp t - 1) * 0))).
    { apply (derivable_pt_lim_plus (fun t => t - (exp t - 1)) (fun t => (exp t - 1) * (exp t - 1) * / 2)).
      - apply (derivable_pt_lim_minus (fun t => t) (fun t => exp t - 1)); [apply derivable_pt_lim_id|exact D1].
      - apply (derivable_pt_lim_mult (fun t => (exp t - 1) * (exp t - 1)) (fun _ => / 2));
          [|apply derivable_pt_lim_const].
        apply (derivable_pt_lim_mult (fun t => exp t - 1) (fun t => exp t - 1)); exact D1. }
    replace ((exp t - 1) ^ 2) with ((1 - (exp t - 0)) + (((exp t - 0) * (exp t - 1) + (exp t - 1) * (exp t - 0)) * / 2
                            + (exp t - 1) * (exp t - 1) * 0)) by lra.
    exact E. }
  pose proof (nonneg_lim_increasing _ _ D (fun t => pow2_ge_0 _)) as I.
  assert (L : 0 <= ln (1 + u)).
  { destruct (Req_dec u 0) as [->|N]; [rewrite Rplus_0_r, ln_1; lra|].
    rewrite <- ln_1. left. apply ln_increasing; lra. }
  specialize (I 0 (ln (1 + u)) L). cbv beta in I. rewrite exp_0, exp_ln in I by lra. lra.
Qed.

(** ** The residual of the Green-Ampt equation, up to its constant *)
Section Residual.
Variables (a c : R).
Hypothesis (Ha : 0 < a).
Let f (y : R) : R := c + a * ln (y + a) - y.
Let df (y : R) : R := a / (a + y) - 1.

Lemma df_eq y : 0 <= y -> df y = - (y / (y + a)).
Proof. intros; unfold df; field; lra. Qed.
Lemma df_neg y : 0 < y -> df y < 0.
Proof.
  intros H. rewrite df_eq by lra.
  assert (0 < y / (y + a)) by (apply Rmult_lt_0_compat; [|apply Rinv_0_lt_compat]; lra). lra.
Qed.
Lemma df_nonpos y : 0 <= y -> df y <= 0.
Proof.
  intros [H| <-]; [left; now apply df_neg|]. rewrite df_eq by lra. unfold Rdiv; lra.
Qed.

Lemma f_tangent x y : 0 <= x -> 0 <= y -> f y <= f x + df x * (y - x).
Proof.
  intros Hx Hy. unfold f, df.
  assert (V : 0 < (y + a) / (x + a)) by (apply Rmult_lt_0_compat; [|apply Rinv_0_lt_compat]; lra).
  pose proof (ln_le_sub1 _ V) as L. unfold Rdiv in L at 1. rewrite ln_mult in L; try lra;
    [|apply Rinv_0_lt_compat; lra]. rewrite ln_Rinv in L by lra.
  assert (E : (a / (a + x) - 1) * (y - x) = a * ((y + a) / (x + a) - 1) - (y - x)) by (field; lra).
  rewrite E. nra.
Qed.
Lemma f_tangent_strict x y : 0 <= x -> 0 <= y -> x <> y -> f y < f x + df x * (y - x).
Proof.
  intros Hx Hy N. unfold f, df.
  assert (V : 0 < (y + a) / (x + a)) by (apply Rmult_lt_0_compat; [|apply Rinv_0_lt_compat]; lra).
  assert (V1 : (y + a) / (x + a) <> 1).
  { intros E. apply N. apply Rmult_eq_compat_r with (r := x + a) in E.
    unfold Rdiv in E. rewrite Rmult_assoc, Rinv_l in E; lra. }
  pose proof (ln_lt_sub1 _ V V1) as L. unfold Rdiv in L at 1. rewrite ln_mult in L; try lra;
    [|apply Rinv_0_lt_compat; lra]. rewrite ln_Rinv in L by lra.
  assert (E : (a / (a + x) - 1) * (y - x) = a * ((y + a) / (x + a) - 1) - (y - x)) by (field; lra).
  rewrite E. nra.
Qed.
Lemma f_decr x y : 0 <= x -> x < y -> f y < f x.
Proof.
  intros Hx Hy. pose proof (f_tangent_strict x y). pose proof (df_nonpos x Hx). nra.
Qed.
Lemma f_sign_below u y : 0 <= y -> y <= u -> 0 <= f u -> 0 <= f y.
Proof. intros Hy [H| ->] Hu; auto. pose proof (f_decr y u Hy H). lra. Qed.
Lemma f_lip x y : 0 <= x -> 0 <= y -> Rabs (f x - f y) <= Rabs (x - y).
Proof.
  assert (G : forall x y, 0 <= x -> x <= y -> f x - f y <= y - x).
  { intros p q Hp Hq. unfold f.
    assert (ln (p + a) <= ln (q + a)).
    { destruct (Req_dec p q) as [->|]; [lra|]. left. apply ln_increasing; lra. }
    nra. }
  assert (M : forall x y, 0 <= x -> x <= y -> f y <= f x).
  { intros p q Hp [Hq| ->]; [left; now apply f_decr|lra]. }
  intros Hx Hy. destruct (Rle_or_lt x y) as [H|H].
  - pose proof (G x y Hx H). pose proof (M x y Hx H). rewrite Rabs_right, Rabs_left1; lra.
  - pose proof (G y x Hy (Rlt_le _ _ H)). pose proof (M y x Hy (Rlt_le _ _ H)). rewrite Rabs_left1, Rabs_right; lra.
Qed.
Lemma f_cont y : 0 <= y -> continuity_pt f y.
Proof.
  intros Hy. apply derivable_continuous_pt.
  exists (0 + a * (/ (y + a) * (1 + 0)) - 1). unfold derivable_pt_abs, f.
  apply (derivable_pt_lim_minus (fun y => c + a * ln (y + a)) (fun y => y)); [|apply derivable_pt_lim_id].
  apply (derivable_pt_lim_plus (fun _ => c) (fun y => a * ln (y + a))); [apply derivable_pt_lim_const|].
  apply (derivable_pt_lim_scal (fun y => ln (y + a))).
  apply (derivable_pt_lim_comp (fun y => y + a) ln); [|apply derivable_pt_lim_ln; lra].
  apply (derivable_pt_lim_plus (fun y => y) (fun _ => a)); [apply derivable_pt_lim_id|apply derivable_pt_lim_const].
Qed.

(** Newton's image has non-positive residual; negative unless it is a fixed point. *)
Lemma newton_image p : 0 <= p -> df p <> 0 -> 0 <= p - f p / df p -> f p <> 0 -> f (p - f p / df p) < 0.
Proof.
  intros Hp D Hx Hf.
  assert (p <> p - f p / df p).
  { intros E. apply Hf. assert (E2 : f p / df p = 0) by lra.
    apply Rmult_eq_compat_r with (r := df p) in E2. unfold Rdiv in E2. rewrite Rmult_assoc, Rinv_l in E2; lra. }
  pose proof (f_tangent_strict p (p - f p / df p) Hp Hx H) as T.
  replace (f p + df p * (p - f p / df p - p)) with 0 in T by (field; auto). exact T.
Qed.
(** Residual after one Newton step is bounded by the length of the step. *)
Lemma newton_residual p : 0 <= p -> df p <> 0 -> 0 <= p - f p / df p ->
  Rabs (f (p - f p / df p)) <= Rabs (f p / df p).
Proof.
  intros Hp D Hx. set (x := p - f p / df p) in *.
  pose proof (f_tangent p x Hp Hx) as T. pose proof (f_tangent x p Hx Hp) as T2.
  assert (E : f p = df p * (p - x)) by (unfold x; field; auto).
  replace (f p / df p) with (p - x) by (unfold x; ring).
  rewrite E in T, T2. replace (df p * (p - x) + df p * (x - p)) with 0 in T by ring.
  rewrite Rabs_left1 by lra.
  assert (B : forall y, 0 <= y -> -1 <= df y <= 0).
  { intros y Hy; split; [|now apply df_nonpos]. unfold df.
    assert (0 < a / (a + y)) by (apply Rmult_lt_0_compat; [|apply Rinv_0_lt_compat]; lra). lra. }
  pose proof (B p Hp). pose proof (B x Hx).
  destruct (Rle_or_lt x p); [rewrite Rabs_right by lra|rewrite Rabs_left by lra]; nra.
Qed.

(** Once right of the root, Newton steps at least halve. *)
Lemma newton_halves p x : 0 <= x -> x < p -> 0 <= f 0 -> f p = df p * (p - x) ->
  2 * - f x <= (p - x) * - df x.
Proof.
  intros Hx Hp F0 Ep. set (h := p - x).
  assert (G : - f x = a * (ln (p + a) - ln (x + a) - h / (p + a))).
  { assert (E : f x = f x - f p + df p * (p - x)) by lra.
    rewrite E. unfold f, df, h. field. lra. }
  pose proof (ln_trapezoid (x + a) (p + a) ltac:(lra) ltac:(lra)) as Tz.
  replace (p + a - (x + a)) with h in Tz by (unfold h; ring).
  rewrite df_eq by auto. rewrite Ropp_involutive.
  assert (hp : 0 < h) by (unfold h; lra).
  destruct (Rle_or_lt (h * (a - x)) (x * (x + a))) as [C|C].
  - assert (B : - f x <= a * (h * h / (2 * (x + a) * (p + a)))).
    { rewrite G. apply Rmult_le_compat_l; [lra|].
      replace (h * h / (2 * (x + a) * (p + a))) with (h * (/ (x + a) + / (p + a)) / 2 - h / (p + a));
        [lra|]. unfold h; field; lra. }
    apply Rle_trans with (2 * (a * (h * h / (2 * (x + a) * (p + a))))); [lra|].
    replace (2 * (a * (h * h / (2 * (x + a) * (p + a))))) with (h * (a * h / ((x + a) * (p + a)))) by (field; lra).
    apply Rmult_le_compat_l; [lra|].
    replace (x / (x + a)) with (x * (p + a) / ((x + a) * (p + a))) by (field; lra).
    apply Rmult_le_compat_r; [apply Rlt_le, Rinv_0_lt_compat, Rmult_lt_0_compat; lra|].
    unfold h in *. nra.
  - assert (x < a) by nra.
    assert (Q : - f x <= x ^ 2 / (2 * a)).
    { pose proof (ln_quad (x / a)) as L.
      assert (0 <= x / a) by (apply Rmult_le_pos; [lra|apply Rlt_le, Rinv_0_lt_compat; lra]).
      specialize (L H0).
      assert (EL : ln (x + a) = ln (1 + x / a) + ln a).
      { rewrite <- ln_mult by lra. f_equal. field. lra. }
      unfold f in *. rewrite Rplus_0_l in F0. rewrite EL.
      assert (a * (x / a - (x / a) ^ 2 / 2) <= a * ln (1 + x / a)) by (apply Rmult_le_compat_l; lra).
      replace (a * (x / a - (x / a) ^ 2 / 2)) with (x - x ^ 2 / (2 * a)) in H1 by (field; lra). lra. }
    apply Rle_trans with (2 * (x ^ 2 / (2 * a))); [lra|].
    replace (2 * (x ^ 2 / (2 * a))) with (x * (x / a)) by (field; lra).
    replace (h * (x / (x + a))) with (x * (h / (x + a))) by (field; lra).
    apply Rmult_le_compat_l; auto.
    apply Rmult_le_reg_r with (a * (x + a)); [nra|].
    replace (x / a * (a * (x + a))) with (x * (x + a)) by (field; lra).
    replace (h / (x + a) * (a * (x + a))) with (h * a) by (field; lra). nra.
Qed.

(** ** The bounded root finder on this residual *)
Lemma move_cases s dx' x' : bnewton_move s = Some (dx', x') ->
  (dx' = 0.5 * (b_ub s - b_lb s) /\ x' = b_lb s + dx') \/
  (b_dfx s <> 0 /\ dx' = b_fx s / b_dfx s /\ x' = b_x s - dx' /\
   ((b_x s - b_ub s) * b_dfx s - b_fx s) * ((b_x s - b_lb s) * b_dfx s - b_fx s) < 0 /\ Rabs dx' <= Rabs (b_dx s) / 2).
Proof.
  intros E. pose proof (move_dx _ _ _ E) as M. revert E M.
  destruct s as [x lb ub dx fx dfx]. unfold bnewton_move; simpl.
  destruct (Rleb_spec 0 (((x - ub) * dfx - fx) * ((x - lb) * dfx - fx))) as [H|H]; simpl.
  { intros E; inversion E; subst. auto. }
  destruct (Rltb_spec (Rabs (dx * dfx)) (Rabs (2 * fx))) as [H1|H1]; simpl.
  { intros E; inversion E; subst. auto. }
  destruct (Reqb_spec dfx 0) as [E0|E0]; [discriminate|].
  intros E M; inversion E; subst. right. repeat split; auto; try lra.
  assert (0 < Rabs dfx) by now apply Rabs_pos_lt.
  apply Rmult_le_reg_r with (Rabs dfx); auto.
  unfold Rdiv at 1. rewrite Rabs_mult, Rabs_inv, Rmult_assoc, Rinv_l by lra.
  rewrite !Rabs_mult, (Rabs_right 2) in H1 by lra. lra.
Qed.

(** Nothing below [m] is returned (up to the tolerance) when the residual is positive below [m]. *)
Lemma loop_lower atol M m n : forall s x,
  0 <= b_lb s <= M -> 0 <= b_ub s <= M -> 0 <= b_x s -> b_fx s = f (b_x s) -> b_dfx s = df (b_x s) ->
  0 < atol -> m <= b_lb s -> (forall y, 0 <= y <= M -> f y <= 0 -> m <= y) ->
  bnewton_loop f df atol n s = Root x -> m - atol < x.
Proof.
  induction n as [|n IH]; intros s x Hl Hu Hx Ef Ed Ht Hm Hs; simpl; [discriminate|].
  destruct (move_ok s) as (dx' & x' & E & B). rewrite E.
  assert (Bx : 0 <= x' <= M).
  { unfold between, Rmin, Rmax in B. destruct (Rle_dec (b_lb s) (b_ub s)); lra. }
  destruct (Rltb_spec (Rabs dx') atol) as [Hd|Hd].
  - intros R; inversion R; subst x; clear R.
    apply Rabs_def2 in Hd.
    destruct (move_cases _ _ _ E) as [[-> ->]|(D0 & -> & -> & _)]; [lra|].
    rewrite Ef, Ed in *.
    pose proof (f_tangent (b_x s) _ Hx (proj1 Bx)) as T.
    replace (f (b_x s) + df (b_x s) * (b_x s - f (b_x s) / df (b_x s) - b_x s)) with 0 in T by (field; auto).
    pose proof (Hs _ Bx T). lra.
  - apply IH; unfold bnewton_update; destruct (Rltb_spec (f x') 0); simpl; auto; try lra.
    apply Hs; lra.
Qed.

Definition consistent (s : bstate) : Prop := b_fx s = f (b_x s) /\ b_dfx s = df (b_x s).
Definition phaseA (W : R) (s : bstate) : Prop :=
  consistent s /\ 0 <= b_ub s <= b_lb s /\ b_lb s - b_ub s <= W /\ Rabs (b_dx s) <= W /\ 0 <= f (b_ub s) /\
  (b_x s = b_ub s \/ (b_x s = b_lb s /\ f (b_lb s) < 0)).
Definition phaseB (W : R) (s : bstate) : Prop :=
  consistent s /\ 0 <= b_ub s <= b_lb s /\ Rabs (b_dx s) <= W /\ 0 <= f (b_ub s) /\ b_x s = b_lb s /\ f (b_lb s) < 0 /\
  exists p, b_x s < p /\ Rabs (b_dx s) = p - b_x s /\ f p = df p * (p - b_x s).

Lemma update_consistent s dx' x' : consistent (bnewton_update f df s dx' x').
Proof. unfold bnewton_update, consistent. destruct (Rltb (f x') 0); simpl; auto. Qed.
Lemma update_neg s dx' x' : f x' < 0 -> bnewton_update f df s dx' x' = mkB x' x' (b_ub s) dx' (f x') (df x').
Proof. intros H. unfold bnewton_update. destruct (Rltb_spec (f x') 0); [auto|lra]. Qed.

Lemma phase_step W s : phaseA W s \/ phaseB W s ->
  exists dx' x', bnewton_move s = Some (dx', x') /\ Rabs dx' <= W / 2 /\
    (phaseA (W / 2) (bnewton_update f df s dx' x') \/ phaseB (W / 2) (bnewton_update f df s dx' x')).
Proof.
  intros [A|B]; destruct (move_ok s) as (dx' & x' & E & Bt); exists dx', x'; split; auto;
    pose proof (move_cases _ _ _ E) as C.
  - destruct A as ([Ef Ed] & O & Wd & Dx & Fu & X).
    assert (Bx : b_ub s <= x' <= b_lb s).
    { unfold between, Rmin, Rmax in Bt. destruct (Rle_dec (b_lb s) (b_ub s)); lra. }
    destruct C as [[-> ->]|(D0 & E1 & E2 & Pr & Hd)].
    + split; [rewrite Rabs_left1; lra|]. left.
      split; [apply update_consistent|].
      unfold bnewton_update. destruct (Rltb_spec (f (b_lb s + 0.5 * (b_ub s - b_lb s))) 0); simpl;
        repeat split; try lra; try (rewrite Rabs_left1; lra); auto.
    + split; [lra|].
      assert (Fn : b_fx s <> 0).
      { intros Z. rewrite Z in Pr. destruct X as [X|[X F]]; [rewrite X in Pr; lra|].
        rewrite Ef, X in Z. lra. }
      assert (Hx0 : 0 <= b_x s) by (destruct X as [X|[X _]]; rewrite X; lra).
      assert (Fx : f x' < 0).
      { rewrite E2, E1, Ef, Ed in *. apply newton_image; auto; lra. }
      rewrite update_neg by auto.
      destruct X as [X|[X F]].
      * left. split; [split; reflexivity|]. simpl. repeat split; try lra; auto.
        rewrite E2, X in *. apply Rabs_le_between in Hd || idtac.
        assert (Rabs dx' = - dx') by (apply Rabs_left1; lra). lra.
      * right. split; [split; reflexivity|]. simpl.
        assert (Dn : df (b_x s) < 0) by (pose proof (df_nonpos (b_x s) Hx0); rewrite Ed in D0; lra).
        assert (Fneg : f (b_x s) < 0) by (rewrite X; auto).
        assert (P : 0 < dx').
        { rewrite E1, Ef, Ed. replace (f (b_x s) / df (b_x s)) with ((- f (b_x s)) / (- df (b_x s))) by (field; lra).
          apply Rmult_lt_0_compat; [lra|apply Rinv_0_lt_compat; lra]. }
        repeat split; try lra; auto.
        exists (b_x s). split; [lra|]. split; [rewrite Rabs_right; lra|].
        rewrite E2, E1, Ef, Ed. field. lra.
  - destruct B as ([Ef Ed] & O & Dx & Fu & X & F & p & Hp & Edx & Ep).
    assert (Bx : b_ub s <= x' <= b_lb s).
    { unfold between, Rmin, Rmax in Bt. destruct (Rle_dec (b_lb s) (b_ub s)); lra. }
    assert (Hx0 : 0 <= b_x s) by lra.
    assert (F0 : 0 <= f 0) by (apply (f_sign_below (b_ub s)); lra).
    pose proof (newton_halves p (b_x s) Hx0 Hp F0 Ep) as NH.
    assert (N : b_x s <> b_ub s) by (intros Z; rewrite <- Z, X in Fu; lra).
    pose proof (f_tangent_strict (b_x s) (b_ub s) Hx0 (proj1 O) N) as T.

    assert (Fneg : f (b_x s) < 0) by (rewrite X; auto).
    pose proof (df_nonpos (b_x s) Hx0) as Dn.
    assert (Dneg : df (b_x s) < 0) by nra.
    (* the move is a Newton step *)
    assert (C2 : b_dfx s <> 0 /\ dx' = b_fx s / b_dfx s /\ x' = b_x s - dx' /\ Rabs dx' <= Rabs (b_dx s) / 2).
    { revert E. destruct s as [x lb ub dx fx dfx]; simpl in *. subst fx dfx.
      destruct (Rleb_spec 0 (((x - ub) * df x - f x) * ((x - lb) * df x - f x))) as [H|H].
      { exfalso. rewrite <- X in H. 
        assert ((x - ub) * df x - f x < 0) by nra. assert (0 < (x - x) * df x - f x) by lra. nra. }
      destruct (Rltb_spec (Rabs (dx * df x)) (Rabs (2 * f x))) as [H1|H1].
      { exfalso. rewrite Rabs_mult, Edx, (Rabs_left (df x)), (Rabs_left (2 * f x)) in H1 by lra. lra. }
      simpl. destruct (Reqb_spec (df x) 0) as [E0|E0]; [lra|].
      intros E; injection E as E1 E2; rewrite <- E2, <- E1. repeat split; auto.
      rewrite Edx. replace (f x / df x) with ((- f x) / (- df x)) by (field; lra).
      rewrite Rabs_right.
      - apply Rmult_le_reg_r with (- df x); [lra|]. unfold Rdiv at 1. rewrite Rmult_assoc, Rinv_l by lra. lra.
      - apply Rle_ge, Rmult_le_pos; [lra|apply Rlt_le, Rinv_0_lt_compat; lra]. }
    destruct C2 as (D0 & E1 & E2 & Hd).
    split; [lra|]. right.
    assert (Fx : f x' < 0).
    { rewrite E2, E1, Ef, Ed in *. apply newton_image; auto; lra. }
    rewrite update_neg by auto.
    assert (P : 0 < dx').
    { rewrite E1, Ef, Ed. replace (f (b_x s) / df (b_x s)) with ((- f (b_x s)) / (- df (b_x s))) by (field; lra).
      apply Rmult_lt_0_compat; [lra|apply Rinv_0_lt_compat; lra]. }
    split; [split; reflexivity|]. simpl.
    repeat split; try lra; auto.
    exists (b_x s). split; [lra|]. split; [rewrite Rabs_right; lra|].
    rewrite E2, E1, Ef, Ed. field. lra.
Qed.

Lemma loop_converges atol : 0 < atol -> forall n W s, (1 <= n)%nat -> W < 2 ^ n * atol ->
  phaseA W s \/ phaseB W s -> exists x, bnewton_loop f df atol n s = Root x.
Proof.
  intros Ht. induction n as [|n IH]; intros W s Hn HW HP; [lia|]. simpl.
  destruct (phase_step W s HP) as (dx' & x' & E & Hd & HP'). rewrite E.
  destruct (Rltb_spec (Rabs dx') atol) as [H|H]; [eauto|].
  destruct n as [|n].
  - exfalso. simpl in HW. lra.
  - apply (IH (W / 2)); [lia| |auto]. simpl in *. lra.
Qed.

Lemma converges atol x0 M n : 0 < atol -> 0 <= M -> (1 <= n)%nat -> M < 2 ^ n * atol -> 0 <= f 0 ->
  exists x, bounded_newton_raphson f df x0 0 M (S n) atol = Root x.
Proof.
  intros Ht [HM| <-] Hn HW F0.
  - unfold bounded_newton_raphson, bnewton_init.
    pose proof (f_decr 0 M ltac:(lra) HM) as D.
    destruct (Rltb_spec (f M) (f 0)) as [_|]; [|lra].
    assert (Ex : (if Rltb x0 M || Rltb 0 x0 then (M + 0) / 2 else x0) = M / 2).
    { destruct (Rltb_spec x0 M); destruct (Rltb_spec 0 x0); simpl; lra. }
    rewrite Ex. set (s := mkB (M / 2) M 0 (Rabs (0 - M)) (f (M / 2)) (df (M / 2))).
    assert (Eabs : Rabs (0 - M) = M) by (rewrite Rabs_left1; lra).
    destruct (move_ok s) as (dx' & x' & E & Bt).
    cbn [bnewton_loop]. rewrite E.
    destruct (Rltb_spec (Rabs dx') atol) as [H|H]; [eauto|].
    apply (loop_converges atol Ht n M); auto.
    assert (Bx : 0 <= x' <= M).
    { unfold between, Rmin, Rmax in Bt. simpl in Bt. destruct (Rle_dec M 0); lra. }
    destruct (move_cases _ _ _ E) as [[E1 E2]|(D0 & E1 & E2 & Pr & Hd)]; simpl in *.
    + left. split; [apply update_consistent|]. subst dx' x'.
      unfold bnewton_update. destruct (Rltb_spec (f (M + 0.5 * (0 - M))) 0); simpl;
        repeat split; try lra; try (rewrite Rabs_left1; lra); auto.
    + rewrite Rabs_Rabsolu, Eabs in Hd.
      assert (Fn : f (M / 2) <> 0).
      { intros Z. apply H. rewrite E1, Z. unfold Rdiv. rewrite Rmult_0_l, Rabs_R0. lra. }
      assert (Fx : f x' < 0).
      { rewrite E2, E1. apply newton_image; auto; lra. }
      rewrite update_neg by auto. simpl.
      destruct (Rle_or_lt 0 (f (M / 2))) as [Fp|Fneg].
      * left. split; [split; reflexivity|]. simpl. repeat split; try lra; auto.
      * right. split; [split; reflexivity|]. simpl.
        assert (Dn : df (M / 2) < 0) by (apply df_neg; lra).
        assert (P : 0 < dx').
        { rewrite E1. replace (f (M / 2) / df (M / 2)) with ((- f (M / 2)) / (- df (M / 2))) by (field; lra).
          apply Rmult_lt_0_compat; [lra|apply Rinv_0_lt_compat; lra]. }
        repeat split; try lra; auto.
        exists (M / 2). split; [lra|]. split; [rewrite Rabs_right; lra|].
        rewrite E2, E1. field. lra.
  - unfold bounded_newton_raphson. cbn [bnewton_loop].
    destruct (move_ok (bnewton_init f df x0 0 0)) as (dx' & x' & E & Bt). rewrite E.
    assert (I : b_lb (bnewton_init f df x0 0 0) = 0 /\ b_ub (bnewton_init f df x0 0 0) = 0 /\
                b_dx (bnewton_init f df x0 0 0) = 0).
    { unfold bnewton_init. destruct (Rltb (f 0) (f 0)); simpl;
        repeat split; auto; rewrite Rminus_0_r; apply Rabs_R0. }
    destruct I as (I1 & I2 & I3).
    destruct (move_dx _ _ _ E) as [[D _]|D]; rewrite ?I1, ?I2, ?I3, ?Rminus_0_r, Rabs_R0 in D;
      (destruct (Rltb_spec (Rabs dx') atol) as [H|H]; [eauto|lra]).
Qed.

Lemma lower_bound atol x0 M m n x : 0 < atol -> 0 <= M -> m <= M ->
  (forall y, 0 <= y <= M -> f y <= 0 -> m <= y) ->
  bounded_newton_raphson f df x0 0 M n atol = Root x -> m - atol < x.
Proof.
  intros Ht HM Hm Hs E. unfold bounded_newton_raphson in E.
  destruct HM as [HM| <-].
  - unfold bnewton_init in E. pose proof (f_decr 0 M ltac:(lra) HM) as D.
    destruct (Rltb_spec (f M) (f 0)) as [_|]; [|lra].
    assert (Ex : (if Rltb x0 M || Rltb 0 x0 then (M + 0) / 2 else x0) = M / 2).
    { destruct (Rltb_spec x0 M); destruct (Rltb_spec 0 x0); simpl; lra. }
    rewrite Ex in E. eapply loop_lower with (M := M); eauto; simpl; auto; lra.
  - pose proof (bnewton_bracket f df x0 0 0 n atol) as B. unfold bounded_newton_raphson in B. rewrite E in B.
    unfold between in B. rewrite Rmin_left, Rmax_left in B; lra.
Qed.

(** The answer solves the equation up to the tolerance when a root lies in the bracket. *)
Lemma solves atol x0 M n x : 0 < atol -> 0 < M -> 0 < f 0 -> f M < 0 ->
  bounded_newton_raphson f df x0 0 M n atol = Root x -> Rabs (f x) < atol.
Proof.
  intros Ht HM F0 FM E.
  pose proof (bnewton_bracket f df x0 0 M n atol) as B. rewrite E in B.
  assert (B' : forall y, between 0 M y -> 0 <= y) by (intros y; unfold between; rewrite Rmin_left, Rmax_right; lra).
  destruct (bnewton_accuracy f df x0 0 M n atol x) as [(z & Bz & Ez & D)|(p & Bp & D0 & Ex & D)]; auto.
  - intros y By. apply f_cont; auto.
  - nra.
  - pose proof (f_lip x z (B' _ B) (B' _ Bz)). rewrite Ez, Rminus_0_r in H. lra.
  - rewrite Ex. eapply Rle_lt_trans; [apply newton_residual; auto; rewrite <- Ex; auto|].
    unfold Rdiv. rewrite Rabs_mult, Rabs_inv.
    assert (0 < Rabs (df p)) by now apply Rabs_pos_lt.
    apply Rmult_lt_reg_r with (Rabs (df p)); auto. rewrite Rmult_assoc, Rinv_l; lra.
Qed.
End Residual.
