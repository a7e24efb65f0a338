(** Newton's iteration for the Green-Ampt equation without bounds. *)
From Verif Require Import Prelude M_Coeffs M_Numerics S_Numerics L_Newton L_Geometry M_Infiltration L_Infiltration M_InfiltrationPy.


Lemma compiled_step : forall s dt i x, gstep_with run_green_ampt_newton s dt i x = gstep s dt i x.
Proof. reflexivity. Qed.

Section Newton.
Variables (a c : R).
Hypothesis (Ha : 0 < a).
Let f (y : R) : R := c + a * ln (y + a) - y.
Let df (y : R) : R := a / (a + y) - 1.

Lemma step_above r p : 0 <= r -> 0 < p -> f r = 0 -> r <= p - f p / df p.
Proof.
  intros Hr Hp F0. pose proof (df_neg a Ha p Hp) as D. change (df p < 0) in D.
  pose proof (f_tangent a c Ha p r ltac:(lra) Hr) as T. change (f r <= f p + df p * (r - p)) in T.
  rewrite F0 in T. apply (Rmult_le_reg_l (- df p)); [lra|].
  replace (- df p * (p - f p / df p)) with (f p - df p * p) by (field; lra). lra.
Qed.
Lemma error_halves r p : 0 <= r -> r <= p -> 0 < p -> f r = 0 -> p - f p / df p - r <= (p - r) / 2.
Proof.
  intros Hr Hp P0 F0.
  pose proof (ln_trapezoid (r + a) (p + a) ltac:(lra) ltac:(lra)) as T.
  set (L := ln (p + a) - ln (r + a)) in *.
  assert (Fp : f p = a * L - (p - r)).
  { unfold L. unfold f in *. lra. }
  assert (E : p - f p / df p - r = a * ((p + a) * L - (p - r)) / p).
  { rewrite Fp. unfold df. field. split; lra. }
  rewrite E. apply (Rmult_le_reg_r p); auto.
  unfold Rdiv at 1. rewrite Rmult_assoc, Rinv_l, Rmult_1_r by lra.
  assert (B : (p + a) * L - (p - r) <= (p - r) * (p - r) / (2 * (r + a))).
  { apply Rle_trans with ((p + a) * ((p + a - (r + a)) * (/ (r + a) + / (p + a)) / 2) - (p - r)).
    - apply Rplus_le_compat_r, Rmult_le_compat_l; lra.
    - right. field. lra. }
  apply Rle_trans with (a * ((p - r) * (p - r) / (2 * (r + a)))); [apply Rmult_le_compat_l; lra|].
  apply Rle_trans with ((r + a) * ((p - r) * (p - r) / (2 * (r + a)))).
  - apply Rmult_le_compat_r; [|lra]. apply Rmult_le_pos; [nra|]. apply Rlt_le, Rinv_0_lt_compat. lra.
  - replace ((r + a) * ((p - r) * (p - r) / (2 * (r + a)))) with ((p - r) / 2 * (p - r)) by (field; lra).
    apply Rmult_le_compat_l; lra.
Qed.
Lemma root_exists m : 0 < m -> 0 <= f m -> exists r, m <= r /\ f r = 0.
Proof.
  intros Hm F0. pose proof (df_neg a Ha m Hm) as D. change (df m < 0) in D.
  set (M := m + (f m + 1) / - df m).
  assert (P : 0 < (f m + 1) / - df m) by (apply Rmult_lt_0_compat; [lra|apply Rinv_0_lt_compat; lra]).
  assert (HM : f M < 0).
  { pose proof (f_tangent a c Ha m M ltac:(lra) ltac:(unfold M; lra)) as T. change (f M <= f m + df m * (M - m)) in T.
    replace (df m * (M - m)) with (- (f m + 1)) in T by (unfold M; field; lra). lra. }
  destruct (IVT_between f M m) as (z & B & Z).
  - intros y B. apply (f_cont a c Ha). unfold between in B. rewrite Rmin_right in B by (unfold M; lra). lra.
  - exact HM.
  - exact F0.
  - exists z. unfold between in B. rewrite Rmin_right in B by (unfold M; lra). split; [lra|exact Z].
Qed.
Lemma root_unique r r' : 0 <= r -> 0 <= r' -> f r = 0 -> f r' = 0 -> r = r'.
Proof.
  intros H H' E E'. destruct (Rtotal_order r r') as [L|[L|L]]; auto.
  - pose proof (f_decr a c Ha r r' H L). unfold f in *. lra.
  - pose proof (f_decr a c Ha r' r H' L). unfold f in *. lra.
Qed.

Let fo (y : R) : option R := if Rltb 0 (y + a) then Some (f y) else None.
Lemma fo_some y : 0 < y -> fo y = Some (f y).
Proof. intros H. unfold fo. destruct (Rltb_spec 0 (y + a)); auto. lra. Qed.

(** From the right of the root. *)
Lemma newton_right tol r n : 0 < tol -> 0 < r -> f r = 0 -> forall p, r <= p ->
  (forall y, scipy_newton fo df tol n p = Some y -> r <= y <= r + tol) /\
  ((1 <= n)%nat -> p - r <= 2 ^ (n - 1) * tol -> exists y, scipy_newton fo df tol n p = Some y).
Proof.
  intros Ht Hr F0. induction n as [|n IH]; intros p Hp.
  - split; [discriminate|lia].
  - cbn [scipy_newton]. rewrite fo_some by lra. cbn [bind].
    destruct (Reqb_spec (f p) 0) as [E|E].
    { assert (p = r) by (apply root_unique; lra || auto). subst p.
      split; [intros y Y; inversion Y; subst; lra|eauto]. }
    pose proof (df_neg a Ha p ltac:(lra)) as D. change (df p < 0) in D.
    destruct (Reqb_spec (df p) 0) as [E1|E1]; [lra|].
    pose proof (step_above r p ltac:(lra) ltac:(lra) F0) as A.
    pose proof (error_halves r p ltac:(lra) Hp ltac:(lra) F0) as B.
    set (q := p - f p / df p) in *.
    destruct (Rleb_spec (Rabs (q - p)) tol) as [St|St].
    { split; [|eauto]. intros y Y. inversion Y; subst y. rewrite Rabs_left1 in St by lra. lra. }
    destruct (IH q A) as [I1 I2]. split; [exact I1|].
    intros _ W. rewrite Rabs_left1 in St by lra.
    destruct n as [|n].
    + simpl in W. exfalso. lra.
    + apply I2; [lia|]. replace (S (S n) - 1)%nat with (S n) in W by lia. replace (S n - 1)%nat with n by lia.
      simpl in W. lra.
Qed.

(** From a point on the left. *)
Lemma newton_left tol r x0 n : 0 < tol -> 0 < x0 -> x0 <= r -> f r = 0 ->
  (forall y, scipy_newton fo df tol n x0 = Some y -> r <= y <= r + tol) /\
  ((2 <= n)%nat -> f x0 * (x0 + a) / x0 <= 2 ^ (n - 2) * tol -> exists y, scipy_newton fo df tol n x0 = Some y).
Proof.
  intros Ht Hx Hr F0. destruct n as [|n]; [split; [discriminate|lia]|].
  cbn [scipy_newton]. rewrite fo_some by lra. cbn [bind].
  destruct (Reqb_spec (f x0) 0) as [E|E].
  { assert (x0 = r) by (apply root_unique; lra || auto). subst x0.
    split; [intros y Y; inversion Y; subst; lra|eauto]. }
  pose proof (df_neg a Ha x0 Hx) as D. change (df x0 < 0) in D.
  destruct (Reqb_spec (df x0) 0) as [E1|E1]; [lra|].
  pose proof (step_above r x0 ltac:(lra) Hx F0) as A.
  assert (Eq : x0 - f x0 / df x0 = x0 + f x0 * (x0 + a) / x0) by (unfold df; field; split; lra).
  set (q := x0 - f x0 / df x0) in *.
  destruct (Rleb_spec (Rabs (q - x0)) tol) as [St|St].
  { split; [|eauto]. intros y Y. inversion Y; subst y. rewrite Rabs_right in St by lra. lra. }
  destruct (newton_right tol r n Ht ltac:(lra) F0 q A) as [I1 I2]. split; [exact I1|].
  intros Hn W. apply I2; [lia|]. replace (n - 1)%nat with (S n - 2)%nat by lia. lra.
Qed.
End Newton.
