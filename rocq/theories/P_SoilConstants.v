(** Property C75: constants of the recovery of soil moisture. *)
From Verif Require Import Prelude M_Coeffs M_Numerics M_Infiltration S_Infiltration.

(** Conductivity in inches per hour ([Ks] is in metres per second; an inch is 0.0254 m). *)
Definition inches_per_hour (K : R) : R := K / 0.0254 * 3600.
(** Depth of the upper soil zone in metres, rate of recovery per second and time without rain, in seconds, after which a
    new storm begins: 4 sqrt(K) inches, sqrt(K)/75 per hour, 4.5/sqrt(K) hours, with K in inches per hour. *)
Definition upper_zone (K : R) : R := 4 * sqrt (inches_per_hour K) * 0.0254.
Definition recovery_rate (K : R) : R := sqrt (inches_per_hour K) / 75 / 3600.
Definition recovery_time (K : R) : R := 4.5 / sqrt (inches_per_hour K) * 3600.

Lemma rootK_factor s : 0 < Ks s -> rootK s = sqrt (39.97 * 0.0254) * sqrt (inches_per_hour (Ks s)).
Proof.
  intros H. unfold rootK, inches_per_hour. rewrite <- sqrt_mult; [f_equal; lra|lra|lra].
Qed.
Lemma factor_range : 1.007 < sqrt (39.97 * 0.0254) < 1.008.
Proof.
  assert (S : sqrt (39.97 * 0.0254) * sqrt (39.97 * 0.0254) = 39.97 * 0.0254) by (apply sqrt_sqrt; lra).
  assert (P : 0 <= sqrt (39.97 * 0.0254)) by apply sqrt_pos. split.
  - destruct (Rlt_or_le 1.007 (sqrt (39.97 * 0.0254))); auto. nra.
  - destruct (Rlt_or_le (sqrt (39.97 * 0.0254)) 1.008); auto. nra.
Qed.
Lemma root_pos s : 0 < Ks s -> 0 < sqrt (inches_per_hour (Ks s)).
Proof. intros H. apply sqrt_lt_R0. unfold inches_per_hour, Rdiv. nra. Qed.

(** C75: every soil's three constants are within one percent of the published ones. *)
Theorem C75_constants_within_one_percent : forall s, 0 < Ks s ->
  Rabs (Lu s - upper_zone (Ks s)) <= 1 / 100 * upper_zone (Ks s) /\
  Rabs (kr s - recovery_rate (Ks s)) <= 1 / 100 * recovery_rate (Ks s) /\
  Rabs (Tr s - recovery_time (Ks s)) <= 1 / 100 * recovery_time (Ks s).
Proof.
  intros s H. pose proof factor_range as F. pose proof (root_pos s H) as P. set (f := sqrt (39.97 * 0.0254)) in *.
  unfold Lu, kr, Tr, upper_zone, recovery_rate, recovery_time. rewrite (rootK_factor s H). fold f. set (r := sqrt (inches_per_hour (Ks s))) in *.
  assert (I : 0.99 < / f <= 1).
  { split; [|rewrite <- Rinv_1; apply Rinv_le_contravar; lra]. apply (Rmult_lt_reg_r f); [lra|]. rewrite Rinv_l by lra. lra. }
  assert (Q : 0 < / r) by now apply Rinv_0_lt_compat.
  split; [|split].
  - replace (4 * (f * r) * 0.0254 - 4 * r * 0.0254) with ((f - 1) * (4 * r * 0.0254)) by ring. rewrite Rabs_right by (apply Rle_ge; nra).
    apply Rmult_le_compat_r; nra.
  - replace (f * r / 75 * (1 / 3600) - r / 75 / 3600) with ((f - 1) * (r / 75 / 3600)) by field. rewrite Rabs_right by (apply Rle_ge; unfold Rdiv; nra).
    apply Rmult_le_compat_r; unfold Rdiv; nra.
  - replace (4.5 / (f * r) * 3600 - 4.5 / r * 3600) with (- ((1 - / f) * (4.5 / r * 3600))) by (field; lra).
    rewrite Rabs_Ropp, Rabs_right by (apply Rle_ge; unfold Rdiv; nra). apply Rmult_le_compat_r; unfold Rdiv; nra.
Qed.

(** C75: whatever the soil, what recovers during the recovery time is the same share of the full deficit, 6 percent. *)
Theorem C75_share_recovered : forall s, 0 < Ks s -> kr s * Tr s = 6 / 100.
Proof.
  intros s H. unfold kr, Tr. assert (0 < rootK s) by (rewrite (rootK_factor s H); pose proof factor_range; pose proof (root_pos s H); nra). replace 4.5 with (9 / 2) by lra. field. lra.
Qed.

(** C75: the better a soil conducts, the deeper its upper zone, the faster its recovery and the shorter its recovery time. *)
Theorem C75_constants_order_soils : forall s s', 0 < Ks s < Ks s' -> Lu s < Lu s' /\ kr s < kr s' /\ 0 < Tr s' < Tr s.
Proof.
  intros s s' H.
  assert (R : 0 < rootK s < rootK s').
  { unfold rootK. split; [apply sqrt_lt_R0; nra|apply sqrt_lt_1; nra]. }
  assert (I : 0 < / rootK s' < / rootK s).
  { split; [apply Rinv_0_lt_compat; lra|apply Rinv_lt_contravar; nra]. }
  unfold Lu, kr, Tr, Rdiv. repeat split; nra.
Qed.

(** C75, refuted as stated: the code converts metres to inches with 39.97 instead of 39.37 (= 1 / 0.0254), so that for no
    soil any of the three constants is the published one. *)
Theorem C75_inches_refuted : forall s, 0 < Ks s ->
  upper_zone (Ks s) < Lu s /\ recovery_rate (Ks s) < kr s /\ Tr s < recovery_time (Ks s).
Proof.
  intros s H. pose proof factor_range as F. pose proof (root_pos s H) as P. set (f := sqrt (39.97 * 0.0254)) in *.
  unfold Lu, kr, Tr, upper_zone, recovery_rate, recovery_time. rewrite (rootK_factor s H). fold f. set (r := sqrt (inches_per_hour (Ks s))) in *.
  split; [nra|]. split; [unfold Rdiv; nra|].
  assert (/ f < 1) by (rewrite <- Rinv_1; apply Rinv_lt_contravar; lra). assert (0 < / r) by now apply Rinv_0_lt_compat.
  unfold Rdiv. rewrite Rinv_mult. nra.
Qed.

(** A sandy loam: 1e-5 m/s is 1.417 inches per hour; the recovery time is between three and four and a half hours. *)
Example C75_example : let s := {| psi_f := 1 / 10; Ks := 1 / 100000; theta_s := 2 / 5; theta_i := 1 / 5; A_s := 1 |} in
  0 < Ks s /\ 1.41 < inches_per_hour (Ks s) < 1.42 /\ 3 * 3600 < Tr s < 4.5 * 3600.
Proof.
  cbv zeta. unfold Tr, rootK, inches_per_hour. cbn [Ks]. set (x := 1 / 100000 * 39.97 * 3600).
  assert (S : sqrt x * sqrt x = x) by (apply sqrt_sqrt; unfold x; lra). assert (P : 0 <= sqrt x) by apply sqrt_pos.
  assert (R : 1 < sqrt x < 1.5).
  { unfold x in *. split; [destruct (Rlt_or_le 1 (sqrt (1 / 100000 * 39.97 * 3600))); auto; nra|
      destruct (Rlt_or_le (sqrt (1 / 100000 * 39.97 * 3600)) 1.5); auto; nra]. }
  assert (I : / 1.5 < / sqrt x < 1).
  { split; [apply Rinv_lt_contravar; nra|]. rewrite <- Rinv_1. apply Rinv_lt_contravar; lra. }
  split; [lra|]. split; [lra|]. unfold Rdiv. lra.
Qed.
