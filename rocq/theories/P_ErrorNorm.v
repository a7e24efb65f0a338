(** C62: what the error of an adaptive step says about the heads. *)
From Coq Require Import ZArith.
From Verif Require Import Prelude M_Coeffs M_Simulation S_Simulation P_Simulation.

Lemma scale_is_allowance Hc Hp j : error_scale Hc Hp j = allowance (Hc j) (Hp j).
Proof. unfold error_scale, allowance. field. Qed.

Lemma bad_false (den : arr) M : existsb (fun j => Reqb (den j) 0) (seq 0 M) = false <->
  forall j, (j < M)%nat -> den j <> 0.
Proof.
  split.
  - intros E j Hj E0. assert (X : existsb (fun j => Reqb (den j) 0) (seq 0 M) = true); [|congruence].
    apply existsb_exists. exists j. split; [apply in_seq; lia|]. rewrite E0. now destruct (Reqb_spec 0 0).
  - intros H. destruct (existsb _ _) eqn:E; auto. apply existsb_exists in E. destruct E as [j [Hj E]].
    apply in_seq in Hj. destruct (Reqb_spec (den j) 0); [|discriminate]. destruct (H j); auto. lia.
Qed.

Lemma running_max (e : nat -> R) M :
  let m := for_n M (fun j m => Rmax m (Rabs (e j))) 0 in
  0 <= m /\ (forall j, (j < M)%nat -> Rabs (e j) <= m) /\ (m = 0 \/ exists j, (j < M)%nat /\ m = Rabs (e j)).
Proof.
  cbv zeta. induction M as [|M [IH0 [IH1 IH2]]]; cbn [for_n]; [split; [lra|split; [lia|auto]]|].
  split; [eapply Rle_trans; [exact IH0|apply Rmax_l]|]. split.
  - intros j Hj. destruct (Nat.eq_dec j M) as [->|N]; [apply Rmax_r|].
    eapply Rle_trans; [apply IH1; lia | apply Rmax_l].
  - destruct (Rle_dec (for_n M (fun j m => Rmax m (Rabs (e j))) 0) (Rabs (e M))) as [L|L].
    + rewrite Rmax_right by lra. right. exists M. auto.
    + rewrite Rmax_left by lra. destruct IH2 as [|[j [Hj Ej]]]; [auto|right; exists j; auto].
Qed.

Lemma abs_quotient a d r : d <> 0 -> (Rabs (a / d) <= r <-> Rabs a <= r * Rabs d).
Proof.
  intros Hd. pose proof (Rabs_pos_lt d Hd) as P. unfold Rdiv. rewrite Rabs_mult, Rabs_inv. split; intros H.
  - apply (Rmult_le_compat_r (Rabs d)) in H; [|lra]. rewrite Rmult_assoc, Rinv_l in H by lra. lra.
  - apply (Rmult_le_reg_r (Rabs d)); [lra|]. rewrite Rmult_assoc, Rinv_l by lra. lra.
Qed.

Section Metric.
Variables (M : nat) (raw cur prev : arr).
Local Notation allow j := (allowance (cur j) (prev j)).

(** Maximum norm: at most [tol] exactly when every head difference is within [tol] allowances. *)
Lemma max_norm_value r : normed_error (-1) M raw cur prev = Some (Err r) ->
  eps <= r /\ (forall tol, eps <= tol -> (r <= tol <-> forall j, (j < M)%nat -> Rabs (raw j) <= tol * Rabs (allow j))).
Proof.
  unfold normed_error. destruct (Nat.eqb_spec M 0) as [E0|N0]; [discriminate|].
  cbn [Z.eqb Z.opp].
  destruct (existsb _ (seq 0 M)) eqn:B; [discriminate|]. rewrite bad_false in B. intros E; injection E as <-.
  pose proof (running_max (fun j => raw j / error_scale cur prev j) M) as [G0 [G1 G2]].
  set (m := for_n M _ 0) in *. rewrite (Rabs_right m) by lra. split; [apply Rmax_r|].
  intros tol Ht. split.
  - intros H j Hj. rewrite <- scale_is_allowance. apply abs_quotient; [auto|].
    pose proof (Rmax_l m eps). specialize (G1 j Hj). lra.
  - intros H. apply Rmax_lub; [|exact Ht]. destruct G2 as [->|[j [Hj ->]]]; [pose proof eps_pos; lra|].
    apply abs_quotient; [auto|]. rewrite scale_is_allowance. auto.
Qed.

(** RMS norm: at most [tol] exactly when the mean square of the differences in allowances is at most tol^2. *)
Lemma rms_norm_value r : normed_error 2 M raw cur prev = Some (Err r) ->
  eps <= r /\ (forall tol, eps <= tol ->
    (r <= tol <-> sum_n (fun j => (raw j / allow j) ^ 2) M <= INR M * tol ^ 2)).
Proof.
  unfold normed_error. destruct (Nat.eqb_spec M 0) as [E0|N0]; [discriminate|].
  cbn [Z.eqb Pos.eqb].
  destruct (existsb _ (seq 0 M)) eqn:B; [discriminate|]. intros E; injection E as <-.
  rewrite (sum_n_ext _ (fun j => (raw j / allow j) ^ 2))
    by (intros j _; rewrite scale_is_allowance; reflexivity).
  set (q := sum_n _ M). assert (Q : 0 <= q) by (apply sum_n_nonneg; intros; apply pow2_ge_0).
  assert (HM : 0 < INR M) by (apply lt_0_INR; lia).
  assert (QM : 0 <= q / INR M) by (apply Rmult_le_pos; [exact Q | left; apply Rinv_0_lt_compat, HM]).
  assert (K : q = INR M * (q / INR M)) by (field; lra).
  rewrite (Rabs_right (sqrt _)) by (apply Rle_ge, sqrt_pos). split; [apply Rmax_r|].
  intros tol Ht. pose proof eps_pos as Ep. pose proof (sqrt_pos (q / INR M)) as SP.
  pose proof (sqrt_sqrt (q / INR M) QM) as SS. split.
  - intros H. pose proof (Rmax_l (sqrt (q / INR M)) eps). rewrite K. apply Rmult_le_compat_l; [lra|].
    rewrite <- SS. simpl. rewrite Rmult_1_r. apply Rmult_le_compat; lra.
  - intros H. apply Rmax_lub; [|exact Ht]. rewrite <- (sqrt_pow2 tol) by lra. apply sqrt_le_1_alt.
    apply (Rmult_le_reg_l (INR M)); [exact HM|]. lra.
Qed.

(** The norms 2 and -1 give a finite error whenever no allowance is zero, and only then. *)
Lemma finite_norm norm : (0 < M)%nat -> norm = 2%Z \/ norm = (-1)%Z ->
  ((forall j, (j < M)%nat -> allow j <> 0) <-> exists r, normed_error norm M raw cur prev = Some (Err r)).
Proof.
  intros HM Hn.
  assert (B : (forall j, (j < M)%nat -> allow j <> 0) <->
    existsb (fun j => Reqb (error_scale cur prev j) 0) (seq 0 M) = false).
  { rewrite bad_false. split; intros H j Hj; specialize (H j Hj); rewrite scale_is_allowance in *; exact H. }
  rewrite B. clear B. unfold normed_error. destruct (Nat.eqb_spec M 0); [lia|].
  destruct Hn as [-> | ->]; cbn [Z.eqb Pos.eqb Z.opp]; destruct (existsb _ (seq 0 M));
    (split; [intros E; try discriminate; eexists; reflexivity | intros [r E]; [discriminate || reflexivity]]).
Qed.
End Metric.

Section Attempt.
Variables (B V I : Type) (save : B -> V) (load : V -> B -> option B)
  (setup : bool -> I -> R -> V -> B -> option B) (solve : I -> R -> V -> B -> option B)
  (heads : B -> arr) (saved_heads : V -> arr) (M : nat).
Local Notation model_step := (model_step B V I save setup solve heads saved_heads M).
Local Notation fine_steps := (fine_steps B V I save setup solve heads saved_heads M).
Local Notation load_state := (load_state B V load).
Local Notation attempt := (attempt B V I save load setup solve heads saved_heads M).

(** [m'] is where [sub] steps of dt/sub lead from the start of the step, and [coarse] are the heads one step of dt
    leads to. *)
Definition two_ways (c : config I) (dt : R) (sub : nat) (m m' : model B V) (coarse : arr) : Prop :=
  exists m1 m2, model_step c dt m = Some m1 /\ coarse = heads (m_body m1) /\
    load_state (m_saved m1) m1 = Some m2 /\ fine_steps c sub (dt / INR sub) m2 = Some m'.

Lemma attempt_error c dt sub norm m m' init e : (1 < sub)%nat -> attempt c dt sub norm m = Some (m', init, e) ->
  exists coarse, two_ways c dt sub m m' coarse /\
    normed_error norm M (fun j => coarse j - heads (m_body m') j) (heads (m_body m')) (saved_heads (snd (m_saved m')))
    = Some e.
Proof.
  intros Hs. unfold M_Simulation.attempt. destruct (model_step c dt m) as [m1|] eqn:E1; [|discriminate]. cbn [bind].
  destruct (Nat.ltb_spec 1 sub) as [_|]; [|lia].
  destruct (load_state (m_saved m1) m1) as [m2|] eqn:E2; [|discriminate]. cbn [bind].
  destruct (fine_steps c sub (dt / INR sub) m2) as [m3|] eqn:E3; [|discriminate]. cbn [bind].
  match goal with |- bind ?x _ = _ -> _ => destruct x as [e'|] eqn:E4; [|discriminate] end. cbn [bind].
  intros E; injection E as <- <- <-. exists (heads (m_body m1)). split; [|exact E4].
  exists m1, m2. auto.
Qed.

Local Notation allow m' j := (allowance (heads (m_body m') j) (saved_heads (snd (m_saved m')) j)).

(** With the maximum norm, an error is at most [tol] exactly when at every junction the head of the coarse step and
    the head of the fine steps differ by at most [tol] allowances. *)
Theorem C62_max_norm_bounds_every_head c dt sub m m' init r :
  (1 < sub)%nat -> attempt c dt sub (-1) m = Some (m', init, Err r) ->
  exists coarse, two_ways c dt sub m m' coarse /\
    forall tol, eps <= tol ->
      (r <= tol <-> forall j, (j < M)%nat -> Rabs (coarse j - heads (m_body m') j) <= tol * Rabs (allow m' j)).
Proof.
  intros Hs E. destruct (attempt_error _ _ _ _ _ _ _ _ Hs E) as [co [T N]]. exists co. split; [exact T|].
  exact (proj2 (max_norm_value _ _ _ _ _ N)).
Qed.

(** With the default RMS norm the same holds of the mean square, so no junction differs by more than sqrt(M) r
    allowances. *)
Theorem C62_rms_norm_bounds_mean_square c dt sub m m' init r :
  (1 < sub)%nat -> attempt c dt sub 2 m = Some (m', init, Err r) ->
  exists coarse, two_ways c dt sub m m' coarse /\
    (forall tol, eps <= tol ->
      (r <= tol <-> sum_n (fun j => ((coarse j - heads (m_body m') j) / allow m' j) ^ 2) M <= INR M * tol ^ 2)) /\
    (forall j, (j < M)%nat -> Rabs (coarse j - heads (m_body m') j) <= sqrt (INR M) * r * Rabs (allow m' j)).
Proof.
  intros Hs E. destruct (attempt_error _ _ _ _ _ _ _ _ Hs E) as [co [T N]]. exists co. split; [exact T|].
  destruct (rms_norm_value _ _ _ _ _ N) as [R0 R1]. split; [exact R1|].
  intros j Hj. assert (HM : (0 < M)%nat) by lia.
  assert (A : forall i, (i < M)%nat -> allow m' i <> 0).
  { apply (finite_norm M (fun j => co j - heads (m_body m') j) _ _ 2); eauto. }
  apply abs_quotient; [auto|]. pose proof eps_pos as Ep.
  set (f := fun j => ((co j - heads (m_body m') j) / allow m' j) ^ 2) in *.
  assert (S1 : sum_n f M <= INR M * r ^ 2) by (apply (R1 r); lra).
  assert (S2 : f j <= sum_n f M).
  { rewrite (sum_n_split f M j Hj). assert (0 <= sum_n (fun i => if Nat.eqb i j then 0 else f i) M); [|lra].
    apply sum_n_nonneg. intros i _. destruct (Nat.eqb i j); [lra | apply pow2_ge_0]. }
  set (q := (co j - heads (m_body m') j) / allow m' j) in *. change (f j) with (q ^ 2) in S2.
  pose proof (pos_INR M) as PM. pose proof (sqrt_pos (INR M)) as SM. pose proof (sqrt_sqrt (INR M) PM) as SS.
  apply Rsqr_incr_0; [|apply Rabs_pos|apply Rmult_le_pos; lra].
  rewrite <- Rsqr_abs. unfold Rsqr.
  replace (sqrt (INR M) * r * (sqrt (INR M) * r)) with (sqrt (INR M) * sqrt (INR M) * r ^ 2) by ring.
  rewrite SS. simpl in S2. rewrite Rmult_1_r in S2. lra.
Qed.

(** If no head is below the datum the error of either norm is finite. *)
Theorem C62_error_finite_above_datum c dt sub norm m m' init e :
  (1 < sub)%nat -> (0 < M)%nat -> norm = 2%Z \/ norm = (-1)%Z ->
  attempt c dt sub norm m = Some (m', init, e) -> (forall j, (j < M)%nat -> 0 <= heads (m_body m') j) ->
  exists r, e = Err r /\ eps <= r.
Proof.
  intros Hs HM Hn E Hh. destruct (attempt_error _ _ _ _ _ _ _ _ Hs E) as [co [T N]].
  destruct (proj1 (finite_norm M (fun j => co j - heads (m_body m') j) (heads (m_body m')) (saved_heads (snd (m_saved m'))) norm HM Hn))
    as [r Er].
  - intros j Hj. specialize (Hh j Hj). unfold allowance.
    pose proof (Rmax_l (heads (m_body m') j) (saved_heads (snd (m_saved m')) j)).
    assert (0 <= Rmax (heads (m_body m') j) (saved_heads (snd (m_saved m')) j) / 10 ^ 3)
      by (apply Rmult_le_pos; [lra|left; apply Rinv_0_lt_compat; lra]).
    assert (0 < 1 / 10 ^ 6) by lra. lra.
  - rewrite Er in N. injection N as <-. exists r. split; [reflexivity|].
    destruct Hn as [-> | ->]; [apply (rms_norm_value _ _ _ _ _ Er) | apply (max_norm_value _ _ _ _ _ Er)].
Qed.

(** Norm 0 counts positive differences only: when the coarse step is below the fine steps everywhere, by whatever
    amount, the error is the smallest possible one. *)
Theorem C62_count_norm_refuted c dt sub m m' init e :
  (1 < sub)%nat -> (0 < M)%nat -> attempt c dt sub 0 m = Some (m', init, e) ->
  (forall j, (j < M)%nat -> 0 < allow m' j) ->
  forall coarse, two_ways c dt sub m m' coarse -> (forall j, (j < M)%nat -> coarse j <= heads (m_body m') j) ->
  e = Err eps.
Proof.
  intros Hs HM E HA co (a & b & A1 & A2 & A3 & A4) Hlow.
  destruct (attempt_error _ _ _ _ _ _ _ _ Hs E) as [co' [(a' & b' & B1 & B2 & _) N]].
  assert (Eco : co' = co) by congruence. rewrite Eco in N. clear B1 B2 Eco.
  unfold normed_error in N. destruct (Nat.eqb_spec M 0) as [|_]; [lia|]. cbn [Z.eqb] in N. injection N as <-.
  rewrite sum_n_0.
  - unfold Rdiv. rewrite Rmult_0_l, Rabs_R0, Rmax_right by (left; apply eps_pos). reflexivity.
  - intros j Hj. rewrite scale_is_allowance. specialize (HA j Hj). specialize (Hlow j Hj).
    destruct (Reqb_spec (allow m' j) 0) as [Z|_]; [lra|].
    destruct (Rltb_spec 0 ((co j - heads (m_body m') j) / allow m' j)) as [P|_]; [|reflexivity].
    assert (X : (heads (m_body m') j - co j) / allow m' j >= 0).
    { apply Rle_ge, Rmult_le_pos; [lra | left; apply Rinv_0_lt_compat, HA]. }
    unfold Rdiv in *. lra.
Qed.
End Attempt.

(** ** Two junctions, used for the witness and the counterexample: every step adds dt^2 to the body, the first head is
    the body and the second 3/4 minus the body. *)
Definition seesaw (b : R) : arr := fun j => match j with O => b | _ => 3 / 4 - b end.
Definition seesaw_attempt := attempt R R unit (fun b => b) (fun v _ => Some v) (fun _ _ _ _ b => Some b) toy_solve seesaw seesaw 2.

(** The coarse step leads to 1 and -1/4, the fine steps to 1/2 and 1/4. *)
Lemma seesaw_runs norm : seesaw_attempt (toy_config 0) 1 2 norm (mkModel 0 0 0 (0, 0)) =
  bind (normed_error norm 2 (fun j => seesaw 1 j - seesaw (1 / 2) j) (seesaw (1 / 2)) (seesaw (1 / 4)))
    (fun e => Some (mkModel 1 3 (1 / 2) (1 / 2, 1 / 4), (0, 0), e)).
Proof.
  assert (I2 : INR 2 = 2) by (simpl; ring).
  unfold seesaw_attempt, attempt, model_step, step, setup_step', solve_step', save_state, toy_solve, fine_steps, load_state.
  cbn [toy_config c_inputs c_num_iter c_head_tol bind m_t m_ic m_body m_saved fst snd Nat.sub Nat.ltb Nat.leb for_opt].
  unfold model_step, step, setup_step', solve_step', save_state.
  cbn [bind m_t m_ic m_body m_saved fst snd Nat.sub Nat.ltb Nat.leb for_opt toy_config c_inputs c_num_iter c_head_tol].
  rewrite I2.
  replace (0 + (1 / 2) ^ 2 + (1 / 2) ^ 2) with (1 / 2) by field. replace (0 + (1 / 2) ^ 2) with (1 / 4) by field.
  replace (0 + 1 ^ 2) with 1 by ring. replace (0 + 1 / 2 + 1 / 2) with 1 by field. replace (0 + 1 / 2) with (1 / 2) by field.
  reflexivity.
Qed.

(** Norm 1 adds the signed differences: here both heads differ by half a metre, with opposite signs, and the error is
    the smallest possible one. *)
Theorem C62_mean_norm_refuted :
  seesaw_attempt (toy_config 0) 1 2 1 (mkModel 0 0 0 (0, 0)) =
    Some (mkModel 1 3 (1 / 2) (1 / 2, 1 / 4), (0, 0), Err eps) /\
  exists coarse, two_ways R R unit (fun b => b) (fun v _ => Some v) (fun _ _ _ _ b => Some b) toy_solve seesaw seesaw 2
      (toy_config 0) 1 2 (mkModel 0 0 0 (0, 0)) (mkModel 1 3 (1 / 2) (1 / 2, 1 / 4)) coarse /\
    coarse 0%nat - seesaw (1 / 2) 0%nat = 1 / 2 /\ coarse 1%nat - seesaw (1 / 2) 1%nat = - (1 / 2).
Proof.
  assert (E : seesaw_attempt (toy_config 0) 1 2 1 (mkModel 0 0 0 (0, 0)) =
    Some (mkModel 1 3 (1 / 2) (1 / 2, 1 / 4), (0, 0), Err eps)).
  { rewrite seesaw_runs. unfold normed_error. cbn [Nat.eqb Z.eqb Pos.eqb].
    assert (D : forall j, error_scale (seesaw (1 / 2)) (seesaw (1 / 4)) j = / 1000000 + / 2 * / 1000).
    { intros [|j]; unfold error_scale, seesaw; [rewrite Rmax_left by lra | rewrite Rmax_right by lra]; lra. }
    cbn [seq existsb sum_n]. rewrite !D.
    destruct (Reqb_spec (/ 1000000 + / 2 * / 1000) 0) as [X|_]; [lra|]. cbn [orb seesaw bind].
    match goal with |- context [Rabs ?x] => replace x with 0 end.
    - rewrite Rabs_R0, Rmax_right by (left; apply eps_pos). reflexivity.
    - simpl INR. field. }
  split; [exact E|].
  destruct (attempt_error _ _ _ _ _ _ _ _ _ _ _ _ _ _ _ _ _ _ (Nat.lt_succ_diag_r 1) E) as [co [T _]]. exists co. split; [exact T|].
  destruct T as (m1 & m2 & E1 & -> & _). unfold model_step, step, setup_step', solve_step', save_state, toy_solve in E1.
  cbn [bind m_t m_ic m_body m_saved fst snd Nat.sub Nat.ltb Nat.leb toy_config c_inputs c_num_iter c_head_tol] in E1.
  injection E1 as <-. cbn [m_body seesaw]. split; lra.
Qed.

(** The allowance is zero for heads one millimetre below the datum: the error is then not finite, although the coarse
    and the fine heads agree. *)
Theorem C62_below_datum_refuted M raw cur prev norm j : (j < M)%nat -> norm = 2%Z \/ norm = (-1)%Z ->
  cur j = - / 1000 -> prev j = - / 1000 -> normed_error norm M raw cur prev = Some NonFinite.
Proof.
  intros Hj Hn Ec Ep.
  assert (B : existsb (fun j => Reqb (error_scale cur prev j) 0) (seq 0 M) = true).
  { apply existsb_exists. exists j. split; [apply in_seq; lia|].
    unfold error_scale. rewrite Ec, Ep, Rmax_left by lra. destruct (Reqb_spec (/ 1000000 + - / 1000 * / 1000) 0); [reflexivity|lra]. }
  unfold normed_error. destruct (Nat.eqb_spec M 0); [lia|]. destruct Hn as [-> | ->]; cbn [Z.eqb Pos.eqb Z.opp]; rewrite B; reflexivity.
Qed.

(** Hypotheses met: the two-junction model with the maximum norm. *)
Example C62_example : exists r, seesaw_attempt (toy_config 0) 1 2 (-1) (mkModel 0 0 0 (0, 0)) =
  Some (mkModel 1 3 (1 / 2) (1 / 2, 1 / 4), (0, 0), Err r) /\ 990 < r < 1000.
Proof.
  destruct (proj1 (finite_norm 2 (fun j => seesaw 1 j - seesaw (1 / 2) j) (seesaw (1 / 2)) (seesaw (1 / 4)) (-1)
    ltac:(lia) (or_intror eq_refl))) as [r Er].
  { intros j _. unfold allowance. destruct j; cbn [seesaw]; [rewrite Rmax_left by lra | rewrite Rmax_right by lra]; lra. }
  exists r. rewrite seesaw_runs, Er. split; [reflexivity|].
  destruct (max_norm_value _ _ _ _ _ Er) as [R0 R1].
  assert (D : forall j, allowance (seesaw (1 / 2) j) (seesaw (1 / 4) j) = 501 / 10 ^ 6).
  { intros [|j]; unfold allowance; cbn [seesaw]; [rewrite Rmax_left by lra | rewrite Rmax_right by lra]; lra. }
  assert (Ep : eps <= 900). { unfold eps. lra. }
  split.
  - apply Rnot_le_lt. intros H. apply (proj1 (R1 990 ltac:(lra))) with (j := O) in H; [|lia].
    rewrite D in H. cbn [seesaw] in H. rewrite Rabs_right, Rabs_right in H by lra. lra.
  - apply Rle_lt_trans with 999; [|lra]. apply (R1 999 ltac:(lra)). intros j Hj. rewrite D.
    destruct j; cbn [seesaw]; rewrite (Rabs_right (501 / _)) by lra; [rewrite Rabs_right by lra; lra | rewrite Rabs_left by lra; lra].
Qed.
