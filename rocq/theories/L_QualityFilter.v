(** Facts about one call of the water-quality Kalman filter. *)
From Coq Require Import FunctionalExtensionality.
From Verif Require Import Prelude M_Coeffs M_Recurrence M_Assembly M_Step S_Superlink S_Network S_Step M_Simulation M_Kalman
  P_Kalman M_Quality M_QualityFilter L_Inverse.

(** ** Arrays *)

Lemma sup_boxed n m A : supported n m (boxed n m A).
Proof.
  intros i j H. unfold boxed. destruct (Nat.ltb_spec i n), (Nat.ltb_spec j m); cbn; auto; lia.
Qed.
Lemma vsup_vboxed n v : vsupported n (vboxed n v).
Proof. intros i H. unfold vboxed. destruct (Nat.ltb_spec i n); [lia|auto]. Qed.
Lemma sup_scaled_eye n c : supported n n (fun i j => c * eye n i j).
Proof. intros i j H. rewrite sup_eye by auto. ring. Qed.
Lemma sup_noise M s c : supported M M (process_noise M s c).
Proof. destruct c; [apply sup_boxed | apply sup_scaled_eye]. Qed.
Lemma sup_row M p : (p < M)%nat -> supported 1 M (observation_row p).
Proof.
  intros Hp i j H. unfold observation_row. destruct (Nat.eqb_spec i 0), (Nat.eqb_spec j p); cbn; auto; lia.
Qed.
Lemma sup_rate M V dt : supported M M (storage_rate M V dt).
Proof.
  intros i j H. unfold storage_rate. destruct (Nat.ltb_spec i M), (Nat.eqb_spec i j); cbn; auto; lia.
Qed.
Lemma boxed_in n m A i j : (i < n)%nat -> (j < m)%nat -> boxed n m A i j = A i j.
Proof. intros. unfold boxed. destruct (Nat.ltb_spec i n), (Nat.ltb_spec j m); try lia; auto. Qed.
Lemma vboxed_in n v i : (i < n)%nat -> vboxed n v i = v i.
Proof. intros. unfold vboxed. destruct (Nat.ltb_spec i n); [auto|lia]. Qed.
Lemma vboxed_ext n v w : (forall i, (i < n)%nat -> v i = w i) -> vboxed n v = vboxed n w.
Proof. intros H. apply functional_extensionality. intros i. unfold vboxed. destruct (Nat.ltb_spec i n); auto. Qed.

Lemma rate_vec M V dt v i : mvec M (storage_rate M V dt) v i = if Nat.ltb i M then V i / dt * v i else 0.
Proof.
  unfold mvec, storage_rate. destruct (Nat.ltb_spec i M) as [L|L].
  - rewrite (sum_n_single _ M i L); [now rewrite Nat.eqb_refl|]. intros j Hj Ne.
    destruct (Nat.eqb_spec i j); [congruence|]. cbn. ring.
  - apply sum_n_0. intros. cbn. ring.
Qed.
Lemma row_vec M p v : (p < M)%nat -> mvec M (observation_row p) v 0%nat = v p.
Proof.
  intros Hp. unfold mvec, observation_row. rewrite (sum_n_single _ M p Hp).
  - rewrite !Nat.eqb_refl. cbn [andb]. ring.
  - intros j Hj Ne. destruct (Nat.eqb_spec j p); [contradiction|]. rewrite ?andb_false_r. ring.
Qed.
Lemma row_quad M p P : (p < M)%nat -> mmul M (mmul M (observation_row p) P) (tr (observation_row p)) 0%nat 0%nat = P p p.
Proof.
  intros Hp. unfold mmul at 1, tr, observation_row. rewrite (sum_n_single _ M p Hp).
  - rewrite !Nat.eqb_refl. cbn [andb]. rewrite Rmult_1_r. unfold mmul. rewrite (sum_n_single _ M p Hp).
    + rewrite !Nat.eqb_refl. cbn [andb]. ring.
    + intros j Hj Ne. destruct (Nat.eqb_spec j p); [contradiction|]. rewrite ?andb_false_r. ring.
  - intros j Hj Ne. destruct (Nat.eqb_spec j p); [contradiction|]. rewrite ?andb_false_r. ring.
Qed.
Lemma col_row M p P i : (p < M)%nat -> mmul M P (tr (observation_row p)) i 0%nat = P i p.
Proof.
  intros Hp. unfold mmul, tr, observation_row. rewrite (sum_n_single _ M p Hp).
  - rewrite !Nat.eqb_refl. cbn [andb]. ring.
  - intros j Hj Ne. destruct (Nat.eqb_spec j p); [contradiction|]. rewrite ?andb_false_r. ring.
Qed.
Lemma row_col M p P j : (p < M)%nat -> mmul M (observation_row p) P 0%nat j = P p j.
Proof.
  intros Hp. unfold mmul, observation_row. rewrite (sum_n_single _ M p Hp).
  - rewrite !Nat.eqb_refl. cbn [andb]. ring.
  - intros l Hl Ne. destruct (Nat.eqb_spec l p); [contradiction|]. rewrite ?andb_false_r. ring.
Qed.

(** Covariances of the noise. *)
Lemma noise_symmetric M s c : symmetric (process_noise M s c).
Proof.
  destruct c; intros i j; unfold process_noise.
  - unfold boxed. destruct (Nat.ltb i M), (Nat.ltb j M); reflexivity.
  - pose proof (f_equal (fun X : mat => X j i) (eye_tr M)) as E. unfold tr in E. now rewrite E.
Qed.
Lemma noise_psd M s c : psd M (process_noise M s c).
Proof.
  intros x. unfold quad, process_noise. pose proof (pow2_ge_0 s) as S0. destruct c.
  - rewrite (sum_n_ext _ (fun i => x i * (s ^ 2 * sum_n x M))).
    + rewrite sum_n_scal_r. replace (sum_n x M * (s ^ 2 * sum_n x M)) with (s ^ 2 * (sum_n x M) ^ 2) by ring.
      apply Rmult_le_pos; [auto | apply pow2_ge_0].
    + intros i Hi. f_equal. unfold mvec. rewrite <- sum_n_scal. apply sum_n_ext. intros j Hj. now rewrite boxed_in.
  - apply sum_n_nonneg. intros i Hi. unfold mvec. rewrite (sum_n_single _ M i Hi).
    + unfold eye. destruct (Nat.ltb_spec i M); [|lia]. rewrite Nat.eqb_refl. cbn [andb].
      replace (x i * (s ^ 2 * 1 * x i)) with (s ^ 2 * x i ^ 2) by ring. apply Rmult_le_pos; [auto | apply pow2_ge_0].
    + intros j Hj Ne. unfold eye. destruct (Nat.eqb_spec i j); [congruence|]. rewrite andb_false_r. ring.
Qed.
Lemma measure_symmetric s : symmetric (measure_noise s).
Proof. intros i j. unfold measure_noise, boxed. destruct (Nat.ltb i 1), (Nat.ltb j 1); reflexivity. Qed.
Lemma measure_psd s : psd 1 (measure_noise s).
Proof.
  intros x. unfold quad, mvec, measure_noise, boxed. cbn. replace (0 + x 0%nat * (0 + s * (s * 1) * x 0%nat)) with ((s * x 0%nat) ^ 2) by ring.
  apply pow2_ge_0.
Qed.
Lemma psd_diag n P i : psd n P -> (i < n)%nat -> 0 <= P i i.
Proof.
  intros H Hi. specialize (H (fun j => if Nat.eqb j i then 1 else 0)). unfold quad in H.
  rewrite (sum_n_single _ n i Hi) in H.
  - rewrite Nat.eqb_refl in H. unfold mvec in H. rewrite (sum_n_single _ n i Hi) in H.
    + rewrite Nat.eqb_refl in H. lra.
    + intros j _ Ne. destruct (Nat.eqb_spec j i); [contradiction|]. ring.
  - intros j _ Ne. destruct (Nat.eqb_spec j i); [contradiction|]. ring.
Qed.

(** ** One call *)

Section Filter.
Variable inv : nat -> mat -> option mat.
Hypothesis inv_ok : forall n A B, inv n A = Some B -> inverse n A B.

Section Call.
Variables (M p : nat) (V : arr) (dt : R) (b prev x : arr) (P A_L Qcov : mat) (sm z : R).
Hypothesis (Hp : (p < M)%nat).
Hypothesis (Sb : vsupported M b) (SA : supported M M A_L) (SP : supported M M P) (SQ : supported M M Qcov).
Local Notation A1 := (storage_rate M V dt).
Local Notation H := (observation_row p).
Local Notation out := (KF_WQ2 inv M A1 b prev x P H A_L Qcov (measure_noise sm) z).
Local Notation twin := (kalman_semi_implicit inv M 1 M (vboxed 1 (fun _ => z)) P A_L A1 b H (eye M) Qcov (measure_noise sm)).

(** The filter equations: the prediction solves the assembled system up to the error carried over from the last call;
    the observed difference is spread by the covariances of the prediction; negative estimates become 0. *)
Lemma call_spec r : out = Some r ->
  exists (pred : arr) (P1 : mat),
    (forall j, (j < M)%nat -> sum_n (fun l => A_L j l * pred l) M = b j + V j / dt * (x j - prev j)) /\
    P1 p p + sm ^ 2 <> 0 /\
    (forall j, kf_x r j = Rmax 0 (pred j + P1 j p / (P1 p p + sm ^ 2) * (z - pred p))) /\
    vsupported M (kf_x r) /\
    exists ko, twin = Some ko /\ kf_P r = ko_P ko /\ supported M M (kf_P r) /\
      exists Ai, inverse M A_L Ai /\ kf_A r = mmul M Ai A1 /\
        P1 = madd (mmul M (mmul M (kf_A r) P) (tr (kf_A r))) Qcov /\
        forall i j, kf_P r i j = P1 i j - P1 i p / (P1 p p + sm ^ 2) * P1 p j.
Proof.
  unfold KF_WQ2. destruct (inv M A_L) as [Ai|] eqn:EA; [|discriminate]. cbn [bind].
  set (P1 := madd (mmul M (mmul M (mmul M Ai A1) P) (tr (mmul M Ai A1))) Qcov).
  destruct (inv 1 (madd (mmul M (mmul M H P1) (tr H)) (measure_noise sm))) as [Si|] eqn:ES; [|discriminate]. cbn [bind].
  set (xk := vadd (mvec M (mmul M Ai A1) x) (mvec M Ai (vsub b (mvec M A1 prev)))).
  intros E; injection E as <-. cbn [kf_x kf_P kf_A].
  pose proof (inv_ok _ _ _ EA) as IA. pose proof (inv_ok _ _ _ ES) as IS.
  pose proof (proj1 IA) as SAi. pose proof (sup_rate M V dt) as S1.
  assert (SP1 : supported M M P1).
  { unfold P1. apply sup_madd; [|exact SQ].
    eapply sup_mmul; [eapply sup_mmul; [eapply sup_mmul; [exact SAi|exact S1]|exact SP]|].
    apply sup_tr. eapply sup_mmul; [exact SAi|exact S1]. }
  (* the scalar innovation covariance *)
  assert (ES0 : madd (mmul M (mmul M H P1) (tr H)) (measure_noise sm) 0%nat 0%nat = P1 p p + sm ^ 2).
  { unfold madd. rewrite row_quad by exact Hp. reflexivity. }
  destruct IS as [SSi IS]. destruct (IS 0%nat 0%nat ltac:(lia) ltac:(lia)) as [IS0 _].
  cbn [sum_n Nat.eqb] in IS0. rewrite ES0 in IS0.
  assert (NZ : P1 p p + sm ^ 2 <> 0).
  { intros Z. rewrite Z in IS0. lra. }
  assert (ESi : Si 0%nat 0%nat = / (P1 p p + sm ^ 2)).
  { apply (Rmult_eq_reg_l (P1 p p + sm ^ 2)); [|exact NZ]. rewrite Rinv_r by exact NZ. lra. }
  assert (EK : forall j, mmul 1 (mmul M P1 (tr H)) Si j 0%nat = P1 j p / (P1 p p + sm ^ 2)).
  { intros j. unfold mmul at 1. cbn [sum_n]. rewrite col_row, ESi by exact Hp. unfold Rdiv. ring. }
  assert (Pred : forall j, (j < M)%nat -> sum_n (fun l => A_L j l * xk l) M = b j + V j / dt * (x j - prev j)).
  { intros j Hj. change (mvec M A_L xk j = b j + V j / dt * (x j - prev j)).
    unfold xk. rewrite mvec_mmul, <- mvec_vadd, <- mvec_mmul. destruct (inverse_eq M A_L Ai SA IA) as [-> _].
    rewrite eye_vec.
    - unfold vadd, vsub. rewrite !rate_vec. destruct (Nat.ltb_spec j M); [ring|lia].
    - intros i Hi. unfold vadd, vsub. rewrite !rate_vec, (Sb i Hi). destruct (Nat.ltb_spec i M); [lia|ring]. }
  assert (Sxk : vsupported M xk).
  { intros i Hi. unfold xk, vadd. rewrite mvec_mmul, !(vsup_mvec M M M Ai _ SAi i Hi). ring. }
  assert (SK : supported M 1 (mmul 1 (mmul M P1 (tr H)) Si)).
  { eapply sup_mmul; [eapply sup_mmul; [exact SP1 | apply sup_tr, sup_row, Hp] | exact SSi]. }
  assert (EX : forall j, (if Rltb (vadd xk (mvec 1 (mmul 1 (mmul M P1 (tr H)) Si) (vsub (vboxed 1 (fun _ => z)) (mvec M H xk))) j) 0 then 0
      else vadd xk (mvec 1 (mmul 1 (mmul M P1 (tr H)) Si) (vsub (vboxed 1 (fun _ => z)) (mvec M H xk))) j)
      = Rmax 0 (xk j + P1 j p / (P1 p p + sm ^ 2) * (z - xk p))).
  { intros j.
    assert (EV : vadd xk (mvec 1 (mmul 1 (mmul M P1 (tr H)) Si) (vsub (vboxed 1 (fun _ => z)) (mvec M H xk))) j =
      xk j + P1 j p / (P1 p p + sm ^ 2) * (z - xk p)).
    { unfold vadd, mvec at 1. cbn [sum_n]. rewrite EK. unfold vsub. rewrite row_vec by exact Hp. cbn. ring. }
    rewrite EV. destruct (Rltb_spec (xk j + P1 j p / (P1 p p + sm ^ 2) * (z - xk p)) 0).
    - rewrite Rmax_left by lra. reflexivity.
    - rewrite Rmax_right by lra. reflexivity. }
  exists xk, P1. split; [exact Pred|]. split; [exact NZ|]. split; [exact EX|]. split.
  { intros j Hj. rewrite EX, (Sxk j Hj), (SP1 j p) by auto. unfold Rdiv. rewrite !Rmult_0_l, Rplus_0_r. apply Rmax_left. lra. }
  assert (EQ : mmul M (mmul M (eye M) Qcov) (tr (eye M)) = Qcov).
  { rewrite eye_tr, (eye_l M M _ SQ), (eye_r M M _ SQ). reflexivity. }
  assert (EP : madd (mmul M (mmul M (mmul M (mmul M Ai A1) P) (tr A1)) (tr Ai)) (mmul M (mmul M (eye M) Qcov) (tr (eye M))) = P1).
  { rewrite EQ. unfold P1. f_equal. rewrite tr_mmul, !mmul_assoc. reflexivity. }
  eexists. split.
  { unfold kalman_semi_implicit. rewrite EA. cbn [bind]. rewrite EP, ES. cbn [bind]. reflexivity. }
  cbn [ko_P]. split.
  { rewrite mmul_msub_l, (eye_l M M P1 SP1). reflexivity. }
  split.
  { apply sup_msub; [exact SP1|]. eapply sup_mmul; [|exact SP1]. eapply sup_mmul; [exact SK | apply sup_row, Hp]. }
  exists Ai. split; [exact IA|]. split; [reflexivity|]. split; [reflexivity|].
  intros i j. unfold msub at 1. f_equal. rewrite mmul_assoc. unfold mmul at 1. cbn [sum_n]. rewrite EK.
  rewrite row_col by exact Hp. ring.
Qed.

(** Covariances stay symmetric and nonnegative, and are not larger than those of the prediction. *)
Lemma call_covariance r : out = Some r -> symmetric P -> psd M P -> symmetric Qcov -> psd M Qcov ->
  symmetric (kf_P r) /\ psd M (kf_P r) /\
  (let P1 := madd (mmul M (mmul M (kf_A r) P) (tr (kf_A r))) Qcov in
   symmetric P1 /\ psd M P1 /\ forall v, quad M (kf_P r) v <= quad M P1 v).
Proof.
  intros E YP PP YQ PQ. destruct (call_spec r E) as (pred & P1 & _ & _ & _ & _ & ko & EK & EP & _ & Ai & IA & EA & EP1 & _).
  pose proof (C47_covariances_stay_symmetric inv inv_ok M 1 M (vboxed 1 (fun _ => z)) P A_L A1 b H (eye M) Qcov (measure_noise sm)
    Sb SP SA (sup_rate M V dt) (sup_row M p Hp) (sup_eye M) SQ (sup_boxed 1 1 _) ko EK YP YQ (measure_symmetric sm)) as [Y _].
  destruct (C47_observation_reduces_uncertainty inv inv_ok M 1 M (vboxed 1 (fun _ => z)) P A_L A1 b H (eye M) Qcov (measure_noise sm)
    Sb SP SA (sup_rate M V dt) (sup_row M p Hp) (sup_eye M) SQ (sup_boxed 1 1 _) ko EK YP YQ (measure_symmetric sm) PP PQ (measure_psd sm))
    as (P1' & [Ai' [IA' EP1']] & B).
  rewrite EP. split; [exact Y|]. split; [intros v; apply B|]. cbv zeta. split; [|split].
  - apply tr_sym. apply tr_sym in YP. apply tr_sym in YQ. rewrite tr_madd, !tr_mmul, tr_tr, YP, YQ, !mmul_assoc. reflexivity.
  - intros v. rewrite quad_madd, quad_congruence. apply Rplus_le_le_0_compat; [apply PP | apply PQ].
  - intros v. assert (EAi : Ai' = Ai).
    { destruct (inverse_eq M A_L Ai SA IA) as [_ I2]. destruct (inverse_eq M A_L Ai' SA IA') as [J1 _].
      rewrite <- (eye_r M M Ai (proj1 IA)), <- J1, <- mmul_assoc, I2. symmetry. apply (eye_l M M), IA'. }
    subst Ai'. replace (madd (mmul M (mmul M (kf_A r) P) (tr (kf_A r))) Qcov) with P1'; [apply B|].
    rewrite EP1', EA. rewrite eye_tr, (eye_l M M _ SQ), (eye_r M M _ SQ). f_equal. rewrite tr_mmul, !mmul_assoc. reflexivity.
Qed.
(** The call is defined. *)
Lemma call_defined : (forall n A, nonsingular n A -> exists B, inv n A = Some B) ->
  nonsingular M A_L -> psd M P -> psd M Qcov -> sm <> 0 -> exists r, out = Some r.
Proof.
  intros HC HN PP PQ Hsm. unfold KF_WQ2. destruct (HC M A_L HN) as [Ai ->]. cbn [bind].
  set (P1 := madd (mmul M (mmul M (mmul M Ai A1) P) (tr (mmul M Ai A1))) Qcov).
  assert (P1p : 0 <= P1 p p).
  { apply (psd_diag M P1 p); [|exact Hp]. intros v. unfold P1. rewrite quad_madd, quad_congruence.
    apply Rplus_le_le_0_compat; [apply PP | apply PQ]. }
  destruct (HC 1%nat (madd (mmul M (mmul M H P1) (tr H)) (measure_noise sm))) as [Si ->]; [|cbn [bind]; eauto].
  intros v Hv j Hj. specialize (Hv 0%nat ltac:(lia)). cbn [sum_n] in Hv. unfold madd in Hv.
  rewrite row_quad in Hv by exact Hp. replace (measure_noise sm 0%nat 0%nat) with (sm ^ 2) in Hv by reflexivity.
  assert (0 < sm ^ 2) by (rewrite <- Rsqr_pow2; apply Rsqr_pos_lt; exact Hsm).
  replace j with 0%nat by lia. apply (Rmult_eq_reg_l (P1 p p + sm ^ 2)); [lra|lra].
Qed.
End Call.
End Filter.
