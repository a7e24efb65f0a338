(** Theorems on the Kalman filter (C47). *)
From Coq Require Import ZArith FunctionalExtensionality.
From Verif Require Import Prelude M_Coeffs M_Assembly S_Network M_Simulation M_Kalman.

(** A matrix of shape n x m: zero outside (arrays are total maps in the model). *)
Definition supported (n m : nat) (A : mat) : Prop := forall i j, (n <= i)%nat \/ (m <= j)%nat -> A i j = 0.
Definition vsupported (n : nat) (v : arr) : Prop := forall i, (n <= i)%nat -> v i = 0.
Definition symmetric (A : mat) : Prop := forall i j, A i j = A j i.
(** Quadratic form x' A x. *)
Definition quad (n : nat) (A : mat) (x : arr) : R := sum_n (fun i => x i * mvec n A x i) n.
Definition psd (n : nat) (A : mat) : Prop := forall x, 0 <= quad n A x.
(** [B] is the inverse of [A]. *)
Definition inverse (n : nat) (A B : mat) : Prop :=
  supported n n B /\ forall i j, (i < n)%nat -> (j < n)%nat ->
    sum_n (fun l => A i l * B l j) n = (if Nat.eqb i j then 1 else 0) /\
    sum_n (fun l => B i l * A l j) n = (if Nat.eqb i j then 1 else 0).

(** ** Matrix algebra *)

Ltac fext := apply functional_extensionality; intro; try (apply functional_extensionality; intro).

Lemma sum_n_swap f n m : sum_n (fun i => sum_n (fun j => f i j) m) n = sum_n (fun j => sum_n (fun i => f i j) n) m.
Proof.
  induction n as [|n IH]; simpl; [symmetry; apply sum_n_zero|]. rewrite IH. rewrite <- sum_n_plus. apply sum_n_ext; auto.
Qed.

Lemma mmul_assoc k l A B C : mmul k (mmul l A B) C = mmul l A (mmul k B C).
Proof.
  fext. unfold mmul. 
  rewrite (sum_n_ext _ (fun i => sum_n (fun j => A x j * B j i * C i x0) l)).
  2:{ intros i _. symmetry. apply sum_n_scal_r. }
  rewrite sum_n_swap. apply sum_n_ext; intros j _. rewrite <- sum_n_scal. apply sum_n_ext; intros; ring.
Qed.
Lemma mvec_mmul k l A B v : mvec k (mmul l A B) v = mvec l A (mvec k B v).
Proof.
  fext. unfold mvec, mmul.
  rewrite (sum_n_ext _ (fun i => sum_n (fun j => A x j * B j i * v i) l)).
  2:{ intros i _. symmetry. apply sum_n_scal_r. }
  rewrite sum_n_swap. apply sum_n_ext; intros j _. rewrite <- sum_n_scal. apply sum_n_ext; intros; ring.
Qed.
Lemma mmul_madd_l k A B C : mmul k (madd A B) C = madd (mmul k A C) (mmul k B C).
Proof. fext. unfold mmul, madd. rewrite <- sum_n_plus. apply sum_n_ext; intros; ring. Qed.
Lemma mmul_madd_r k A B C : mmul k A (madd B C) = madd (mmul k A B) (mmul k A C).
Proof. fext. unfold mmul, madd. rewrite <- sum_n_plus. apply sum_n_ext; intros; ring. Qed.
Lemma mmul_msub_l k A B C : mmul k (msub A B) C = msub (mmul k A C) (mmul k B C).
Proof. fext. unfold mmul, msub. rewrite <- sum_n_minus. apply sum_n_ext; intros; ring. Qed.
Lemma mmul_msub_r k A B C : mmul k A (msub B C) = msub (mmul k A B) (mmul k A C).
Proof. fext. unfold mmul, msub. rewrite <- sum_n_minus. apply sum_n_ext; intros; ring. Qed.
Lemma mvec_vadd k A u v : mvec k A (vadd u v) = vadd (mvec k A u) (mvec k A v).
Proof. fext. unfold mvec, vadd. rewrite <- sum_n_plus. apply sum_n_ext; intros; ring. Qed.
Lemma mvec_vsub k A u v : mvec k A (vsub u v) = vsub (mvec k A u) (mvec k A v).
Proof. fext. unfold mvec, vsub. rewrite <- sum_n_minus. apply sum_n_ext; intros; ring. Qed.
Lemma mvec_madd k A B v : mvec k (madd A B) v = vadd (mvec k A v) (mvec k B v).
Proof. fext. unfold mvec, madd, vadd. rewrite <- sum_n_plus. apply sum_n_ext; intros; ring. Qed.
Lemma mvec_msub k A B v : mvec k (msub A B) v = vsub (mvec k A v) (mvec k B v).
Proof. fext. unfold mvec, msub, vsub. rewrite <- sum_n_minus. apply sum_n_ext; intros; ring. Qed.
Lemma tr_tr A : tr (tr A) = A.
Proof. reflexivity. Qed.
Lemma tr_mmul k A B : tr (mmul k A B) = mmul k (tr B) (tr A).
Proof. fext. unfold tr, mmul. apply sum_n_ext; intros; ring. Qed.
Lemma tr_madd A B : tr (madd A B) = madd (tr A) (tr B).
Proof. reflexivity. Qed.
Lemma tr_msub A B : tr (msub A B) = msub (tr A) (tr B).
Proof. reflexivity. Qed.
Lemma tr_sym A : symmetric A <-> tr A = A.
Proof.
  split; intros H.
  - fext. unfold tr. symmetry. apply H.
  - intros i j. pose proof (f_equal (fun X : mat => X j i) H) as E. exact E.
Qed.

Lemma sum_n_one f n k : (k < n)%nat -> (forall i, (i < n)%nat -> i <> k -> f i = 0) -> sum_n f n = f k.
Proof.
  induction n as [|n IH]; intros Hk H0; [lia|]. simpl. destruct (Nat.eq_dec k n) as [->|].
  - rewrite sum_n_0; [ring|]. intros i Hi. apply H0; lia.
  - rewrite IH; [|lia|intros; apply H0; lia]. rewrite (H0 n); [ring|lia|lia].
Qed.
Lemma eye_l n m A : supported n m A -> mmul n (eye n) A = A.
Proof.
  intros H. fext. unfold mmul, eye. destruct (Nat.ltb_spec x n) as [L|L].
  - rewrite (sum_n_one _ n x); auto.
    + rewrite Nat.eqb_refl. simpl. ring.
    + intros i Hi Ne. apply Nat.eqb_neq in Ne. rewrite Nat.eqb_sym in Ne. rewrite Ne. simpl. ring.
  - rewrite H by auto. apply sum_n_0. intros. simpl. ring.
Qed.
Lemma eye_tr n : tr (eye n) = eye n.
Proof.
  fext. unfold tr, eye. rewrite (Nat.eqb_sym x0 x). destruct (Nat.eqb_spec x x0) as [->|]; auto. now rewrite !andb_false_r.
Qed.
Lemma eye_r n m A : supported n m A -> mmul m A (eye m) = A.
Proof.
  intros H. rewrite <- (tr_tr A), <- (tr_tr (eye m)), <- tr_mmul, eye_tr. f_equal. apply (eye_l m n).
  intros i j Hij. unfold tr. apply H; tauto.
Qed.
Lemma eye_vec n v : vsupported n v -> mvec n (eye n) v = v.
Proof.
  intros H. fext. unfold mvec, eye. destruct (Nat.ltb_spec x n) as [L|L].
  - rewrite (sum_n_one _ n x); auto.
    + rewrite Nat.eqb_refl. simpl. ring.
    + intros i Hi Ne. apply Nat.eqb_neq in Ne. rewrite Nat.eqb_sym in Ne. rewrite Ne. simpl. ring.
  - rewrite H by auto. apply sum_n_0. intros. simpl. ring.
Qed.

Lemma sup_mmul k n m p q A B : supported n p A -> supported q m B -> supported n m (mmul k A B).
Proof. intros HA HB i j [H|H]; unfold mmul; apply sum_n_0; intros l _; [rewrite HA by auto|rewrite HB by auto]; ring. Qed.
Lemma sup_madd n m A B : supported n m A -> supported n m B -> supported n m (madd A B).
Proof. intros HA HB i j H. unfold madd. rewrite HA, HB by auto. ring. Qed.
Lemma sup_msub n m A B : supported n m A -> supported n m B -> supported n m (msub A B).
Proof. intros HA HB i j H. unfold msub. rewrite HA, HB by auto. ring. Qed.
Lemma sup_tr n m A : supported n m A -> supported m n (tr A).
Proof. intros H i j Hij. apply H. tauto. Qed.
Lemma sup_eye n : supported n n (eye n).
Proof.
  intros i j [H|H]; unfold eye.
  - destruct (Nat.ltb_spec i n); [lia|]. reflexivity.
  - destruct (Nat.ltb_spec i n); auto. destruct (Nat.eqb_spec i j); auto. lia.
Qed.
Lemma vsup_mvec k n p A v : supported n p A -> vsupported n (mvec k A v).
Proof. intros H i Hi. unfold mvec. apply sum_n_0. intros. rewrite H by auto. ring. Qed.

Lemma inverse_eq n A B : supported n n A -> inverse n A B -> mmul n A B = eye n /\ mmul n B A = eye n.
Proof.
  intros HA [HB HI]. split; fext; unfold mmul, eye;
    (destruct (Nat.ltb_spec x n) as [L|L];
     [destruct (Nat.ltb_spec x0 n) as [L0|L0];
      [simpl; apply HI; auto|]|]).
  - rewrite sum_n_0 by (intros; rewrite HB by auto; ring). destruct (Nat.eqb_spec x x0); [lia|reflexivity].
  - rewrite sum_n_0 by (intros; rewrite HA by auto; ring). reflexivity.
  - rewrite sum_n_0 by (intros; rewrite HA by auto; ring). destruct (Nat.eqb_spec x x0); [lia|reflexivity].
  - rewrite sum_n_0 by (intros; rewrite HB by auto; ring). reflexivity.
Qed.

(** The inverse of a symmetric matrix is symmetric. *)
Lemma inverse_sym n A B : supported n n A -> symmetric A -> inverse n A B -> symmetric B.
Proof.
  intros HA HS HI. destruct (inverse_eq n A B HA HI) as [E1 E2]. pose proof (proj1 HI) as HB.
  apply tr_sym. apply tr_sym in HS.
  assert (E3 : mmul n (tr B) A = eye n) by (rewrite <- HS at 1; rewrite <- tr_mmul, E1; apply eye_tr).
  rewrite <- (eye_r n n (tr B) (sup_tr _ _ _ HB)), <- E1, <- mmul_assoc, E3. apply (eye_l n n); auto.
Qed.

(** Quadratic forms. *)
Lemma quad_dot n A x : quad n A x = sum_n (fun i => x i * mvec n A x i) n.
Proof. reflexivity. Qed.
Lemma dot_tr n m A x y : sum_n (fun i => x i * mvec m A y i) n = sum_n (fun j => mvec n (tr A) x j * y j) m.
Proof.
  unfold mvec, tr.
  rewrite (sum_n_ext _ (fun i => sum_n (fun j => x i * A i j * y j) m)).
  2:{ intros. rewrite <- sum_n_scal. apply sum_n_ext; intros; ring. }
  rewrite sum_n_swap. apply sum_n_ext; intros j _. rewrite <- sum_n_scal_r. apply sum_n_ext; intros; ring.
Qed.
(** x' (A S A') x = (A'x)' S (A'x). *)
Lemma quad_congruence n p A S x : quad n (mmul p (mmul p A S) (tr A)) x = quad p S (mvec n (tr A) x).
Proof.
  unfold quad. rewrite mvec_mmul. rewrite (dot_tr n p (mmul p A S) x). rewrite tr_mmul, mvec_mmul.
  set (y := mvec n (tr A) x). rewrite <- (dot_tr p p S y y). reflexivity.
Qed.
Lemma quad_madd n A B x : quad n (madd A B) x = quad n A x + quad n B x.
Proof. unfold quad. rewrite mvec_madd, <- sum_n_plus. apply sum_n_ext; intros; unfold vadd; ring. Qed.
Lemma quad_msub n A B x : quad n (msub A B) x = quad n A x - quad n B x.
Proof. unfold quad. rewrite mvec_msub, <- sum_n_minus. apply sum_n_ext; intros; unfold vsub; ring. Qed.

(** ** The filter *)

Section Filter.
Variable inv : nat -> mat -> option mat.
Hypothesis inv_ok : forall n A B, inv n A = Some B -> inverse n A B.
Variables (M p a : nat).
Variables (Z : arr) (P A_1 A_2 : mat) (b : arr) (H C Qcov Rcov : mat).
Hypothesis (SZ : vsupported p Z) (Sb : vsupported M b).
Hypothesis (SP : supported M M P) (S1 : supported M M A_1) (S2 : supported M M A_2).
Hypothesis (SH : supported p M H) (SC : supported M a C) (SQ : supported a a Qcov) (SR : supported p p Rcov).

Local Notation out := (kalman_semi_implicit inv M p a Z P A_1 A_2 b H C Qcov Rcov).

(** What the filter computed, by name. *)
Lemma kalman_unfold ko : out = Some ko ->
  exists Ai P1 Si, inverse M A_1 Ai /\ supported M M P1 /\
    P1 = madd (mmul M (mmul M (mmul M (mmul M Ai A_2) P) (tr A_2)) (tr Ai)) (mmul a (mmul a C Qcov) (tr C)) /\
    let S := madd (mmul M (mmul M H P1) (tr H)) Rcov in
    let L := mmul p (mmul M P1 (tr H)) Si in
    inverse p S Si /\ supported p p S /\ supported M p L /\ ko_Pzz ko = S /\
    ko_P ko = mmul M (msub (eye M) (mmul p L H)) P1 /\
    exists x, vsupported M x /\ mvec M A_1 x = b /\
      ko_b ko = mvec M A_1 (vadd x (mvec p L (vsub Z (mvec M H x)))).
Proof.
  unfold kalman_semi_implicit. destruct (inv M A_1) as [Ai|] eqn:EA; [|discriminate]. cbn [bind].
  set (P1 := madd (mmul M (mmul M (mmul M (mmul M Ai A_2) P) (tr A_2)) (tr Ai)) (mmul a (mmul a C Qcov) (tr C))).
  destruct (inv p _) as [Si|] eqn:ES; [|discriminate]. cbn [bind].
  intros E; injection E as <-. cbn [ko_b ko_P ko_Pzz].
  pose proof (inv_ok _ _ _ EA) as IA. pose proof (inv_ok _ _ _ ES) as IS.
  assert (SP1 : supported M M P1).
  { unfold P1. apply sup_madd.
    - eapply sup_mmul; [eapply sup_mmul; [eapply sup_mmul; [eapply sup_mmul; [apply IA|exact S2]|exact SP]|apply sup_tr, S2]|apply sup_tr, IA].
    - eapply sup_mmul; [eapply sup_mmul; [exact SC|exact SQ]|apply sup_tr, SC]. }
  exists Ai, P1, Si. split; auto. split; auto. split; [reflexivity|]. cbv zeta.
  split; auto. split; [apply sup_madd; auto; eapply sup_mmul; [eapply sup_mmul; [exact SH|exact SP1]|apply sup_tr, SH]|].
  split; [eapply sup_mmul; [eapply sup_mmul; [exact SP1|apply sup_tr, SH]|apply IS]|].
  split; auto. split; auto. exists (mvec M Ai b). split; [eapply vsup_mvec, IA|].
  split; auto. rewrite <- mvec_mmul. destruct (inverse_eq M A_1 Ai S1 IA) as [-> _]. now apply eye_vec.
Qed.

Lemma solve_unique Ai x y : inverse M A_1 Ai -> vsupported M x -> vsupported M y -> mvec M A_1 x = mvec M A_1 y -> x = y.
Proof.
  intros IA Hx Hy E. destruct (inverse_eq M A_1 Ai S1 IA) as [_ E2].
  rewrite <- (eye_vec M x Hx), <- (eye_vec M y Hy), <- E2, !mvec_mmul, E. reflexivity.
Qed.

(** If the observation agrees with the model's prediction x, the right-hand side is left as it was. *)
Theorem C47_zero_innovation_keeps_system :
  forall ko x, out = Some ko -> vsupported M x -> mvec M A_1 x = b -> mvec M H x = Z -> ko_b ko = b.
Proof.
  intros ko x E Hx Ex EZ. destruct (kalman_unfold ko E) as (Ai & P1 & Si & IA & _ & _ & K). cbv zeta in K.
  destruct K as (_ & _ & _ & _ & _ & x' & Hx' & Ex' & ->).
  assert (x' = x) as -> by (eapply solve_unique; eauto; congruence).
  rewrite EZ. rewrite <- Ex. f_equal. fext. unfold vadd, mvec, vsub.
  rewrite sum_n_0; [ring|]. intros; ring.
Qed.

(** Full observation without measurement noise: the corrected system has the observed heads as its solution. *)
Theorem C47_perfect_observation_solves_to_data :
  forall ko, p = M -> H = eye M -> (forall i j, Rcov i j = 0) -> out = Some ko -> ko_b ko = mvec M A_1 Z.
Proof.
  intros ko Ep EH ER E. destruct (kalman_unfold ko E) as (Ai & P1 & Si & IA & SP1 & _ & K). cbv zeta in K.
  destruct K as (IS & SS & _ & _ & _ & x & Hx & _ & ->).
  assert (ES : madd (mmul M (mmul M H P1) (tr H)) Rcov = P1).
  { rewrite EH, eye_tr, (eye_l M M P1 SP1), (eye_r M M P1 SP1). fext. unfold madd. rewrite ER. ring. }
  rewrite ES, Ep in IS. rewrite EH, eye_tr, (eye_r M M P1 SP1), Ep.
  destruct (inverse_eq M P1 Si SP1 IS) as [-> _].
  f_equal. rewrite (eye_vec M x Hx). rewrite eye_vec.
  - fext. unfold vadd, vsub. ring.
  - intros i Hi. unfold vsub. rewrite (Hx i Hi), (SZ i) by lia. ring.
Qed.

(** Symmetric covariances stay symmetric. *)
Theorem C47_covariances_stay_symmetric :
  forall ko, out = Some ko -> symmetric P -> symmetric Qcov -> symmetric Rcov ->
  symmetric (ko_P ko) /\ symmetric (ko_Pzz ko).
Proof.
  intros ko E YP YQ YR. destruct (kalman_unfold ko E) as (Ai & P1 & Si & IA & SP1 & EP1 & K). cbv zeta in K.
  destruct K as (IS & SS & _ & EZZ & EPn & _).
  assert (Y1 : symmetric P1).
  { apply tr_sym. apply tr_sym in YP. apply tr_sym in YQ. rewrite EP1, tr_madd, !tr_mmul, !tr_tr, YP, YQ.
    rewrite !mmul_assoc. reflexivity. }
  assert (YS : symmetric (madd (mmul M (mmul M H P1) (tr H)) Rcov)).
  { apply tr_sym. apply tr_sym in YR. apply tr_sym in Y1. rewrite tr_madd, !tr_mmul, !tr_tr, YR, Y1, !mmul_assoc. reflexivity. }
  pose proof (inverse_sym _ _ _ SS YS IS) as YI.
  split; [|rewrite EZZ; exact YS].
  apply tr_sym. apply tr_sym in Y1. apply tr_sym in YI.
  rewrite EPn, mmul_msub_l, (eye_l M M P1 SP1), tr_msub, Y1. f_equal.
  rewrite !tr_mmul, !tr_tr, Y1, YI, !mmul_assoc. reflexivity.
Qed.

(** Observing never increases the uncertainty of any combination of heads and never makes it negative, for covariances
    that are symmetric and positive semidefinite. *)
Theorem C47_observation_reduces_uncertainty :
  forall ko, out = Some ko -> symmetric P -> symmetric Qcov -> symmetric Rcov ->
  psd M P -> psd a Qcov -> psd p Rcov ->
  exists P1, (* covariance of the prediction *)
    (exists Ai, inverse M A_1 Ai /\
      P1 = madd (mmul M (mmul M (mmul M (mmul M Ai A_2) P) (tr A_2)) (tr Ai)) (mmul a (mmul a C Qcov) (tr C))) /\
    forall x, 0 <= quad M (ko_P ko) x <= quad M P1 x.
Proof.
  intros ko E YP YQ YR PP PQ PR. destruct (kalman_unfold ko E) as (Ai & P1 & Si & IA & SP1 & EP1 & K). cbv zeta in K.
  destruct K as (IS & SS & SL & EZZ & EPn & _).
  exists P1. split; [eauto|].
  assert (Y1 : symmetric P1).
  { apply tr_sym. apply tr_sym in YP. apply tr_sym in YQ. rewrite EP1, tr_madd, !tr_mmul, !tr_tr, YP, YQ.
    rewrite !mmul_assoc. reflexivity. }
  set (S := madd (mmul M (mmul M H P1) (tr H)) Rcov) in *.
  assert (YS : symmetric S).
  { apply tr_sym. apply tr_sym in YR. unfold S. apply tr_sym in Y1. rewrite tr_madd, !tr_mmul, !tr_tr, YR, Y1, !mmul_assoc. reflexivity. }
  pose proof (inverse_sym _ _ _ SS YS IS) as YI.
  assert (PP1 : psd M P1).
  { intros x. rewrite EP1, quad_madd.
    assert (E1 : mmul M (mmul M (mmul M (mmul M Ai A_2) P) (tr A_2)) (tr Ai) = mmul M (mmul M (mmul M Ai A_2) P) (tr (mmul M Ai A_2))).
    { rewrite tr_mmul, !mmul_assoc. reflexivity. }
    rewrite E1, !quad_congruence. apply Rplus_le_le_0_compat; [apply PP|apply PQ]. }
  assert (PS : psd p S).
  { intros x. unfold S. rewrite quad_madd. 
    assert (E1 : mmul M (mmul M H P1) (tr H) = mmul M (mmul M H P1) (tr H)) by reflexivity.
    pose proof (PR x). rewrite quad_congruence. specialize (PP1 (mvec p (tr H) x)). lra. }
  destruct (inverse_eq p S Si SS IS) as [I1 I2].
  set (L := mmul p (mmul M P1 (tr H)) Si) in *.
  apply tr_sym in Y1. apply tr_sym in YI.
  assert (TL : tr L = mmul p Si (mmul M H P1)).
  { unfold L. rewrite !tr_mmul, tr_tr, Y1, YI. reflexivity. }
  (* L S L' = P1 H' Si H P1 *)
  assert (LS : mmul p L S = mmul M P1 (tr H)).
  { unfold L. rewrite mmul_assoc, I2. apply (eye_r M p). eapply sup_mmul; [exact SP1|apply sup_tr, SH]. }
  assert (ELH : mmul M (mmul p L H) P1 = mmul p (mmul p L S) (tr L)).
  { rewrite LS, TL. unfold L. rewrite !mmul_assoc. reflexivity. }
  assert (EPn' : ko_P ko = msub P1 (mmul p (mmul p L S) (tr L))).
  { rewrite EPn, mmul_msub_l, (eye_l M M P1 SP1), ELH. reflexivity. }
  intros x. split.
  2:{ rewrite EPn', quad_msub, quad_congruence. pose proof (PS (mvec M (tr L) x)). lra. }
  (* Joseph form *)
  set (F := msub (eye M) (mmul p L H)).
  assert (EJ : ko_P ko = madd (mmul M (mmul M F P1) (tr F)) (mmul p (mmul p L Rcov) (tr L))).
  { assert (EF : mmul M F P1 = ko_P ko) by (rewrite EPn; reflexivity).
    rewrite EF. unfold F. rewrite tr_msub, eye_tr, mmul_msub_r.
    assert (SK : supported M M (ko_P ko)).
    { rewrite EPn'. apply sup_msub; auto. eapply sup_mmul; [eapply sup_mmul; [exact SL|exact SS]|apply sup_tr, SL]. }
    rewrite (eye_r M M _ SK). rewrite tr_mmul.
    (* K H' L' = L R L' *)
    assert (X : mmul M (ko_P ko) (mmul p (tr H) (tr L)) = mmul p (mmul p L Rcov) (tr L)).
    { rewrite <- mmul_assoc. f_equal.
      rewrite EPn', mmul_msub_l. rewrite LS, TL.
      assert (Y : mmul M (mmul p (mmul M P1 (tr H)) (mmul p Si (mmul M H P1))) (tr H) = mmul p L (mmul M (mmul M H P1) (tr H))).
      { unfold L. rewrite !mmul_assoc. reflexivity. }
      rewrite Y. rewrite <- LS. unfold S. rewrite mmul_madd_r. fext. unfold msub, madd. ring. }
    rewrite X. fext. unfold madd, msub. ring. }
  rewrite EJ, quad_madd, !quad_congruence. pose proof (PP1 (mvec M (tr F) x)). pose proof (PR (mvec M (tr L) x)). lra.
Qed.

End Filter.

(** ** The simulation's filter call *)

Section Call.
Variable inv : nat -> mat -> option mat.
Hypothesis inv_ok : forall n A B, inv n A = Some B -> inverse n A B.
Variables (B V I : Type).
Variable solve : I -> R -> V -> B -> option B.
Variable heads : B -> arr.
Variables (A1_of : B -> mat) (A2_of : B -> R -> mat) (b_of : B -> arr) (set_b : B -> arr -> B).
Variables (M : nat) (z_inv max_depth : arr).
(** What the model's solution step does with the assembled system: its heads solve it, up to the limits. *)
Hypothesis solve_ok : forall i dt v bd bh bd', solve i dt v (set_b bd bh) = Some bd' ->
  exists Hs, solves M (A1_of bd) bh Hs /\ forall j, (j < M)%nat -> heads bd' j = limit_head (z_inv j) (max_depth j) (Hs j).

Local Notation kf := (kalman_filter inv B V I solve A1_of A2_of b_of set_b M).

(** Time, counter and saved state are unchanged. *)
Theorem C47_filter_leaves_clock :
  forall i p a Z H C Q Rc P dt m m' P' Pz, kf i p a Z H C Q Rc P dt m = Some (m', P', Pz) ->
  m_t m' = m_t m /\ m_ic m' = m_ic m /\ m_saved m' = m_saved m.
Proof.
  intros i p a Z H C Q Rc P dt m m' P' Pz. unfold kalman_filter.
  destruct (kalman_semi_implicit _ _ _ _ _ _ _ _ _ _ _ _ _) as [ko|]; [|discriminate]. cbn [bind].
  unfold solve_step'. cbn [m_saved m_body m_t m_ic]. destruct (solve _ _ _ _) as [bd|]; [|discriminate]. cbn [bind].
  intros E; injection E as <- _ _. cbn [m_t m_ic m_saved]. repeat split; [ring|lia].
Qed.

(** Zero innovation: the heads are the model's own prediction (the solution of its own system, within its limits). *)
Theorem C47_zero_innovation_keeps_prediction :
  forall i p a Z H C Q Rc P dt m m' P' Pz x,
  kf i p a Z H C Q Rc P dt m = Some (m', P', Pz) ->
  vsupported p Z -> vsupported M (b_of (m_body m)) -> supported M M P -> supported M M (A1_of (m_body m)) ->
  supported M M (A2_of (m_body m) dt) -> supported p M H -> supported M a C -> supported a a Q -> supported p p Rc ->
  vsupported M x -> mvec M (A1_of (m_body m)) x = b_of (m_body m) -> mvec M H x = Z ->
  forall j, (j < M)%nat -> heads (m_body m') j = limit_head (z_inv j) (max_depth j) (x j).
Proof.
  intros i p a Z H C Q Rc P dt m m' P' Pz x E SZ Sb SP S1 S2 SH SC SQ SR Hx Ex EZ.
  unfold kalman_filter in E.
  destruct (kalman_semi_implicit _ _ _ _ _ _ _ _ _ _ _ _ _) as [ko|] eqn:Ek; [|discriminate]. cbn [bind] in E.
  unfold solve_step' in E. cbn [m_saved m_body m_t m_ic] in E. destruct (solve _ _ _ _) as [bd|] eqn:Es; [|discriminate].
  cbn [bind] in E. injection E as <- _ _. cbn [m_body].
  destruct (solve_ok _ _ _ _ _ _ Es) as (Hs & HS & HL). intros j Hj. rewrite HL by auto. f_equal.
  assert (Eb : ko_b ko = b_of (m_body m)) by (exact (C47_zero_innovation_keeps_system inv inv_ok M p a Z P _ _ _ H C Q Rc Sb SP S1 S2 SH SC SQ SR ko x Ek Hx Ex EZ)).
  rewrite Eb in HS.
  assert (exists Ai, inverse M (A1_of (m_body m)) Ai) as [Ai IA].
  { clear Eb. unfold kalman_semi_implicit in Ek. destruct (inv M (A1_of (m_body m))) eqn:EI; [eauto|discriminate]. }
  set (Hs' := fun j => if Nat.ltb j M then Hs j else 0).
  assert (V1 : vsupported M Hs') by (intros k Hk; unfold Hs'; destruct (Nat.ltb_spec k M); [lia|auto]).
  assert (EqH : mvec M (A1_of (m_body m)) Hs' = mvec M (A1_of (m_body m)) x).
  { rewrite Ex. fext. destruct (Nat.lt_ge_cases x0 M) as [L|L].
    - rewrite <- (HS x0 L). unfold mvec. apply sum_n_ext. intros k Hk. unfold Hs'. destruct (Nat.ltb_spec k M); [auto|lia].
    - rewrite (Sb x0 L). unfold mvec. apply sum_n_0. intros. rewrite S1 by auto. ring. }
  assert (Hs' = x) by (eapply (solve_unique M (A1_of (m_body m))); eauto).
  rewrite <- H0. unfold Hs'. destruct (Nat.ltb_spec j M); [auto|lia].
Qed.

(** Perfect observation of every head: the heads are the observed ones (within the model's limits). *)
Theorem C47_perfect_observation_yields_data :
  forall i a Z C Q Rc P dt m m' P' Pz,
  kf i M a Z (eye M) C Q Rc P dt m = Some (m', P', Pz) ->
  vsupported M Z -> vsupported M (b_of (m_body m)) -> supported M M P -> supported M M (A1_of (m_body m)) ->
  supported M M (A2_of (m_body m) dt) -> supported M a C -> supported a a Q -> (forall i j, Rc i j = 0) ->
  forall j, (j < M)%nat -> heads (m_body m') j = limit_head (z_inv j) (max_depth j) (Z j).
Proof.
  intros i a Z C Q Rc P dt m m' P' Pz E SZ Sb SP S1 S2 SC SQ R0.
  assert (SR : supported M M Rc) by (intros x y _; apply R0).
  unfold kalman_filter in E.
  destruct (kalman_semi_implicit _ _ _ _ _ _ _ _ _ _ _ _ _) as [ko|] eqn:Ek; [|discriminate]. cbn [bind] in E.
  unfold solve_step' in E. cbn [m_saved m_body m_t m_ic] in E. destruct (solve _ _ _ _) as [bd|] eqn:Es; [|discriminate].
  cbn [bind] in E. injection E as <- _ _. cbn [m_body].
  destruct (solve_ok _ _ _ _ _ _ Es) as (Hs & HS & HL). intros j Hj. rewrite HL by auto. f_equal.
  assert (Eb : ko_b ko = mvec M (A1_of (m_body m)) Z).
  { exact (C47_perfect_observation_solves_to_data inv inv_ok M M a Z P _ _ _ (eye M) C Q Rc SZ Sb SP S1 S2 (sup_eye M) SC SQ SR ko eq_refl eq_refl R0 Ek). }
  rewrite Eb in HS.
  assert (exists Ai, inverse M (A1_of (m_body m)) Ai) as [Ai IA].
  { clear Eb. unfold kalman_semi_implicit in Ek. destruct (inv M (A1_of (m_body m))) eqn:EI; [eauto|discriminate]. }
  set (Hs' := fun j => if Nat.ltb j M then Hs j else 0).
  assert (V1 : vsupported M Hs') by (intros k Hk; unfold Hs'; destruct (Nat.ltb_spec k M); [lia|auto]).
  assert (EqH : mvec M (A1_of (m_body m)) Hs' = mvec M (A1_of (m_body m)) Z).
  { fext. destruct (Nat.lt_ge_cases x M) as [L|L].
    - rewrite <- (HS x L). unfold mvec. apply sum_n_ext. intros k Hk. unfold Hs'. destruct (Nat.ltb_spec k M); [auto|lia].
    - unfold mvec. rewrite !sum_n_0; auto; intros; rewrite S1 by auto; ring. }
  assert (Hs' = Z) by (eapply (solve_unique M (A1_of (m_body m))); eauto).
  rewrite <- H. unfold Hs'. destruct (Nat.ltb_spec j M); [auto|lia].
Qed.
End Call.

(** Witness: one junction, A1 = 2, b = 6 (prediction 3), prior variance 4, observation 5. *)
Definition one (x : R) : mat := fun i j => if Nat.eqb i 0 && Nat.eqb j 0 then x else 0.
Definition one_v (x : R) : arr := fun i => if Nat.eqb i 0 then x else 0.
Definition inv1 (n : nat) (A : mat) : option mat :=
  if Nat.eqb n 1 && negb (Reqb (A 0%nat 0%nat) 0) then Some (one (/ A 0%nat 0%nat)) else None.

Lemma inv1_ok n A B : inv1 n A = Some B -> inverse n A B.
Proof.
  unfold inv1. destruct (Nat.eqb_spec n 1) as [->|]; [|discriminate]. destruct (Reqb_spec (A 0%nat 0%nat) 0); [discriminate|].
  simpl. intros E; injection E as <-. split.
  - intros i j Hij. unfold one. destruct (Nat.eqb_spec i 0); destruct (Nat.eqb_spec j 0); simpl; auto; lia.
  - intros i j Hi Hj. assert (i = 0)%nat as -> by lia. assert (j = 0)%nat as -> by lia. simpl. unfold one; simpl.
    split; field; auto.
Qed.

Example C47_example :
  exists ko, kalman_semi_implicit inv1 1 1 1 (one_v 5) (one 4) (one 2) (one 1) (one_v 6) (eye 1) (one 1) (one 1) (one 0) = Some ko /\
    ko_b ko 0%nat = 10 /\ ko_P ko 0%nat 0%nat = 0.
Proof.
  unfold kalman_semi_implicit, inv1. cbn [Nat.eqb andb]. unfold one at 1. cbn [Nat.eqb andb].
  destruct (Reqb_spec 2 0); [lra|]. cbn [negb bind].
  match goal with |- context [Reqb ?x 0] => assert (Ex : x = 2) end.
  { unfold madd, mmul, tr, eye, one. cbn. field. }
  rewrite Ex. destruct (Reqb_spec 2 0); [lra|]. cbn [negb bind].
  eexists; split; [reflexivity|]. cbn [ko_b ko_P]. split; unfold madd, msub, mvec, vadd, vsub, mmul, tr, eye, one, one_v; cbn; field.
Qed.
