(** Property C70: the square-root form of the Kalman filter. *)
From Coq Require Import ZArith FunctionalExtensionality.
From Verif Require Import Prelude M_Coeffs M_Assembly S_Network M_Simulation M_Kalman P_Kalman M_SquareRoot.

(** ** Specification: the Kalman filter of the linear step A1 x' = A2 x + ..., textbook form *)
Definition textbook (M p a : nat) (Z : arr) (P A_1 A_2 : mat) (b : arr) (H C Qcov Rcov : mat) (b_hat : arr) (P' : mat) : Prop :=
  exists Ai P1 Si K x,
    inverse M A_1 Ai /\
    P1 = madd (mmul M (mmul M (mmul M (mmul M Ai A_2) P) (tr A_2)) (tr Ai)) (mmul a (mmul a C Qcov) (tr C)) /\
    inverse p (madd (mmul M (mmul M H P1) (tr H)) Rcov) Si /\
    K = mmul p (mmul M P1 (tr H)) Si /\
    x = mvec M Ai b /\
    b_hat = mvec M A_1 (vadd x (mvec p K (vsub Z (mvec M H x)))) /\
    P' = mmul M (msub (eye M) (mmul p K H)) P1.

(** ** What NumPy's factorisations promise *)
Definition cholesky_ok (cholesky : nat -> mat -> option mat) : Prop :=
  forall n A F, cholesky n A = Some F -> symmetric A ->
    supported n n F /\ (forall i, (i < n)%nat -> 0 < F i i) /\ (forall i j, (i < j)%nat -> F i j = 0) /\
    forall i j, (i < n)%nat -> (j < n)%nat -> mmul n F (tr F) i j = A i j.
Definition qr_ok (qr_r : nat -> nat -> mat -> option mat) : Prop :=
  forall r n A F, qr_r r n A = Some F ->
    supported n n F /\ (forall i j, (j < i)%nat -> F i j = 0) /\
    forall i j, (i < n)%nat -> (j < n)%nat -> mmul n (tr F) F i j = mmul r (tr A) A i j.
Definition inv_ok (inv : nat -> mat -> option mat) : Prop := forall n A B, inv n A = Some B -> inverse n A B.

(** ** Algebra *)

Lemma sum_n_app f n m : sum_n f (n + m) = sum_n f n + sum_n (fun i => f (n + i)%nat) m.
Proof. induction m as [|m IH]; [rewrite Nat.add_0_r; simpl; ring|]. rewrite Nat.add_succ_r. cbn [sum_n]. rewrite IH. ring. Qed.

Lemma gram_vstack r q A B : mmul (r + q) (tr (vstack r A B)) (vstack r A B) = madd (mmul r (tr A) A) (mmul q (tr B) B).
Proof.
  fext. unfold mmul, madd, tr. rewrite sum_n_app. f_equal; apply sum_n_ext; intros i Hi; unfold vstack.
  - destruct (Nat.ltb_spec i r); [reflexivity|lia].
  - destruct (Nat.ltb_spec (r + i) r); [lia|]. replace (r + i - r)%nat with i by lia. reflexivity.
Qed.

Lemma mat_ext n m (A B : mat) : supported n m A -> supported n m B ->
  (forall i j, (i < n)%nat -> (j < m)%nat -> A i j = B i j) -> A = B.
Proof.
  intros HA HB E. fext. destruct (Nat.lt_ge_cases x n); [|rewrite HA, HB; auto].
  destruct (Nat.lt_ge_cases x0 m); [auto|rewrite HA, HB; auto].
Qed.

(** R from a QR factorisation of a stacked matrix. *)
Lemma qr_gram qr_r r q n A B F : qr_ok qr_r -> supported r n A -> supported q n B ->
  qr_r (r + q)%nat n (vstack r A B) = Some F ->
  supported n n F /\ mmul n (tr F) F = madd (mmul r (tr A) A) (mmul q (tr B) B).
Proof.
  intros Hq HA HB E. destruct (Hq _ _ _ _ E) as (HF & _ & HG). split; auto. rewrite <- gram_vstack.
  apply (mat_ext n n).
  - eapply sup_mmul; [apply sup_tr|]; eauto.
  - rewrite gram_vstack. apply sup_madd; (eapply sup_mmul; [apply sup_tr|]); eauto.
  - exact HG.
Qed.

Lemma inverse_unique n A B B' : supported n n A -> inverse n A B -> inverse n A B' -> B = B'.
Proof.
  intros SA I I'. destruct (inverse_eq n A B SA I) as [_ E]. destruct (inverse_eq n A B' SA I') as [E' _].
  rewrite <- (eye_r n n B (proj1 I)), <- E', <- mmul_assoc, E. apply (eye_l n n), (proj1 I').
Qed.

Lemma inverse_of_eq n A B : supported n n B -> mmul n A B = eye n -> mmul n B A = eye n -> inverse n A B.
Proof.
  intros SB E1 E2. split; auto. intros i j Hi Hj.
  pose proof (f_equal (fun X : mat => X i j) E1) as F1. pose proof (f_equal (fun X : mat => X i j) E2) as F2.
  unfold mmul, eye in F1, F2. destruct (Nat.ltb_spec i n); [|lia]. auto.
Qed.

(** The inverse of G' G from the inverse of G. *)
Lemma inverse_gram n G Gi : supported n n G -> inverse n G Gi -> inverse n (mmul n (tr G) G) (mmul n Gi (tr Gi)).
Proof.
  intros SG I. destruct (inverse_eq n G Gi SG I) as [E1 E2]. pose proof (proj1 I) as SI.
  assert (T1 : mmul n (tr Gi) (tr G) = eye n) by (rewrite <- tr_mmul, E1; apply eye_tr).
  assert (T2 : mmul n (tr G) (tr Gi) = eye n) by (rewrite <- tr_mmul, E2; apply eye_tr).
  apply inverse_of_eq.
  - eapply sup_mmul; [eauto|apply sup_tr; eauto].
  - rewrite mmul_assoc, <- (mmul_assoc n n G), E1, (eye_l n n) by (apply sup_tr; auto). exact T2.
  - rewrite mmul_assoc, <- (mmul_assoc n n (tr Gi)), T1, (eye_l n n) by auto. exact E2.
Qed.

Lemma gram_sym n A : symmetric (mmul n (tr A) A).
Proof. apply tr_sym. rewrite tr_mmul, tr_tr. reflexivity. Qed.
Lemma madd_sym A B : symmetric A -> symmetric B -> symmetric (madd A B).
Proof. intros HA HB i j. unfold madd. now rewrite (HA i j), (HB i j). Qed.

(** Joseph's form of the updated covariance. *)
Lemma joseph M p P1 H Rc Si : supported M M P1 -> symmetric P1 -> supported p M H -> supported p p Rc -> symmetric Rc ->
  inverse p (madd (mmul M (mmul M H P1) (tr H)) Rc) Si ->
  let L := mmul p (mmul M P1 (tr H)) Si in
  let F := msub (eye M) (mmul p L H) in
  mmul M F P1 = madd (mmul M (mmul M F P1) (tr F)) (mmul p (mmul p L Rc) (tr L)).
Proof.
  intros SP1 Y1 SH SR YR IS L F.
  set (S := madd (mmul M (mmul M H P1) (tr H)) Rc) in *.
  assert (SS : supported p p S) by (unfold S; apply sup_madd; auto; eapply sup_mmul; [eapply sup_mmul; [exact SH|exact SP1]|apply sup_tr, SH]).
  apply tr_sym in Y1. apply tr_sym in YR.
  assert (YS : symmetric S).
  { apply tr_sym. unfold S. rewrite tr_madd, !tr_mmul, !tr_tr, YR, Y1, !mmul_assoc. reflexivity. }
  pose proof (inverse_sym _ _ _ SS YS IS) as YI. apply tr_sym in YI.
  destruct (inverse_eq p S Si SS IS) as [I1 I2].
  assert (SL : supported M p L) by (eapply sup_mmul; [eapply sup_mmul; [exact SP1|apply sup_tr, SH]|apply IS]).
  assert (TL : tr L = mmul p Si (mmul M H P1)) by (unfold L; rewrite !tr_mmul, tr_tr, Y1, YI; reflexivity).
  assert (LS : mmul p L S = mmul M P1 (tr H)).
  { unfold L. rewrite mmul_assoc, I2. apply (eye_r M p). eapply sup_mmul; [exact SP1|apply sup_tr, SH]. }
  set (K := mmul M F P1).
  assert (EK : K = msub P1 (mmul p (mmul p L S) (tr L))).
  { unfold K, F. rewrite mmul_msub_l, (eye_l M M P1 SP1). f_equal. rewrite LS, TL. unfold L. rewrite !mmul_assoc. reflexivity. }
  assert (SK : supported M M K).
  { rewrite EK. apply sup_msub; auto. eapply sup_mmul; [eapply sup_mmul; [exact SL|exact SS]|apply sup_tr, SL]. }
  unfold F. rewrite tr_msub, eye_tr, mmul_msub_r, (eye_r M M _ SK), tr_mmul.
  assert (X : mmul M K (mmul p (tr H) (tr L)) = mmul p (mmul p L Rc) (tr L)).
  { rewrite <- mmul_assoc. f_equal. rewrite EK, mmul_msub_l, LS, TL.
    assert (Y : mmul M (mmul p (mmul M P1 (tr H)) (mmul p Si (mmul M H P1))) (tr H) = mmul p L (mmul M (mmul M H P1) (tr H))).
    { unfold L. rewrite !mmul_assoc. reflexivity. }
    rewrite Y. rewrite <- LS. unfold S. rewrite mmul_madd_r. fext. unfold msub, madd. ring. }
  rewrite X. fext. unfold madd, msub. ring.
Qed.

(** The textbook filter has one result. *)
Lemma textbook_unique M p a Z P A_1 A_2 b H C Q Rc b1 P1 b2 P2 :
  supported M M P -> supported M M A_1 -> supported M M A_2 -> supported p M H -> supported M a C -> supported a a Q -> supported p p Rc ->
  textbook M p a Z P A_1 A_2 b H C Q Rc b1 P1 -> textbook M p a Z P A_1 A_2 b H C Q Rc b2 P2 -> b1 = b2 /\ P1 = P2.
Proof.
  intros SP S1 S2 SH SC SQ SR (Ai & Q1 & Si & K & x & I1 & -> & I2 & -> & -> & -> & ->) (Ai' & Q1' & Si' & K' & x' & J1 & -> & J2 & -> & -> & -> & ->).
  assert (Ai = Ai') as <- by (eapply (inverse_unique M A_1); eauto).
  set (W := madd (mmul M (mmul M (mmul M (mmul M Ai A_2) P) (tr A_2)) (tr Ai)) (mmul a (mmul a C Q) (tr C))) in *.
  assert (SW : supported M M W).
  { unfold W. apply sup_madd.
    - eapply sup_mmul; [eapply sup_mmul; [eapply sup_mmul; [eapply sup_mmul; [apply I1|exact S2]|exact SP]|apply sup_tr, S2]|apply sup_tr, I1].
    - eapply sup_mmul; [eapply sup_mmul; [exact SC|exact SQ]|apply sup_tr, SC]. }
  assert (Si = Si') as <-.
  { eapply (inverse_unique p (madd (mmul M (mmul M H W) (tr H)) Rc)); eauto.
    apply sup_madd; auto. eapply sup_mmul; [eapply sup_mmul; [exact SH|exact SW]|apply sup_tr, SH]. }
  auto.
Qed.

(** ** The two forms *)

Section Filter.
Variables (inv cholesky : nat -> mat -> option mat) (qr_r : nat -> nat -> mat -> option mat).
Hypothesis (Hinv : inv_ok inv) (Hchol : cholesky_ok cholesky) (Hqr : qr_ok qr_r).
Variables (M p : nat) (Z : arr) (P A_1 A_2 : mat) (b : arr) (H C Qcov Rcov : mat).
Hypothesis (SP : supported M M P) (S1 : supported M M A_1) (S2 : supported M M A_2) (SH : supported p M H).

(** The plain form is the textbook filter. *)
Theorem C70_plain_form_is_textbook :
  forall a ko, kalman_semi_implicit inv M p a Z P A_1 A_2 b H C Qcov Rcov = Some ko ->
  textbook M p a Z P A_1 A_2 b H C Qcov Rcov (ko_b ko) (ko_P ko).
Proof.
  intros a ko. unfold kalman_semi_implicit. destruct (inv M A_1) as [Ai|] eqn:EA; [|discriminate]. cbn [bind].
  destruct (inv p _) as [Si|] eqn:ES; [|discriminate]. cbn [bind]. intros E; injection E as <-. cbn [ko_b ko_P].
  do 5 eexists. split; [apply Hinv, EA|]. split; [reflexivity|]. split; [apply Hinv, ES|]. repeat (split; [reflexivity|]). reflexivity.
Qed.

(** Whenever the square-root form returns, its result is that of the textbook filter for other covariances: with F the
    lower Cholesky factor of a covariance, F' F takes the place of F F', and the noise enters all heads directly
    whatever the signal-input matrix is. *)
Theorem C70_square_root_form_transposes_factors :
  forall a bh P', square_root_kalman inv cholesky qr_r M p a Z P A_1 A_2 b H C Qcov Rcov = Some (bh, P') ->
  symmetric P -> symmetric Qcov -> symmetric Rcov ->
  exists F Rq Rr, cholesky M P = Some F /\ cholesky M Qcov = Some Rq /\ cholesky p Rcov = Some Rr /\
    textbook M p M Z (mmul M (tr F) F) A_1 A_2 b H (eye M) (mmul M (tr Rq) Rq) (mmul p (tr Rr) Rr) bh P'.
Proof.
  intros a bh P'. unfold square_root_kalman.
  destruct (inv M A_1) as [Ai|] eqn:EA; [|discriminate]. cbn [bind].
  destruct (cholesky a Qcov) as [Rq|] eqn:EQ; [|discriminate]. cbn [bind].
  destruct (cholesky p Rcov) as [Rr|] eqn:ER; [|discriminate]. cbn [bind].
  destruct (cholesky M P) as [F|] eqn:EF; [|discriminate]. cbn [bind].
  destruct (Nat.eqb_spec a M) as [->|]; [|discriminate]. cbn [negb].
  destruct (qr_r (M + M)%nat M _) as [Fb|] eqn:E1; [|discriminate]. cbn [bind].
  destruct (qr_r (M + p)%nat p _) as [G|] eqn:E2; [|discriminate]. cbn [bind].
  destruct (inv p G) as [Gi|] eqn:EG; [|discriminate]. cbn [bind].
  set (L := tr (mmul M (mmul M (mmul p Gi (mmul p (tr Gi) H)) (tr Fb)) Fb)). destruct (qr_r (M + p)%nat M _) as [Fh|] eqn:E3; [|discriminate]. cbn [bind].
  intros E YP YQ YR. injection E as <- <-.
  pose proof (Hinv _ _ _ EA) as IA. pose proof (proj1 IA) as SA. pose proof (Hinv _ _ _ EG) as IG. pose proof (proj1 IG) as SGi.
  destruct (Hchol _ _ _ EQ YQ) as (SRq & _). destruct (Hchol _ _ _ ER YR) as (SRr & _). destruct (Hchol _ _ _ EF YP) as (SF & _).
  assert (SX : supported M M (mmul M (mmul M F (tr A_2)) (tr Ai))).
  { eapply sup_mmul; [eapply sup_mmul; [exact SF|apply sup_tr, S2]|apply sup_tr, SA]. }
  destruct (qr_gram _ _ _ _ _ _ _ Hqr SX SRq E1) as (SFb & G1).
  assert (SY : supported M p (mmul M Fb (tr H))) by (eapply sup_mmul; [exact SFb|apply sup_tr, SH]).
  destruct (qr_gram _ _ _ _ _ _ _ Hqr SY SRr E2) as (SG & G2).
  set (P1 := mmul M (tr Fb) Fb) in *.
  assert (SP1 : supported M M P1) by (unfold P1; eapply sup_mmul; [apply sup_tr|]; exact SFb).
  assert (Y1 : symmetric P1) by apply gram_sym. pose proof (proj1 (tr_sym P1) Y1) as T1.
  (* the gain *)
  assert (EL : L = mmul p (mmul M P1 (tr H)) (mmul p Gi (tr Gi))).
  { unfold L. rewrite (mmul_assoc M M _ (tr Fb) Fb). fold P1. rewrite tr_mmul, T1.
    rewrite !tr_mmul, !tr_tr. rewrite !mmul_assoc. reflexivity. }
  assert (G2' : mmul p (tr G) G = madd (mmul M (mmul M H P1) (tr H)) (mmul p (tr Rr) Rr)).
  { rewrite G2. f_equal. rewrite tr_mmul, tr_tr. unfold P1. rewrite !mmul_assoc. reflexivity. }
  assert (IS : inverse p (madd (mmul M (mmul M H P1) (tr H)) (mmul p (tr Rr) Rr)) (mmul p Gi (tr Gi))).
  { rewrite <- G2'. apply inverse_gram; auto. }
  assert (SL : supported M p L).
  { rewrite EL. eapply sup_mmul; [eapply sup_mmul; [exact SP1|apply sup_tr, SH]|apply IS]. }
  set (W := msub (eye M) (mmul p L H)) in *.
  assert (SW : supported M M W) by (apply sup_msub; [apply sup_eye|eapply sup_mmul; eauto]).
  assert (SV : supported M M (mmul M Fb (tr W))) by (eapply sup_mmul; [exact SFb|apply sup_tr, SW]).
  assert (ST : supported p M (mmul p Rr (tr L))) by (eapply sup_mmul; [exact SRr|apply sup_tr, SL]).
  destruct (qr_gram _ _ _ _ _ _ _ Hqr SV ST E3) as (_ & G3).
  exists F, Rq, Rr. split; auto. split; auto. split; auto.
  exists Ai, P1, (mmul p Gi (tr Gi)), L, (mvec M Ai b).
  split; [exact IA|]. split.
  { rewrite G1. f_equal.
    - rewrite !tr_mmul, !tr_tr, !mmul_assoc. reflexivity.
    - rewrite eye_tr, (eye_l M M) by (eapply sup_mmul; [apply sup_tr|]; exact SRq).
      rewrite (eye_r M M); auto. eapply sup_mmul; [apply sup_tr|]; exact SRq. }
  split; [exact IS|]. split; [exact EL|]. split; [reflexivity|]. split; [reflexivity|].
  rewrite G3. rewrite !tr_mmul, !tr_tr.
  assert (SRR : supported p p (mmul p (tr Rr) Rr)) by (eapply sup_mmul; [apply sup_tr|]; exact SRr).
  pose proof (joseph M p P1 H (mmul p (tr Rr) Rr) (mmul p Gi (tr Gi)) SP1 Y1 SH SRR (gram_sym p Rr) IS) as J.
  cbv zeta in J. rewrite <- EL in J. fold W in J.
  fold W. rewrite J. f_equal; unfold P1; rewrite !mmul_assoc; reflexivity.
Qed.
End Filter.

(** The factor of a diagonal matrix is diagonal, so transposing it changes nothing. *)
Lemma cholesky_diagonal cholesky n A F : cholesky_ok cholesky -> supported n n A -> (forall i j, i <> j -> A i j = 0) ->
  cholesky n A = Some F -> mmul n (tr F) F = A.
Proof.
  intros Hc SA HD E.
  assert (YA : symmetric A).
  { intros i j. destruct (Nat.eq_dec i j) as [->|Ne]; auto. rewrite !HD; auto. }
  destruct (Hc n A F E YA) as (SF & Hpos & Hlow & HG).
  assert (Z : forall j i, (j < i)%nat -> F i j = 0).
  { induction j as [j IH] using (well_founded_induction Wf_nat.lt_wf). intros i Hij.
    destruct (Nat.lt_ge_cases i n) as [Hi|Hi]; [|apply SF; auto].
    pose proof (HG i j Hi ltac:(lia)) as X. rewrite HD in X by lia. unfold mmul, tr in X.
    rewrite (sum_n_one _ n j) in X; [|lia|].
    2:{ intros l Hl Ne. destruct (Nat.lt_trichotomy l j) as [|[|]]; [|lia|].
        - rewrite (IH l ltac:(auto) j) by auto. ring.
        - rewrite (Hlow j l) by auto. ring. }
    pose proof (Hpos j ltac:(lia)). apply Rmult_integral in X. destruct X; auto; lra. }
  apply (mat_ext n n); [eapply sup_mmul; [apply sup_tr|]; exact SF|exact SA|].
  intros i j Hi Hj. pose proof (HG i j Hi Hj) as X. rewrite <- X. unfold mmul, tr.
  assert (O : forall x y, x <> y -> F x y = 0) by (intros x y Ne; destruct (Nat.lt_trichotomy x y) as [|[|]]; [auto|lia|auto]).
  destruct (Nat.eq_dec i j) as [->|Ne].
  - rewrite (sum_n_one (fun l => F l j * F l j) n j Hj) by (intros l _ Nl; rewrite (O l j) by auto; ring).
    rewrite (sum_n_one (fun l => F j l * F j l) n j Hj) by (intros l _ Nl; rewrite (O j l) by auto; ring). reflexivity.
  - rewrite (sum_n_0 (fun l => F l i * F l j)).
    2:{ intros l _. destruct (Nat.eq_dec l i) as [->|]; [rewrite (O i j) by auto|rewrite (O l i) by auto]; ring. }
    rewrite (sum_n_0 (fun l => F i l * F j l)); auto.
    intros l _. destruct (Nat.eq_dec i l) as [->|]; [rewrite (O j l) by auto|rewrite (O i l) by auto]; ring.
Qed.

Definition diagonal (A : mat) : Prop := forall i j, i <> j -> A i j = 0.
Lemma diagonal_sym A : diagonal A -> symmetric A.
Proof. intros D i j. destruct (Nat.eq_dec i j) as [->|Ne]; auto. rewrite !D; auto. Qed.

(** With diagonal covariances and the identity as signal-input matrix, both forms give the same corrected system and the
    same updated covariance. *)
Theorem C70_forms_agree_for_diagonal_covariances :
  forall inv cholesky qr_r, inv_ok inv -> cholesky_ok cholesky -> qr_ok qr_r ->
  forall M p Z P A_1 A_2 b H Qcov Rcov bh P' ko,
  supported M M P -> supported M M A_1 -> supported M M A_2 -> supported p M H -> supported M M Qcov -> supported p p Rcov ->
  diagonal P -> diagonal Qcov -> diagonal Rcov ->
  square_root_kalman inv cholesky qr_r M p M Z P A_1 A_2 b H (eye M) Qcov Rcov = Some (bh, P') ->
  kalman_semi_implicit inv M p M Z P A_1 A_2 b H (eye M) Qcov Rcov = Some ko ->
  bh = ko_b ko /\ P' = ko_P ko.
Proof.
  intros inv cholesky qr_r Hi Hc Hq M p Z P A_1 A_2 b H Qcov Rcov bh P' ko SP S1 S2 SH SQ SR DP DQ DR E1 E2.
  destruct (C70_square_root_form_transposes_factors inv cholesky qr_r Hi Hc Hq M p Z P A_1 A_2 b H (eye M) Qcov Rcov S2 SH M bh P' E1)
    as (F & Rq & Rr & CF & CQ & CR & T); auto using diagonal_sym.
  rewrite (cholesky_diagonal _ _ _ _ Hc SP DP CF), (cholesky_diagonal _ _ _ _ Hc SQ DQ CQ), (cholesky_diagonal _ _ _ _ Hc SR DR CR) in T.
  apply (C70_plain_form_is_textbook inv Hi) in E2.
  eapply textbook_unique; [| | | | | | |exact T|exact E2]; auto using sup_eye.
Qed.

(** ** The call *)

Section Call.
Variables (inv cholesky : nat -> mat -> option mat) (qr_r : nat -> nat -> mat -> option mat).
Variables (B V I : Type).
Variable solve : I -> R -> V -> B -> option B.
Variables (A1_of : B -> mat) (A2_of : B -> R -> mat) (b_of : B -> arr) (set_b : B -> arr -> B).
Variable M : nat.
Local Notation kf SR := (kalman_filter_SR inv cholesky qr_r B V I solve A1_of A2_of b_of set_b M SR).

(** Without the switch the call is the one of C47. *)
Theorem C70_default_call_is_plain :
  forall i p a Z H C Q Rc P dt m,
  kf false i p a Z H C Q Rc P dt m = kalman_filter inv B V I solve A1_of A2_of b_of set_b M i p a Z H C Q Rc P dt m.
Proof.
  intros. unfold kalman_filter_SR, kalman_filter. cbn [negb].
  destruct (kalman_semi_implicit _ _ _ _ _ _ _ _ _ _ _ _ _) as [ko|]; [|reflexivity]. reflexivity.
Qed.

(** With the switch no call returns: no data, model, covariance or factorisation makes it work. *)
Theorem C70_square_root_call_refuted :
  forall i p a Z H C Q Rc P dt m, kf true i p a Z H C Q Rc P dt m = None.
Proof.
  intros. unfold kalman_filter_SR. cbn [negb].
  destruct (square_root_kalman _ _ _ _ _ _ _ _ _ _ _ _ _ _ _) as [[bh P']|]; reflexivity.
Qed.
End Call.

(** ** Factorisations for sizes 1 and 2 *)

Definition mat2 (n : nat) (a b c d : R) : mat := fun i j =>
  match i, j with
  | O, O => a
  | O, S O => if Nat.eqb n 2 then b else 0
  | S O, O => if Nat.eqb n 2 then c else 0
  | S O, S O => if Nat.eqb n 2 then d else 0
  | _, _ => 0 end.

Lemma mat2_supported n a b c d : (n = 1 \/ n = 2)%nat -> supported n n (mat2 n a b c d).
Proof.
  intros [->| ->] i j Hij; unfold mat2; destruct i as [|[|i]]; destruct j as [|[|j]]; simpl; auto; lia.
Qed.

Lemma cauchy_schwarz x y n : (sum_n (fun i => x i * y i) n) ^ 2 <= sum_n (fun i => x i * x i) n * sum_n (fun i => y i * y i) n.
Proof.
  induction n as [|n IH]; [simpl; lra|]. cbn [sum_n].
  assert (P1 : 0 <= sum_n (fun i => x i * x i) n) by (apply sum_n_nonneg; intros; nra).
  assert (P2 : 0 <= sum_n (fun i => y i * y i) n) by (apply sum_n_nonneg; intros; nra).
  set (sx := sum_n (fun i => x i * x i) n) in *. set (sy := sum_n (fun i => y i * y i) n) in *.
  set (sc := sum_n (fun i => x i * y i) n) in *. generalize dependent (x n). generalize dependent (y n). intros u v.
  assert (K : 2 * sc * (v * u) <= sx * u ^ 2 + sy * v ^ 2).
  { apply Rle_trans with (Rabs (2 * sc * (v * u))); [apply Rle_abs|].
    rewrite <- (Rabs_right (sx * u ^ 2 + sy * v ^ 2)) by (assert (0 <= u ^ 2) by nra; assert (0 <= v ^ 2) by nra; nra).
    apply Rsqr_le_abs_0. unfold Rsqr.
    assert (X : (2 * sc * (v * u)) * (2 * sc * (v * u)) <= 4 * (sx * u ^ 2) * (sy * v ^ 2)).
    { replace ((2 * sc * (v * u)) * (2 * sc * (v * u))) with (4 * (v ^ 2 * u ^ 2) * sc ^ 2) by ring.
      replace (4 * (sx * u ^ 2) * (sy * v ^ 2)) with (4 * (v ^ 2 * u ^ 2) * (sx * sy)) by ring.
      apply Rmult_le_compat_l; auto. assert (0 <= v ^ 2) by nra. assert (0 <= u ^ 2) by nra. nra. }
    pose proof (Rle_0_sqr (sx * u ^ 2 - sy * v ^ 2)) as Y. unfold Rsqr in Y. nra. }
  nra.
Qed.

Definition chol2 (n : nat) (A : mat) : option mat :=
  let a := A 0%nat 0%nat in
  let c := A 1%nat 0%nat in
  let d := A 1%nat 1%nat in
  if (Nat.eqb n 1 || Nat.eqb n 2) && Rltb 0 a && Rltb 0 (d - (c / sqrt a) ^ 2) || Nat.eqb n 1 && Rltb 0 a
  then Some (mat2 n (sqrt a) 0 (c / sqrt a) (sqrt (d - (c / sqrt a) ^ 2))) else None.

Definition qr2 (r n : nat) (A : mat) : option mat :=
  if Nat.eqb n 1 || Nat.eqb n 2 then
    let a := sqrt (mmul r (tr A) A 0%nat 0%nat) in
    let b := if Req_EM_T a 0 then 0 else mmul r (tr A) A 0%nat 1%nat / a in
    Some (mat2 n a b 0 (sqrt (mmul r (tr A) A 1%nat 1%nat - b ^ 2)))
  else None.

Definition inv2 (n : nat) (A : mat) : option mat :=
  let a := A 0%nat 0%nat in let b := A 0%nat 1%nat in let c := A 1%nat 0%nat in let d := A 1%nat 1%nat in
  if Nat.eqb n 1 then (if Req_EM_T a 0 then None else Some (mat2 1 (/ a) 0 0 0))
  else if Nat.eqb n 2 then
    (if Req_EM_T (a * d - b * c) 0 then None
     else Some (mat2 2 (d / (a * d - b * c)) (- b / (a * d - b * c)) (- c / (a * d - b * c)) (a / (a * d - b * c))))
  else None.

Lemma inv2_ok : inv_ok inv2.
Proof.
  intros n A B. unfold inv2.
  destruct (Nat.eqb_spec n 1) as [->|].
  - destruct (Req_EM_T _ 0); [discriminate|]. intros E; injection E as <-. split; [apply mat2_supported; auto|].
    intros i j Hi Hj. assert (i = 0)%nat as -> by lia. assert (j = 0)%nat as -> by lia. simpl. split; field; auto.
  - destruct (Nat.eqb_spec n 2) as [->|]; [|discriminate]. destruct (Req_EM_T _ 0); [discriminate|].
    intros E; injection E as <-. split; [apply mat2_supported; auto|].
    intros i j Hi Hj. destruct i as [|[|]]; [| |lia]; (destruct j as [|[|]]; [| |lia]); simpl; split; field; auto.
Qed.

Lemma chol2_ok : cholesky_ok chol2.
Proof.
  intros n A F E YA. unfold chol2 in E.
  set (a := A 0%nat 0%nat) in *. set (c := A 1%nat 0%nat) in *. set (d := A 1%nat 1%nat) in *.
  destruct (_ || _) eqn:T in E; [|discriminate]. injection E as <-.
  assert (Ha : 0 < a /\ ((n = 2)%nat /\ 0 < d - (c / sqrt a) ^ 2 \/ (n = 1)%nat)).
  { destruct (Nat.eqb_spec n 1); destruct (Nat.eqb_spec n 2); destruct (Rltb_spec 0 a); destruct (Rltb_spec 0 (d - (c / sqrt a) ^ 2));
      simpl in T; try discriminate; split; auto. }
  destruct Ha as [Ha Hn]. pose proof (sqrt_lt_R0 a Ha) as Hs. pose proof (sqrt_sqrt a (Rlt_le _ _ Ha)) as Ss.
  assert (N : (n = 1 \/ n = 2)%nat) by tauto.
  split; [apply mat2_supported; auto|].
  assert (EC : A 0%nat 1%nat = c) by (unfold c; apply YA).
  destruct Hn as [[-> Hd]| ->].
  - pose proof (sqrt_lt_R0 _ Hd) as Hs2. pose proof (sqrt_sqrt _ (Rlt_le _ _ Hd)) as Ss2.
    set (e := sqrt (d - (c / sqrt a) ^ 2)) in *.
    split; [intros i Hi; destruct i as [|[|]]; [| |lia]; simpl; auto|].
    split; [intros i j Hij; unfold mat2; destruct i as [|[|]]; destruct j as [|[|]]; simpl; auto; lia|].
    intros i j Hi Hj. unfold mmul, tr, mat2.
    destruct i as [|[|]]; [| |lia]; (destruct j as [|[|]]; [| |lia]); cbn [Nat.eqb]; cbn [sum_n]; try rewrite EC; fold a c d.
    + transitivity (sqrt a * sqrt a); [ring|exact Ss].
    + field. lra.
    + field. lra.
    + change (c / sqrt a * (c / sqrt a * 1)) with ((c / sqrt a) ^ 2). fold e. transitivity ((c / sqrt a) ^ 2 + e * e); [ring|]. rewrite Ss2. ring.
  - split; [intros i Hi; assert (i = 0)%nat as -> by lia; simpl; auto|].
    split; [intros i j Hij; unfold mat2; destruct i as [|[|]]; destruct j as [|[|]]; simpl; auto; lia|].
    intros i j Hi Hj. assert (i = 0)%nat as -> by lia. assert (j = 0)%nat as -> by lia.
    unfold mmul, tr, mat2. cbn [sum_n]. fold a. rewrite Ss. ring.
Qed.

Lemma qr2_ok : qr_ok qr2.
Proof.
  intros r n A F. unfold qr2.
  destruct (Nat.eqb n 1 || Nat.eqb n 2) eqn:T; [|discriminate].
  assert (N : (n = 1 \/ n = 2)%nat) by (destruct (Nat.eqb_spec n 1); destruct (Nat.eqb_spec n 2); simpl in T; try discriminate; auto).
  set (g := mmul r (tr A) A).
  assert (G0 : 0 <= g 0%nat 0%nat) by (unfold g, mmul, tr; apply sum_n_nonneg; intros; nra).
  assert (G1 : 0 <= g 1%nat 1%nat) by (unfold g, mmul, tr; apply sum_n_nonneg; intros; nra).
  assert (CS : (g 0%nat 1%nat) ^ 2 <= g 0%nat 0%nat * g 1%nat 1%nat) by (unfold g, mmul, tr; apply cauchy_schwarz).
  assert (GS : g 1%nat 0%nat = g 0%nat 1%nat) by (unfold g; apply gram_sym).
  set (a := sqrt (g 0%nat 0%nat)).
  set (b := if Req_EM_T a 0 then 0 else g 0%nat 1%nat / a).
  intros E; injection E as <-.
  assert (Sa : a * a = g 0%nat 0%nat) by (apply sqrt_sqrt; auto).
  assert (Pa : 0 <= a) by apply sqrt_pos.
  assert (AB : a * b = g 0%nat 1%nat).
  { unfold b. destruct (Req_EM_T a 0) as [Z|Z]; [|field; auto].
    assert (g 0%nat 1%nat ^ 2 <= 0) by (rewrite <- Sa, Z in CS; lra). nra. }
  assert (PB : 0 <= g 1%nat 1%nat - b ^ 2).
  { unfold b. destruct (Req_EM_T a 0) as [Z|Z]; [simpl; lra|].
    assert (0 < a) by lra. assert (0 < a ^ 2) by nra.
    apply Rmult_le_reg_l with (a ^ 2); auto. rewrite Rmult_0_r.
    replace (a ^ 2 * (g 1%nat 1%nat - (g 0%nat 1%nat / a) ^ 2)) with (a * a * g 1%nat 1%nat - g 0%nat 1%nat ^ 2) by (field; auto).
    rewrite Sa. lra. }
  pose proof (sqrt_sqrt _ PB) as SS.
  split; [apply mat2_supported; auto|].
  split; [intros i j Hij; unfold mat2; destruct i as [|[|]]; destruct j as [|[|]]; try destruct (Nat.eqb n 2); simpl; auto; lia|].
  intros i j Hi Hj. unfold mmul at 1, tr at 1, mat2.
  destruct N as [->| ->].
  - assert (i = 0)%nat as -> by lia. assert (j = 0)%nat as -> by lia. cbn [Nat.eqb]. cbn [sum_n]. fold g. lra.
  - destruct i as [|[|]]; [| |lia]; (destruct j as [|[|]]; [| |lia]); cbn [Nat.eqb]; cbn [sum_n]; fold g; try rewrite GS;
      try change (b * (b * 1)) with (b ^ 2); lra.
Qed.

(** ** The forms differ *)

(** Two heads with prior covariance ((4,2),(2,2)), unit process and measurement noise, the first head observed at 1 where
    the model predicts 0.  The plain form corrects it to 5/6; the square-root form to 6/7 (and the second to 1/7 instead
    of 1/3), with any factorisations that do what NumPy promises.  Both do return with the ones above. *)
Definition P22 : mat := mat2 2 4 2 2 2.
Definition H12 : mat := fun i j => if Nat.eqb i 0 && Nat.eqb j 0 then 1 else 0.

Lemma supp22 a b c d : supported 2 2 (mat2 2 a b c d).
Proof. apply mat2_supported; auto. Qed.
Lemma H12_supp : supported 1 2 H12.
Proof. intros i j Hij. unfold H12. destruct i as [|i]; destruct j as [|j]; simpl; auto. lia. Qed.
Lemma sym22 a b d : symmetric (mat2 2 a b b d).
Proof. intros i j. destruct i as [|[|]]; destruct j as [|[|]]; reflexivity. Qed.
Lemma eye_sym n : symmetric (eye n).
Proof. apply tr_sym, eye_tr. Qed.
Lemma eye_diag n : diagonal (eye n).
Proof. intros i j Ne. unfold eye. apply Nat.eqb_neq in Ne. rewrite Ne, andb_false_r. reflexivity. Qed.
Lemma inverse_eye n Ai : inverse n (eye n) Ai -> Ai = eye n.
Proof.
  intros I. destruct (inverse_eq n (eye n) Ai (sup_eye n) I) as [E _]. rewrite <- E. symmetry. apply (eye_l n n), (proj1 I).
Qed.

(** The textbook result for these data, for any prior covariance with entries (q, r; r, w). *)
Lemma textbook22 q r w bh P' : textbook 2 1 2 (one_v 1) (mat2 2 q r r w) (eye 2) (eye 2) zeros H12 (eye 2) (eye 2) (eye 1) bh P' ->
  0 < q -> bh 0%nat = (q + 1) / (q + 2) /\ bh 1%nat = r / (q + 2).
Proof.
  intros (Ai & P1 & Si & K & x & I1 & -> & I2 & -> & -> & -> & _) Hq.
  apply inverse_eye in I1. subst Ai.
  assert (EP : madd (mmul 2 (mmul 2 (mmul 2 (mmul 2 (eye 2) (eye 2)) (mat2 2 q r r w)) (tr (eye 2))) (tr (eye 2)))
            (mmul 2 (mmul 2 (eye 2) (eye 2)) (tr (eye 2))) = madd (mat2 2 q r r w) (eye 2)).
  { rewrite !eye_tr, !(eye_l 2 2 (eye 2)) by apply sup_eye. rewrite !(eye_l 2 2 (mat2 2 q r r w)) by apply supp22.
    rewrite !(eye_r 2 2 (mat2 2 q r r w)) by apply supp22. reflexivity. }
  rewrite EP in *. clear EP.
  pose proof (proj2 I2 0%nat 0%nat ltac:(lia) ltac:(lia)) as [X _].
  unfold madd, mmul, tr, H12, eye in X. cbn in X.
  assert (ES : Si 0%nat 0%nat = / (q + 2)).
  { apply Rmult_eq_reg_l with (q + 2); [|lra]. rewrite Rinv_r by lra. lra. }
  unfold mvec, vadd, vsub, mmul, madd, tr, H12, eye, one_v, zeros. cbn. rewrite ES. split; field; lra.
Qed.

Lemma textbook22_transposed inv cholesky qr_r bh P' : inv_ok inv -> cholesky_ok cholesky -> qr_ok qr_r ->
  square_root_kalman inv cholesky qr_r 2 1 2 (one_v 1) P22 (eye 2) (eye 2) zeros H12 (eye 2) (eye 2) (eye 1) = Some (bh, P') ->
  bh 0%nat = 6 / 7 /\ bh 1%nat = 1 / 7.
Proof.
  intros Hi Hc Hq E.
  destruct (C70_square_root_form_transposes_factors inv cholesky qr_r Hi Hc Hq 2 1 (one_v 1) P22 (eye 2) (eye 2) zeros H12 (eye 2)
    (eye 2) (eye 1) (sup_eye 2) H12_supp 2 bh P' E (sym22 _ _ _) (eye_sym 2) (eye_sym 1)) as (F & Rq & Rr & CF & CQ & CR & T).
  rewrite (cholesky_diagonal _ _ _ _ Hc (sup_eye 2) (eye_diag 2) CQ), (cholesky_diagonal _ _ _ _ Hc (sup_eye 1) (eye_diag 1) CR) in T.
  destruct (Hc _ _ _ CF (sym22 _ _ _)) as (SF & Hpos & Hlow & HG).
  pose proof (Hpos 0%nat ltac:(lia)) as p0. pose proof (Hpos 1%nat ltac:(lia)) as p1. pose proof (Hlow 0%nat 1%nat ltac:(lia)) as z.
  pose proof (HG 0%nat 0%nat ltac:(lia) ltac:(lia)) as g0. pose proof (HG 1%nat 0%nat ltac:(lia) ltac:(lia)) as g1.
  pose proof (HG 1%nat 1%nat ltac:(lia) ltac:(lia)) as g2. unfold mmul, tr, P22, mat2 in g0, g1, g2. cbn in g0, g1, g2. rewrite z in *.
  assert (f0 : F 0%nat 0%nat = 2) by nra.
  assert (f1 : F 1%nat 0%nat = 1) by (rewrite f0 in g1; lra).
  assert (f2 : F 1%nat 1%nat = 1) by (rewrite f1 in g2; nra).
  assert (EF : mmul 2 (tr F) F = mat2 2 5 1 1 1).
  { apply (mat_ext 2 2); [eapply sup_mmul; [apply sup_tr|]; exact SF|apply supp22|].
    intros i j Hi' Hj'. unfold mmul, tr. destruct i as [|[|]]; [| |lia]; (destruct j as [|[|]]; [| |lia]);
      cbn; rewrite ?f0, ?f1, ?f2, ?z; lra. }
  rewrite EF in T. destruct (textbook22 _ _ _ _ _ T ltac:(lra)) as [-> ->]. split; lra.
Qed.

(** With the factorisations above both forms return for these data, whatever the prior covariance, if it has a factor. *)
Lemma both_return q r w : 0 < q -> 0 < w - (r / sqrt q) ^ 2 ->
  (exists x, square_root_kalman inv2 chol2 qr2 2 1 2 (one_v 1) (mat2 2 q r r w) (eye 2) (eye 2) zeros H12 (eye 2) (eye 2) (eye 1) = Some x) /\
  exists ko, kalman_semi_implicit inv2 2 1 2 (one_v 1) (mat2 2 q r r w) (eye 2) (eye 2) zeros H12 (eye 2) (eye 2) (eye 1) = Some ko.
Proof.
  intros Hq Hw.
    assert (IE : exists Ai, inv2 2 (eye 2) = Some Ai).
    { unfold inv2, eye. cbn. destruct (Req_EM_T _ 0); [exfalso; lra|eauto]. }
    destruct IE as [Ai IE]. split.
    + unfold square_root_kalman. rewrite IE. cbn [bind].
      assert (CQ : exists Rq, chol2 2 (eye 2) = Some Rq).
      { unfold chol2, eye. cbn [Nat.eqb Nat.ltb Nat.leb andb orb]. destruct (Rltb_spec 0 1); [|lra].
        destruct (Rltb_spec 0 (1 - (0 / sqrt 1) ^ 2)); [cbn; eauto|]. exfalso. rewrite sqrt_1 in *. lra. }
      assert (CR : chol2 1 (eye 1) = Some (mat2 1 1 0 (0 / 1) (sqrt (0 - (0 / 1) ^ 2)))).
      { unfold chol2, eye. cbn [Nat.eqb Nat.ltb Nat.leb andb orb]. destruct (Rltb_spec 0 1); [|lra]. rewrite sqrt_1.
        rewrite orb_true_r. reflexivity. }
      assert (CF : exists F, chol2 2 (mat2 2 q r r w) = Some F).
      { unfold chol2, mat2. cbn [Nat.eqb andb orb]. destruct (Rltb_spec 0 q); [|lra].
        destruct (Rltb_spec 0 (w - (r / sqrt q) ^ 2)); [cbn; eauto|]. exfalso. lra. }
      destruct CQ as [Rq ->]. rewrite CR. destruct CF as [F ->]. cbn [bind Nat.eqb negb].
      set (V1 := vstack 2 _ Rq). assert (Q1 : exists Fb, qr2 (2 + 2) 2 V1 = Some Fb) by (unfold qr2; cbn [Nat.eqb orb]; eauto).
      destruct Q1 as [Fb ->]. cbn [bind].
      set (V2 := vstack 2 (mmul 2 Fb (tr H12)) _).
      assert (Q2 : exists G, qr2 (2 + 1) 1 V2 = Some G) by (unfold qr2; cbn [Nat.eqb orb]; eauto).
      destruct Q2 as [G EG]. rewrite EG. cbn [bind].
      assert (G0 : G 0%nat 0%nat <> 0).
      { destruct (qr2_ok _ _ _ _ EG) as (_ & _ & X). specialize (X 0%nat 0%nat ltac:(lia) ltac:(lia)).
        unfold mmul at 1, tr at 1 in X. cbn [sum_n] in X. unfold V2 in X. rewrite gram_vstack in X. unfold madd in X.
        assert (0 <= mmul 2 (tr (mmul 2 Fb (tr H12))) (mmul 2 Fb (tr H12)) 0%nat 0%nat).
        { unfold mmul at 1, tr at 1. apply sum_n_nonneg. intros. nra. }
        unfold mmul at 4, tr at 3 in X. cbn in X. intros Z. rewrite Z in X. pose proof (Rle_0_sqr (Fb 0%nat 0%nat)). pose proof (Rle_0_sqr (Fb 1%nat 0%nat)). unfold Rsqr in *. lra. }
      assert (IG : exists Gi, inv2 1 G = Some Gi).
      { unfold inv2. cbn [Nat.eqb]. destruct (Req_EM_T _ 0); [contradiction|eauto]. }
      destruct IG as [Gi ->]. cbn [bind].
      set (V3 := vstack 2 _ _). assert (Q3 : exists Fh, qr2 (2 + 1) 2 V3 = Some Fh) by (unfold qr2; cbn [Nat.eqb orb]; eauto).
      destruct Q3 as [Fh ->]. cbn [bind]. eauto.
    + unfold kalman_semi_implicit. rewrite IE. cbn [bind].
      pose proof (inverse_eye _ _ (inv2_ok _ _ _ IE)) as ->.
      match goal with |- context [inv2 1 ?X] => assert (IS : exists Si, inv2 1 X = Some Si) end.
      { unfold inv2. cbn [Nat.eqb]. destruct (Req_EM_T _ 0) as [Z|]; [|eauto]. exfalso.
        unfold madd, mmul, tr, H12, eye, mat2 in Z. cbn in Z. lra. }
      destruct IS as [Si ->]. cbn [bind]. eauto.
Qed.

Theorem C70_forms_agree_refuted :
  (forall inv cholesky qr_r bh P' ko, inv_ok inv -> cholesky_ok cholesky -> qr_ok qr_r ->
     square_root_kalman inv cholesky qr_r 2 1 2 (one_v 1) P22 (eye 2) (eye 2) zeros H12 (eye 2) (eye 2) (eye 1) = Some (bh, P') ->
     kalman_semi_implicit inv 2 1 2 (one_v 1) P22 (eye 2) (eye 2) zeros H12 (eye 2) (eye 2) (eye 1) = Some ko ->
     bh 0%nat = 6 / 7 /\ bh 1%nat = 1 / 7 /\ ko_b ko 0%nat = 5 / 6 /\ ko_b ko 1%nat = 1 / 3) /\
  (inv_ok inv2 /\ cholesky_ok chol2 /\ qr_ok qr2 /\
   (exists r, square_root_kalman inv2 chol2 qr2 2 1 2 (one_v 1) P22 (eye 2) (eye 2) zeros H12 (eye 2) (eye 2) (eye 1) = Some r) /\
   exists ko, kalman_semi_implicit inv2 2 1 2 (one_v 1) P22 (eye 2) (eye 2) zeros H12 (eye 2) (eye 2) (eye 1) = Some ko).
Proof.
  split.
  - intros inv cholesky qr_r bh P' ko Hi Hc Hq E1 E2.
    destruct (textbook22_transposed _ _ _ _ _ Hi Hc Hq E1) as [-> ->].
    apply (C70_plain_form_is_textbook inv Hi) in E2. destruct (textbook22 _ _ _ _ _ E2 ltac:(lra)) as [-> ->].
    repeat split; lra.
  - split; [exact inv2_ok|]. split; [exact chol2_ok|]. split; [exact qr2_ok|].
    assert (S4 : sqrt 4 = 2) by (replace 4 with (2 * 2) by ring; apply sqrt_square; lra).
    apply both_return; [lra|]. rewrite S4. lra.
Qed.

(** Witness for the diagonal case: prior variances 4 and 2. *)
Example C70_example :
  exists bh P' ko,
    square_root_kalman inv2 chol2 qr2 2 1 2 (one_v 1) (mat2 2 4 0 0 2) (eye 2) (eye 2) zeros H12 (eye 2) (eye 2) (eye 1) = Some (bh, P') /\
    kalman_semi_implicit inv2 2 1 2 (one_v 1) (mat2 2 4 0 0 2) (eye 2) (eye 2) zeros H12 (eye 2) (eye 2) (eye 1) = Some ko /\
    bh = ko_b ko /\ P' = ko_P ko /\ bh 0%nat = 5 / 6.
Proof.
  destruct (both_return 4 0 2) as [[[bh P'] E1] [ko E2]]; [lra| |].
  { replace (0 / sqrt 4) with 0 by (unfold Rdiv; ring). lra. }
  exists bh, P', ko. split; [exact E1|]. split; [exact E2|].
  assert (D : diagonal (mat2 2 4 0 0 2)) by (intros i j Ne; destruct i as [|[|]]; destruct j as [|[|]]; auto; lia).
  destruct (C70_forms_agree_for_diagonal_covariances inv2 chol2 qr2 inv2_ok chol2_ok qr2_ok 2 1 (one_v 1) (mat2 2 4 0 0 2) (eye 2) (eye 2)
    zeros H12 (eye 2) (eye 1) bh P' ko) as [-> ->]; auto using sup_eye, eye_diag, supp22, H12_supp.
  split; [reflexivity|]. split; [reflexivity|].
  apply (C70_plain_form_is_textbook inv2 inv2_ok) in E2. destruct (textbook22 _ _ _ _ _ E2 ltac:(lra)) as [-> _]. lra.
Qed.
