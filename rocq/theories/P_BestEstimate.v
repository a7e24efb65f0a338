(** Property C92: assimilated heads are the best estimate, and the reported covariance is that of their errors. *)
From Coq Require Import ZArith FunctionalExtensionality.
From Verif Require Import Prelude M_Coeffs M_Assembly M_Recurrence S_Network M_Simulation M_Kalman M_Export P_Assembly P_Export P_Kalman P_SquareRoot.

(** ** Specification: random vectors and their second moments

    [E] is an expectation over outcomes [O]: linear and positive. Nothing else is assumed of it, so it may be a
    probability measure, a frequency in data or a single outcome. *)
Record expectation {O : Type} (E : (O -> R) -> R) : Prop := mkExp {
  e_add : forall f g, E (fun o => f o + g o) = E f + E g;
  e_scal : forall c f, E (fun o => c * f o) = c * E f;
  e_pos : forall f, (forall o, 0 <= f o) -> 0 <= E f }.
(** Second moments of the entries of two random vectors. *)
Definition moments {O} (E : (O -> R) -> R) (n m : nat) (U V : O -> arr) : mat :=
  fun i j => if Nat.ltb i n && Nat.ltb j m then E (fun o => U o i * V o j) else 0.
Definition uncorrelated {O} (E : (O -> R) -> R) (n m : nat) (U V : O -> arr) : Prop :=
  forall i j, (i < n)%nat -> (j < m)%nat -> E (fun o => U o i * V o j) = 0.
Definition has_moments {O} (E : (O -> R) -> R) (n : nat) (U : O -> arr) (P : mat) : Prop :=
  forall i j, (i < n)%nat -> (j < n)%nat -> E (fun o => U o i * U o j) = P i j.
Definition vsized {O} (n : nat) (U : O -> arr) : Prop := forall o, vsupported n (U o).
(** A weighted sum of heads. *)
Definition dot (n : nat) (w v : arr) : R := sum_n (fun i => w i * v i) n.

Section Expect.
Context {O : Type} (E : (O -> R) -> R) (HE : expectation E).

Lemma E_zero f : (forall o, f o = 0) -> E f = 0.
Proof.
  intros H. replace f with (fun o => 0 * f o) by (apply functional_extensionality; intro; rewrite H; ring).
  rewrite (e_scal E HE). ring.
Qed.
Lemma E_opp f : E (fun o => - f o) = - E f.
Proof.
  replace (fun o => - f o) with (fun o => (-1) * f o) by (apply functional_extensionality; intro; ring).
  rewrite (e_scal E HE). ring.
Qed.
Lemma E_ext f g : (forall o, f o = g o) -> E f = E g.
Proof. intros H. f_equal. apply functional_extensionality, H. Qed.
Lemma E_sum (f : nat -> O -> R) n : E (fun o => sum_n (fun i => f i o) n) = sum_n (fun i => E (f i)) n.
Proof.
  induction n as [|n IH]; cbn [sum_n]; [apply E_zero; reflexivity|].
  rewrite <- IH. apply (e_add E HE (fun o => sum_n (fun i => f i o) n) (f n)).
Qed.

Lemma moments_sup n m U V : supported n m (moments E n m U V).
Proof.
  intros i j [L|L]; unfold moments.
  - apply Nat.ltb_ge in L. now rewrite L.
  - apply Nat.ltb_ge in L. rewrite L. now rewrite andb_false_r.
Qed.
Lemma moments_tr n m U V : tr (moments E n m U V) = moments E m n V U.
Proof.
  fext. unfold tr, moments. rewrite andb_comm. destruct (_ && _); auto. apply E_ext. intros; ring.
Qed.
Lemma moments_mvec n k m A U V : supported n k A ->
  moments E n m (fun o => mvec k A (U o)) V = mmul k A (moments E k m U V).
Proof.
  intros SA. fext. unfold moments at 1, mmul.
  destruct (Nat.ltb_spec x n) as [Lx|Lx]; cbn [andb].
  2:{ symmetry. apply sum_n_0. intros. rewrite SA by auto. ring. }
  destruct (Nat.ltb_spec x0 m) as [L0|L0].
  2:{ symmetry. apply sum_n_0. intros. rewrite moments_sup by auto. ring. }
  rewrite (sum_n_ext _ (fun l => E (fun o => A x l * (U o l * V o x0)))).
  2:{ intros l Hl. rewrite (e_scal E HE). unfold moments. apply Nat.ltb_lt in Hl. apply Nat.ltb_lt in L0. rewrite Hl, L0. reflexivity. }
  rewrite <- E_sum. apply E_ext. intros o. unfold mvec. rewrite <- sum_n_scal_r. apply sum_n_ext; intros; ring.
Qed.
Lemma moments_add n m U U' V : moments E n m (fun o => vadd (U o) (U' o)) V = madd (moments E n m U V) (moments E n m U' V).
Proof.
  fext. unfold madd, moments. destruct (_ && _); [|ring].
  rewrite <- (e_add E HE). apply E_ext. intros; unfold vadd; ring.
Qed.
Lemma moments_sub n m U U' V : moments E n m (fun o => vsub (U o) (U' o)) V = msub (moments E n m U V) (moments E n m U' V).
Proof.
  fext. unfold msub, moments. destruct (_ && _); [|ring].
  unfold Rminus. rewrite <- E_opp, <- (e_add E HE). apply E_ext. intros; unfold vsub; ring.
Qed.
Lemma moments_mvec_r n k m A U V : supported m k A ->
  moments E n m U (fun o => mvec k A (V o)) = mmul k (moments E n k U V) (tr A).
Proof.
  intros SA. rewrite <- moments_tr, (moments_mvec m k n A V U SA), tr_mmul, moments_tr. reflexivity.
Qed.
Lemma moments_add_r n m U V V' : moments E n m U (fun o => vadd (V o) (V' o)) = madd (moments E n m U V) (moments E n m U V').
Proof. rewrite <- moments_tr, moments_add, tr_madd, !moments_tr. reflexivity. Qed.
Lemma moments_sub_r n m U V V' : moments E n m U (fun o => vsub (V o) (V' o)) = msub (moments E n m U V) (moments E n m U V').
Proof. rewrite <- moments_tr, moments_sub, tr_msub, !moments_tr. reflexivity. Qed.

Lemma has_moments_eq n U P : supported n n P -> has_moments E n U P <-> moments E n n U U = P.
Proof.
  intros SP. split.
  - intros H. fext. unfold moments. destruct (Nat.ltb_spec x n) as [Lx|Lx]; cbn [andb]; [|symmetry; apply SP; auto].
    destruct (Nat.ltb_spec x0 n) as [L0|L0]; [apply H; auto|symmetry; apply SP; auto].
  - intros H i j Hi Hj. rewrite <- H. unfold moments. apply Nat.ltb_lt in Hi, Hj. now rewrite Hi, Hj.
Qed.
Definition mzero : mat := fun _ _ => 0.
Lemma uncorrelated_eq n m U V : uncorrelated E n m U V <-> moments E n m U V = mzero.
Proof.
  split.
  - intros H. fext. unfold moments, mzero. destruct (Nat.ltb_spec x n) as [Lx|Lx]; cbn [andb]; [|auto].
    destruct (Nat.ltb_spec x0 m) as [L0|L0]; [apply H; auto|auto].
  - intros H i j Hi Hj. pose proof (f_equal (fun X : mat => X i j) H) as G. cbv beta in G. unfold moments, mzero in G.
    apply Nat.ltb_lt in Hi, Hj. now rewrite Hi, Hj in G.
Qed.
Lemma mmul_zero_r k A : mmul k A mzero = mzero.
Proof. fext. unfold mmul, mzero. apply sum_n_0. intros; ring. Qed.
Lemma mmul_zero_l k A : mmul k mzero A = mzero.
Proof. fext. unfold mmul, mzero. apply sum_n_0. intros; ring. Qed.
Lemma madd_zero_r A : madd A mzero = A.
Proof. fext. unfold madd, mzero. ring. Qed.
Lemma madd_zero_l A : madd mzero A = A.
Proof. fext. unfold madd, mzero. ring. Qed.
Lemma msub_zero_r A : msub A mzero = A.
Proof. fext. unfold msub, mzero. ring. Qed.
Lemma tr_zero : tr mzero = mzero.
Proof. reflexivity. Qed.
Lemma msub_self A : msub A A = mzero.
Proof. fext. unfold msub, mzero. ring. Qed.

(** Mean square of a weighted sum. *)
Lemma dot_moments n w U : E (fun o => dot n w (U o) * dot n w (U o)) = quad n (moments E n n U U) w.
Proof.
  unfold quad, mvec.
  rewrite (sum_n_ext _ (fun i => E (fun o => w i * (U o i * dot n w (U o))))).
  2:{ intros i Hi. rewrite (e_scal E HE). f_equal.
      rewrite (sum_n_ext _ (fun l => E (fun o => w l * (U o i * U o l)))).
      2:{ intros l Hl. rewrite (e_scal E HE). unfold moments. apply Nat.ltb_lt in Hi, Hl. rewrite Hi, Hl. cbn [andb]. ring. }
      rewrite <- E_sum. apply E_ext. intros o. unfold dot. rewrite <- sum_n_scal. apply sum_n_ext; intros; ring. }
  rewrite <- E_sum. apply E_ext. intros o. unfold dot at 1. rewrite <- sum_n_scal_r. apply sum_n_ext; intros; ring.
Qed.
Lemma moments_psd n U : psd n (moments E n n U U).
Proof. intros w. rewrite <- dot_moments. apply (e_pos E HE). intros o. nra. Qed.
End Expect.

(** ** One assimilation *)

(** What the filter is told about the world. [X0], [X1]: the true heads before and after the step; [x0]: the estimate
    before it; [W], [V]: what the model and the gauges do not know. The true heads obey the model's own equations
    A_1 x' = b with, in b, the true instead of the estimated heads before, and with the noise C W added; the gauges read
    Z = H X1 + V. The covariances handed to the filter are those of the errors, and the errors are uncorrelated. *)
Record world {O : Type} (E : (O -> R) -> R) (M p a : nat) (P A_1 A_2 H C Qcov Rcov : mat)
  (b Z : O -> arr) (x0 X0 X1 W V : O -> arr) : Prop := mkWorld {
  w_P : has_moments E M (fun o => vsub (X0 o) (x0 o)) P;
  w_Q : has_moments E a W Qcov;
  w_R : has_moments E p V Rcov;
  w_eW : uncorrelated E M a (fun o => vsub (X0 o) (x0 o)) W;
  w_eV : uncorrelated E M p (fun o => vsub (X0 o) (x0 o)) V;
  w_WV : uncorrelated E a p W V;
  w_true : forall o, mvec M A_1 (vsub (X1 o) (mvec a C (W o))) = vadd (b o) (mvec M A_2 (vsub (X0 o) (x0 o)));
  w_read : forall o, Z o = vadd (mvec M H (X1 o)) (V o);
  w_sX0 : vsized M X0; w_sx0 : vsized M x0; w_sX1 : vsized M X1; w_sV : vsized p V; w_sb : vsized M b }.

Section One.
Variable inv : nat -> mat -> option mat.
Hypothesis inv_ok : forall n A B, inv n A = Some B -> inverse n A B.
Context {O : Type} (E : (O -> R) -> R) (HE : expectation E).
Variables (M p a : nat) (P A_1 A_2 H C Qcov Rcov : mat) (b Z x0 X0 X1 W V : O -> arr).
Hypothesis (SP : supported M M P) (S1 : supported M M A_1) (S2 : supported M M A_2).
Hypothesis (SH : supported p M H) (SC : supported M a C) (SQ : supported a a Qcov) (SR : supported p p Rcov).
Hypothesis HW : world E M p a P A_1 A_2 H C Qcov Rcov b Z x0 X0 X1 W V.
(** For every outcome the filter returns, and [x1] is the head vector of the corrected system. *)
Variables (ko : O -> kalman_out) (x1 : O -> arr).
Hypothesis Hko : forall o, kalman_semi_implicit inv M p a (Z o) P A_1 A_2 (b o) H C Qcov Rcov = Some (ko o).
Hypothesis Hx1 : forall o, vsupported M (x1 o) /\ mvec M A_1 (x1 o) = ko_b (ko o).

(** The gain and the covariances do not depend on the outcome. *)
Lemma gain : forall o : O, exists Ai Si, inverse M A_1 Ai /\
    let P1 := madd (mmul M (mmul M (mmul M (mmul M Ai A_2) P) (tr A_2)) (tr Ai)) (mmul a (mmul a C Qcov) (tr C)) in
    let S := madd (mmul M (mmul M H P1) (tr H)) Rcov in
    let L := mmul p (mmul M P1 (tr H)) Si in
    inverse p S Si /\ supported M M P1 /\ supported p p S /\ supported M p L /\
    forall o', let x := mvec M Ai (b o') in
      ko_P (ko o') = mmul M (msub (eye M) (mmul p L H)) P1 /\ ko_Pzz (ko o') = S /\
      x1 o' = vadd x (mvec p L (vsub (Z o') (mvec M H x))).
Proof.
  intros o.
  assert (G : forall o' : O, exists Ai Si, inv M A_1 = Some Ai /\
    let P1 := madd (mmul M (mmul M (mmul M (mmul M Ai A_2) P) (tr A_2)) (tr Ai)) (mmul a (mmul a C Qcov) (tr C)) in
    let S := madd (mmul M (mmul M H P1) (tr H)) Rcov in
    let L := mmul p (mmul M P1 (tr H)) Si in
    inv p S = Some Si /\
    let x := mvec M Ai (b o') in
      ko_P (ko o') = mmul M (msub (eye M) (mmul p L H)) P1 /\ ko_Pzz (ko o') = S /\
      ko_b (ko o') = mvec M A_1 (vadd x (mvec p L (vsub (Z o') (mvec M H x))))).
  { intros o'. pose proof (Hko o') as K. unfold kalman_semi_implicit in K.
    destruct (inv M A_1) as [Ai|] eqn:EA; [|discriminate]. cbn [bind] in K.
    destruct (inv p _) as [Si|] eqn:ES; [|discriminate]. cbn [bind] in K.
    injection K as K. exists Ai, Si. split; auto. cbv zeta. split; [exact ES|]. rewrite <- K. cbn [ko_b ko_P ko_Pzz]. auto. }
  destruct (G o) as (Ai & Si & EA & G'). cbv zeta in G'. destruct G' as (ES & _).
  exists Ai, Si. pose proof (inv_ok _ _ _ EA) as IA. split; [exact IA|]. cbv zeta.
  set (P1 := madd (mmul M (mmul M (mmul M (mmul M Ai A_2) P) (tr A_2)) (tr Ai)) (mmul a (mmul a C Qcov) (tr C))) in *.
  pose proof (inv_ok _ _ _ ES) as IS.
  assert (SP1 : supported M M P1).
  { unfold P1. apply sup_madd.
    - eapply sup_mmul; [eapply sup_mmul; [eapply sup_mmul; [eapply sup_mmul; [apply IA|exact S2]|exact SP]|apply sup_tr, S2]|apply sup_tr, IA].
    - eapply sup_mmul; [eapply sup_mmul; [exact SC|exact SQ]|apply sup_tr, SC]. }
  assert (SL : supported M p (mmul p (mmul M P1 (tr H)) Si)).
  { eapply sup_mmul; [eapply sup_mmul; [exact SP1|apply sup_tr, SH]|apply IS]. }
  split; [exact IS|]. split; [exact SP1|].
  split; [apply sup_madd; auto; eapply sup_mmul; [eapply sup_mmul; [exact SH|exact SP1]|apply sup_tr, SH]|].
  split; [exact SL|].
  intros o'. destruct (G o') as (Ai' & Si' & EA' & G'). cbv zeta in G'. destruct G' as (ES' & EP & EZ & Eb).
  rewrite EA in EA'. injection EA' as <-. fold P1 in ES', EP, EZ, Eb. rewrite ES in ES'. injection ES' as <-.
  split; [exact EP|]. split; [exact EZ|].
  destruct (Hx1 o') as [Sx Ex]. rewrite Eb in Ex.
  apply (solve_unique M A_1 S1 Ai); auto.
  intros i Hi. unfold vadd. rewrite (vsup_mvec M M M Ai (b o') (proj1 IA)) by auto.
  rewrite (vsup_mvec p M p _ _ SL) by auto. ring.
Qed.

(** Errors of the prediction and of the estimate, in terms of what was unknown. *)
Lemma errors : forall o : O, exists Ai Si, inverse M A_1 Ai /\
    let P1 := madd (mmul M (mmul M (mmul M (mmul M Ai A_2) P) (tr A_2)) (tr Ai)) (mmul a (mmul a C Qcov) (tr C)) in
    let S := madd (mmul M (mmul M H P1) (tr H)) Rcov in
    let L := mmul p (mmul M P1 (tr H)) Si in
    let e := fun o => vadd (mvec M (mmul M Ai A_2) (vsub (X0 o) (x0 o))) (mvec a C (W o)) in
    let d := fun o => vadd (mvec M H (e o)) (V o) in
    inverse p S Si /\ supported M M P1 /\ supported p p S /\ supported M p L /\
    moments E M M e e = P1 /\ moments E M p e d = mmul M P1 (tr H) /\ moments E p p d d = S /\
    forall o', ko_P (ko o') = msub P1 (mmul p L (mmul M H P1)) /\
      vsub (X1 o') (mvec M Ai (b o')) = e o' /\ vsub (Z o') (mvec M H (mvec M Ai (b o'))) = d o' /\
      vsub (X1 o') (x1 o') = vsub (e o') (mvec p L (d o')).
Proof.
  intros o. destruct (gain o) as (Ai & Si & IA & G). cbv zeta in G. exists Ai, Si. split; [exact IA|]. cbv zeta.
  set (P1 := madd (mmul M (mmul M (mmul M (mmul M Ai A_2) P) (tr A_2)) (tr Ai)) (mmul a (mmul a C Qcov) (tr C))) in *.
  set (L := mmul p (mmul M P1 (tr H)) Si) in *.
  destruct G as (IS & SP1 & SS & SL & G).
  set (e := fun o => vadd (mvec M (mmul M Ai A_2) (vsub (X0 o) (x0 o))) (mvec a C (W o))).
  set (d := fun o => vadd (mvec M H (e o)) (V o)).
  destruct HW as [wP wQ wR weW weV wWV wt wr sX0 sx0 sX1 sV sb].
  apply (has_moments_eq E) in wP; auto. apply (has_moments_eq E) in wQ; auto. apply (has_moments_eq E) in wR; auto.
  apply uncorrelated_eq in weW, weV, wWV.
  assert (SAA : supported M M (mmul M Ai A_2)) by (eapply sup_mmul; [apply IA|exact S2]).
  set (e0 := fun o => vsub (X0 o) (x0 o)) in *.
  assert (We : moments E a M W e0 = mzero) by (rewrite <- moments_tr, weW; reflexivity).
  assert (Ve : moments E p M V e0 = mzero) by (rewrite <- moments_tr, weV; reflexivity).
  assert (VW : moments E p a V W = mzero) by (rewrite <- moments_tr, wWV; reflexivity).
  assert (Eee : moments E M M e e = P1).
  { unfold e at 1. rewrite (moments_add E HE), !(moments_mvec E HE) by auto.
    unfold e. rewrite !(moments_add_r E HE), !(moments_mvec_r E HE) by auto. fold e0. rewrite wP, wQ, weW, We.
    rewrite !mmul_zero_l, madd_zero_r, madd_zero_l. unfold P1. f_equal.
    - rewrite tr_mmul, !mmul_assoc. reflexivity.
    - rewrite mmul_assoc. reflexivity. }
  assert (EeV : moments E M p e V = mzero).
  { unfold e. rewrite (moments_add E HE), !(moments_mvec E HE) by auto. fold e0. rewrite weV, wWV, !mmul_zero_r. apply madd_zero_r. }
  assert (Eed : moments E M p e d = mmul M P1 (tr H)).
  { unfold d. rewrite (moments_add_r E HE), (moments_mvec_r E HE) by auto. change (fun o0 : O => e o0) with e.
    change (fun o0 : O => V o0) with V. rewrite Eee, EeV. apply madd_zero_r. }
  assert (EVe : moments E p M V e = mzero) by (rewrite <- moments_tr, EeV; reflexivity).
  assert (Edd : moments E p p d d = madd (mmul M (mmul M H P1) (tr H)) Rcov).
  { unfold d at 1. rewrite (moments_add E HE), (moments_mvec E HE) by auto. change (fun o0 : O => e o0) with e.
    change (fun o0 : O => V o0) with V. rewrite Eed. unfold d.
    rewrite (moments_add_r E HE), (moments_mvec_r E HE) by auto. change (fun o0 : O => e o0) with e.
    change (fun o0 : O => V o0) with V. rewrite EVe, mmul_zero_l, wR, madd_zero_l, mmul_assoc. reflexivity. }
  split; [exact IS|]. split; [exact SP1|]. split; [exact SS|]. split; [exact SL|]. split; [exact Eee|]. split; [exact Eed|].
  split; [exact Edd|]. intros o'. destruct (G o') as (EP & EZ & Ex).
  assert (Ee : vsub (X1 o') (mvec M Ai (b o')) = e o').
  { assert (A : vsub (X1 o') (mvec a C (W o')) = vadd (mvec M Ai (b o')) (mvec M (mmul M Ai A_2) (e0 o'))).
    { destruct (inverse_eq M A_1 Ai S1 IA) as [_ E2].
      rewrite mvec_mmul, <- mvec_vadd. unfold e0. rewrite <- wt, <- mvec_mmul, E2. symmetry. apply eye_vec.
      intros i Hi. unfold vsub. rewrite (sX1 o') by auto. rewrite (vsup_mvec a M a C (W o') SC) by auto. ring. }
    apply functional_extensionality. intros i. pose proof (f_equal (fun v : arr => v i) A) as Ai'.
    unfold e. fold (e0 o'). unfold vsub at 1, vadd at 1. unfold vsub at 1, vadd at 1 in Ai'. cbv beta in Ai'. lra. }
  assert (Ed : vsub (Z o') (mvec M H (mvec M Ai (b o'))) = d o').
  { unfold d. rewrite <- Ee, mvec_vsub, wr. fext. unfold vsub, vadd. ring. }
  split; [|split; [exact Ee|split; [exact Ed|]]].
  - rewrite EP, mmul_msub_l. rewrite (eye_l M M P1 SP1). rewrite !mmul_assoc. reflexivity.
  - change (vsub (X1 o') (x1 o') = vsub (e o') (mvec p L (d o'))). rewrite Ex, <- Ed. rewrite <- Ee. fext. unfold vsub, vadd. ring.
Qed.

(** The covariance the filter reports is that of the errors of the corrected heads. *)
Theorem C92_reported_covariance_is_that_of_the_errors :
  forall o, has_moments E M (fun o => vsub (X1 o) (x1 o)) (ko_P (ko o)).
Proof.
  intros o. destruct (errors o) as (Ai & Si & IA & G). cbv zeta in G.
  set (P1 := madd (mmul M (mmul M (mmul M (mmul M Ai A_2) P) (tr A_2)) (tr Ai)) (mmul a (mmul a C Qcov) (tr C))) in *.
  set (S := madd (mmul M (mmul M H P1) (tr H)) Rcov) in *.
  set (L := mmul p (mmul M P1 (tr H)) Si) in *.
  set (e := fun o => vadd (mvec M (mmul M Ai A_2) (vsub (X0 o) (x0 o))) (mvec a C (W o))) in *.
  set (d := fun o => vadd (mvec M H (e o)) (V o)) in *.
  destruct G as (IS & SP1 & SS & SL & Eee & Eed & Edd & G). destruct (G o) as (EP & _).
  assert (ELS : mmul p L S = mmul M P1 (tr H)).
  { unfold L. rewrite mmul_assoc. destruct (inverse_eq p S Si SS IS) as [_ ->]. apply (eye_r M p).
    eapply sup_mmul; [exact SP1|apply sup_tr, SH]. }
  rewrite EP. apply (has_moments_eq E).
  { intros i j Hij. unfold msub. rewrite SP1 by auto. assert (Q : supported M M (mmul p L (mmul M H P1))); [|rewrite Q by auto; ring]. eapply sup_mmul; [exact SL|].
    eapply sup_mmul; [exact SH|exact SP1]. }
  replace (fun o0 => vsub (X1 o0) (x1 o0)) with (fun o0 => vsub (e o0) (mvec p L (d o0)))
    by (apply functional_extensionality; intros o'; symmetry; apply (G o')).
  rewrite (moments_sub E HE), !(moments_sub_r E HE), (moments_mvec_r E HE), !(moments_mvec E HE), (moments_mvec_r E HE) by auto.
  change (fun o0 : O => e o0) with e. change (fun o0 : O => d o0) with d.
  rewrite Eee, Eed, Edd. rewrite <- (moments_tr E), Eed, tr_mmul, tr_tr.
  rewrite <- (mmul_assoc p p L S (tr L)), ELS.
  assert (tr P1 = P1) as -> by (rewrite <- Eee; apply moments_tr).
  fext. unfold msub. ring.
Qed.

(** No other way of correcting the prediction by the readings has, for any weighted sum of heads, a smaller mean square
    error. The prediction itself is the case of G = 0. *)
Theorem C92_no_correction_is_better :
  forall (x : O -> arr) (G : mat) (w : arr),
  (forall o, vsupported M (x o) /\ mvec M A_1 (x o) = b o) -> supported M p G ->
  let err (y : O -> arr) := E (fun o => dot M w (vsub (X1 o) (y o)) * dot M w (vsub (X1 o) (y o))) in
  err x1 <= err (fun o => vadd (x o) (mvec p G (vsub (Z o) (mvec M H (x o))))).
Proof.
  intros x G w Hx SG err.
  assert (NE : (exists o : O, True) \/ forall o : O, False).
  { destruct (Classical_Prop.classic (exists o : O, True)) as [?|N]; [left; auto|right; intros o; apply N; exists o; exact I]. }
  destruct NE as [[o _]|NO].
  2:{ unfold err. right. apply (E_ext E). intros o; destruct (NO o). }
  destruct (errors o) as (Ai & Si & IA & GG). cbv zeta in GG.
  set (P1 := madd (mmul M (mmul M (mmul M (mmul M Ai A_2) P) (tr A_2)) (tr Ai)) (mmul a (mmul a C Qcov) (tr C))) in *.
  set (S := madd (mmul M (mmul M H P1) (tr H)) Rcov) in *.
  set (L := mmul p (mmul M P1 (tr H)) Si) in *.
  set (e := fun o => vadd (mvec M (mmul M Ai A_2) (vsub (X0 o) (x0 o))) (mvec a C (W o))) in *.
  set (d := fun o => vadd (mvec M H (e o)) (V o)) in *.
  destruct GG as (IS & SP1 & SS & SL & Eee & Eed & Edd & GG).
  assert (ELS : mmul p L S = mmul M P1 (tr H)).
  { unfold L. rewrite mmul_assoc. destruct (inverse_eq p S Si SS IS) as [_ ->]. apply (eye_r M p).
    eapply sup_mmul; [exact SP1|apply sup_tr, SH]. }
  set (y := fun o => vsub (e o) (mvec p L (d o))).
  set (D := msub L G). assert (SD : supported M p D) by (intros i j Hij; unfold D, msub; rewrite SL, SG by auto; ring).
  assert (Eyd : moments E M p y d = mzero).
  { unfold y. rewrite (moments_sub E HE), (moments_mvec E HE) by auto. change (fun o0 : O => e o0) with e.
    change (fun o0 : O => d o0) with d. rewrite Eed, Edd, ELS. apply msub_self. }
  assert (Edy : moments E p M d y = mzero) by (rewrite <- moments_tr, Eyd; reflexivity).
  assert (X : err x1 = quad M (moments E M M y y) w).
  { unfold err. rewrite <- (dot_moments E HE). apply E_ext. intros o'. destruct (GG o') as (_ & _ & _ & ->). reflexivity. }
  assert (Y : err (fun o => vadd (x o) (mvec p G (vsub (Z o) (mvec M H (x o))))) =
              quad M (moments E M M (fun o => vadd (y o) (mvec p D (d o))) (fun o => vadd (y o) (mvec p D (d o)))) w).
  { unfold err. rewrite <- (dot_moments E HE). apply E_ext. intros o'. destruct (GG o') as (_ & Ee & Ed & _).
    destruct (Hx o') as [Sx Ex].
    assert (x o' = mvec M Ai (b o')) as ->.
    { rewrite <- Ex, <- mvec_mmul. destruct (inverse_eq M A_1 Ai S1 IA) as [_ ->]. symmetry. now apply eye_vec. }
    rewrite Ed. unfold y. rewrite <- Ee at 1 2.
    replace (vsub (X1 o') (vadd (mvec M Ai (b o')) (mvec p G (d o')))) with
      (vadd (vsub (vsub (X1 o') (mvec M Ai (b o'))) (mvec p L (d o'))) (mvec p D (d o'))); [reflexivity|].
    unfold D. rewrite mvec_msub. fext. unfold vsub, vadd. ring. }
  rewrite X, Y. rewrite (moments_add E HE), !(moments_add_r E HE), (moments_mvec_r E HE), !(moments_mvec E HE), (moments_mvec_r E HE) by auto.
  change (fun o0 : O => y o0) with y. change (fun o0 : O => d o0) with d.
  rewrite Eyd, Edy, mmul_zero_l, mmul_zero_r, madd_zero_r, madd_zero_l, quad_madd, <- mmul_assoc, quad_congruence.
  pose proof (moments_psd E HE p d (mvec M (tr D) w)). lra.
Qed.

(** What was uncorrelated with everything unknown in the step is uncorrelated with the new errors. *)
Lemma errors_uncorrelated m (U : O -> arr) :
  uncorrelated E M m (fun o => vsub (X0 o) (x0 o)) U -> uncorrelated E a m W U -> uncorrelated E p m V U ->
  uncorrelated E M m (fun o => vsub (X1 o) (x1 o)) U.
Proof.
  intros U0 UW UV.
  destruct (Classical_Prop.classic (exists o : O, True)) as [[o _]|N].
  2:{ intros i j _ _. apply (E_zero E HE). intros o. destruct N. exists o; exact I. }
  destruct (errors o) as (Ai & Si & IA & GG). cbv zeta in GG.
  set (P1 := madd (mmul M (mmul M (mmul M (mmul M Ai A_2) P) (tr A_2)) (tr Ai)) (mmul a (mmul a C Qcov) (tr C))) in *.
  set (L := mmul p (mmul M P1 (tr H)) Si) in *.
  set (e := fun o => vadd (mvec M (mmul M Ai A_2) (vsub (X0 o) (x0 o))) (mvec a C (W o))) in *.
  set (d := fun o => vadd (mvec M H (e o)) (V o)) in *.
  destruct GG as (IS & SP1 & SS & SL & _ & _ & _ & GG).
  apply uncorrelated_eq in U0, UW, UV. apply uncorrelated_eq.
  replace (fun o0 => vsub (X1 o0) (x1 o0)) with (fun o0 => vsub (e o0) (mvec p L (d o0)))
    by (apply functional_extensionality; intros o'; symmetry; apply (GG o')).
  assert (SAA : supported M M (mmul M Ai A_2)) by (eapply sup_mmul; [apply IA|exact S2]).
  assert (Ee : moments E M m e U = mzero).
  { unfold e. rewrite (moments_add E HE), !(moments_mvec E HE) by auto. change (fun o0 : O => W o0) with W.
    rewrite U0, UW, !mmul_zero_r. apply madd_zero_r. }
  rewrite (moments_sub E HE), (moments_mvec E HE) by auto. change (fun o0 : O => e o0) with e. change (fun o0 : O => d o0) with d.
  rewrite Ee. unfold d. rewrite (moments_add E HE), (moments_mvec E HE) by auto. change (fun o0 : O => e o0) with e.
  change (fun o0 : O => V o0) with V. rewrite Ee, UV, mmul_zero_r, madd_zero_r, mmul_zero_r. apply msub_zero_r.
Qed.
End One.

(** ** Any number of assimilations *)

(** Noise of different steps, and noise and the first estimate, are uncorrelated; the matrices may change from step to
    step. *)
Record worlds {O : Type} (inv : nat -> mat -> option mat) (E : (O -> R) -> R) (M : nat) (p a : nat -> nat)
  (A_1 A_2 H C Qcov Rcov P : nat -> mat) (b Z x X W V : nat -> O -> arr) : Prop := mkWorlds {
  ws_inh : inhabited O;
  ws_P : has_moments E M (fun o => vsub (X 0%nat o) (x 0%nat o)) (P 0%nat);
  ws_Q : forall n, has_moments E (a n) (W n) (Qcov n);
  ws_R : forall n, has_moments E (p n) (V n) (Rcov n);
  ws_eW : forall n, uncorrelated E M (a n) (fun o => vsub (X 0%nat o) (x 0%nat o)) (W n);
  ws_eV : forall n, uncorrelated E M (p n) (fun o => vsub (X 0%nat o) (x 0%nat o)) (V n);
  ws_WV : forall n m, uncorrelated E (a n) (p m) (W n) (V m);
  ws_WW : forall n m, n <> m -> uncorrelated E (a n) (a m) (W n) (W m);
  ws_VV : forall n m, n <> m -> uncorrelated E (p n) (p m) (V n) (V m);
  ws_true : forall n o, mvec M (A_1 n) (vsub (X (S n) o) (mvec (a n) (C n) (W n o)))
                        = vadd (b n o) (mvec M (A_2 n) (vsub (X n o) (x n o)));
  ws_read : forall n o, Z n o = vadd (mvec M (H n) (X (S n) o)) (V n o);
  ws_filter : forall n o, exists ko,
    kalman_semi_implicit inv M (p n) (a n) (Z n o) (P n) (A_1 n) (A_2 n) (b n o) (H n) (C n) (Qcov n) (Rcov n) = Some ko /\
    mvec M (A_1 n) (x (S n) o) = ko_b ko /\ P (S n) = ko_P ko;
  ws_sizes : supported M M (P 0%nat) /\ (forall n, vsized M (X n)) /\ (forall n, vsized M (x n)) /\ (forall n, vsized (p n) (V n)) /\
    forall n, vsized M (b n) /\ supported M M (A_1 n) /\ supported M M (A_2 n) /\ supported (p n) M (H n) /\
      supported M (a n) (C n) /\ supported (a n) (a n) (Qcov n) /\ supported (p n) (p n) (Rcov n) }.

Section Many.
Variable inv : nat -> mat -> option mat.
Hypothesis inv_ok : forall n A B, inv n A = Some B -> inverse n A B.
Context {O : Type} (E : (O -> R) -> R) (HE : expectation E).
Variables (M : nat) (p a : nat -> nat) (A_1 A_2 H C Qcov Rcov P : nat -> mat) (b Z x X W V : nat -> O -> arr).
Hypothesis HWs : worlds inv E M p a A_1 A_2 H C Qcov Rcov P b Z x X W V.

Lemma P_supported n : supported M M (P n).
Proof.
  induction n as [|n IH]; [apply (ws_sizes _ _ _ _ _ _ _ _ _ _ _ _ _ _ _ _ _ _ HWs)|].
  destruct HWs as [[o] _ _ _ _ _ _ _ _ _ _ Hf Hs]. destruct (Hf n o) as (ko & Ek & _ & ->).
  destruct Hs as (_ & sX & sx & sV & Hs). destruct (Hs n) as (sb & s1 & s2 & sH & sC & sQ & sR).
  unfold kalman_semi_implicit in Ek. destruct (inv M (A_1 n)) as [Ai|] eqn:EA; [|discriminate]. cbn [bind] in Ek.
  destruct (inv (p n) _) as [Si|] eqn:ES; [|discriminate]. cbn [bind] in Ek. injection Ek as <-. cbn [ko_P].
  pose proof (proj1 (inv_ok _ _ _ EA)) as SA. pose proof (proj1 (inv_ok _ _ _ ES)) as SS.
  assert (SP1 : supported M M (madd (mmul M (mmul M (mmul M (mmul M Ai (A_2 n)) (P n)) (tr (A_2 n))) (tr Ai))
                                    (mmul (a n) (mmul (a n) (C n) (Qcov n)) (tr (C n))))).
  { apply sup_madd.
    - eapply sup_mmul; [eapply sup_mmul; [eapply sup_mmul; [eapply sup_mmul; [apply SA|exact s2]|exact IH]|apply sup_tr, s2]|apply sup_tr, SA].
    - eapply sup_mmul; [eapply sup_mmul; [exact sC|exact sQ]|apply sup_tr, sC]. }
  apply (sup_mmul M M M M M); [|exact SP1].
  intros i j Hij. unfold msub. rewrite (sup_eye M) by auto.
  assert (Q : supported M M (mmul (p n) (mmul (p n) (mmul M (madd (mmul M (mmul M (mmul M (mmul M Ai (A_2 n)) (P n)) (tr (A_2 n))) (tr Ai))
                                    (mmul (a n) (mmul (a n) (C n) (Qcov n)) (tr (C n)))) (tr (H n))) Si) (H n))).
  { eapply sup_mmul; [eapply sup_mmul; [eapply sup_mmul; [exact SP1|apply sup_tr, sH]|exact SS]|exact sH]. }
  rewrite Q by auto. ring.
Qed.

Lemma filter_outputs n : exists ko, (forall o, kalman_semi_implicit inv M (p n) (a n) (Z n o) (P n) (A_1 n) (A_2 n) (b n o) (H n) (C n) (Qcov n) (Rcov n) = Some (ko o)) /\
  (forall o, vsupported M (x (S n) o) /\ mvec M (A_1 n) (x (S n) o) = ko_b (ko o)) /\ forall o, P (S n) = ko_P (ko o).
Proof.
  set (ko := fun o => match kalman_semi_implicit inv M (p n) (a n) (Z n o) (P n) (A_1 n) (A_2 n) (b n o) (H n) (C n) (Qcov n) (Rcov n) with
                      Some k => k | None => mkKalman zeros zeros2 zeros2 end).
  exists ko.
  assert (G : forall o, kalman_semi_implicit inv M (p n) (a n) (Z n o) (P n) (A_1 n) (A_2 n) (b n o) (H n) (C n) (Qcov n) (Rcov n) = Some (ko o)
     /\ mvec M (A_1 n) (x (S n) o) = ko_b (ko o) /\ P (S n) = ko_P (ko o)).
  { intros o. destruct (ws_filter _ _ _ _ _ _ _ _ _ _ _ _ _ _ _ _ _ _ HWs n o) as (k & Ek & Eb & EP). unfold ko. rewrite Ek. auto. }
  split; [apply G|]. split; [|apply G]. intros o. destruct (ws_sizes _ _ _ _ _ _ _ _ _ _ _ _ _ _ _ _ _ _ HWs) as (_ & _ & sx & _). split; [apply sx|apply G].
Qed.

Lemma world_at n : world E M (p n) (a n) (P n) (A_1 n) (A_2 n) (H n) (C n) (Qcov n) (Rcov n) (b n) (Z n) (x n) (X n) (X (S n)) (W n) (V n) /\
  forall m, (n < m)%nat -> uncorrelated E M (a m) (fun o => vsub (X n o) (x n o)) (W m) /\
                           uncorrelated E M (p m) (fun o => vsub (X n o) (x n o)) (V m).
Proof.
  assert (Sym : forall k l (U T : O -> arr), uncorrelated E k l U T -> uncorrelated E l k T U).
  { intros k l U T Hu i j Hi Hj. rewrite <- (Hu j i Hj Hi). apply (E_ext E). intros; ring. }
  pose proof HWs as [Ho HP HQ HR HeW HeV HWV HWW HVV Ht Hr Hf (SP0 & sX & sx & sV & Hs)].
  assert (G : forall n, has_moments E M (fun o => vsub (X n o) (x n o)) (P n) /\
     forall m, (n <= m)%nat -> uncorrelated E M (a m) (fun o => vsub (X n o) (x n o)) (W m) /\
                              uncorrelated E M (p m) (fun o => vsub (X n o) (x n o)) (V m)).
  { clear n. intros n. induction n as [|n [IP IU]]; [split; auto|].
    destruct (Hs n) as (sb & s1 & s2 & sH & sC & sQ & sR).
    assert (Wn : world E M (p n) (a n) (P n) (A_1 n) (A_2 n) (H n) (C n) (Qcov n) (Rcov n) (b n) (Z n) (x n) (X n) (X (S n)) (W n) (V n)).
    { destruct (IU n (le_n n)) as [U1 U2]. constructor; auto. }
    destruct (filter_outputs n) as (ko & Hko & Hx1 & EP). destruct Ho as [o].
    pose proof (P_supported n) as SPn.
    split.
    - rewrite (EP o).
      apply (C92_reported_covariance_is_that_of_the_errors inv inv_ok E HE M (p n) (a n) (P n) (A_1 n) (A_2 n) (H n) (C n) (Qcov n) (Rcov n)
               (b n) (Z n) (x n) (X n) (X (S n)) (W n) (V n)); auto.
    - intros m Hm. destruct (IU m ltac:(lia)) as [U1 U2]. split.
      + apply (errors_uncorrelated inv inv_ok E HE M (p n) (a n) (P n) (A_1 n) (A_2 n) (H n) (C n) (Qcov n) (Rcov n)
               (b n) (Z n) (x n) (X n) (X (S n)) (W n) (V n)) with (ko := ko); auto. apply HWW; lia.
      + apply (errors_uncorrelated inv inv_ok E HE M (p n) (a n) (P n) (A_1 n) (A_2 n) (H n) (C n) (Qcov n) (Rcov n)
               (b n) (Z n) (x n) (X n) (X (S n)) (W n) (V n)) with (ko := ko); auto. apply HVV; lia. }
  destruct (G n) as [GP GU]. destruct (Hs n) as (sb & s1 & s2 & sH & sC & sQ & sR). destruct (GU n (le_n n)) as [U1 U2]. split; [constructor; auto|]. intros m Hm. apply GU. lia.
Qed.

(** After any number of assimilations the covariance kept by the simulation is that of the errors of its heads, and no
    other correction of the prediction would have had a smaller mean square error for any weighted sum of heads. *)
Theorem C92_any_number_of_assimilations :
  forall n,
  has_moments E M (fun o => vsub (X n o) (x n o)) (P n) /\
  forall (xp : O -> arr) (G : mat) (w : arr),
  (forall o, vsupported M (xp o) /\ mvec M (A_1 n) (xp o) = b n o) -> supported M (p n) G ->
  let err (y : O -> arr) := E (fun o => dot M w (vsub (X (S n) o) (y o)) * dot M w (vsub (X (S n) o) (y o))) in
  err (x (S n)) <= err (fun o => vadd (xp o) (mvec (p n) G (vsub (Z n o) (mvec M (H n) (xp o))))).
Proof.
  intros n. destruct (world_at n) as [Wn _]. split; [apply Wn|].
  destruct (ws_sizes _ _ _ _ _ _ _ _ _ _ _ _ _ _ _ _ _ _ HWs) as (_ & _ & _ & _ & Hs). destruct (Hs n) as (sb & s1 & s2 & sH & sC & sQ & sR).
  destruct (filter_outputs n) as (ko & Hko & Hx1 & EP).
  intros xp G w Hxp SG.
  apply (C92_no_correction_is_better inv inv_ok E HE M (p n) (a n) (P n) (A_1 n) (A_2 n) (H n) (C n) (Qcov n) (Rcov n)
               (b n) (Z n) (x n) (X n) (X (S n)) (W n) (V n)) with (ko := ko); auto using P_supported.
Qed.
End Many.

(** ** The model's own step *)

(** Arrays are total maps in the model; these give them the shape they have in the code. *)
Definition cut (n m : nat) (A : mat) : mat := fun i j => if Nat.ltb i n && Nat.ltb j m then A i j else 0.
Definition vcut (n : nat) (v : arr) : arr := fun i => if Nat.ltb i n then v i else 0.

(** The same world with the step taken from the model: the true heads after the step are those the model computes from
    the true heads before, plus the noise. The filter gets the matrices of [_semi_implicit_system] after the step from the
    estimated heads. *)
Record model_world {O : Type} (E : (O -> R) -> R) (M p a : nat) (bc : nat -> bool) (K : superlinks) (CO CW CP : controls)
  (A_sj H_bc Q_0j : arr) (dt : R) (s0 : system) (P H C Qcov Rcov : mat) (Z x0 X0 X1 W V : O -> arr) : Prop := mkModelWorld {
  mw_reach : reachable M bc K CO CW CP s0; mw_net : network_ok M K CO CW CP; mw_dt : 0 < dt;
  mw_P : has_moments E M (fun o => vsub (X0 o) (x0 o)) P;
  mw_Q : has_moments E a W Qcov;
  mw_R : has_moments E p V Rcov;
  mw_eW : uncorrelated E M a (fun o => vsub (X0 o) (x0 o)) W;
  mw_eV : uncorrelated E M p (fun o => vsub (X0 o) (x0 o)) V;
  mw_WV : uncorrelated E a p W V;
  mw_true : forall o, let s := assembled M bc K CO CW CP A_sj (X0 o) H_bc Q_0j dt s0 in
              solves M (system_matrix (c_n CO) (c_n CW) (c_n CP) s) (s_b s) (vsub (X1 o) (mvec a C (W o)));
  mw_read : forall o, Z o = vadd (mvec M H (X1 o)) (V o);
  mw_sizes : supported M M P /\ supported p M H /\ supported M a C /\ supported a a Qcov /\ supported p p Rcov /\
    vsized M X0 /\ vsized M x0 /\ vsized M X1 /\ vsized p V }.
(** What the filter call returns for the outcome [o]. *)
Definition assimilated (inv : nat -> mat -> option mat) (M p a : nat) (bc : nat -> bool) (K : superlinks) (CO CW CP : controls)
  (A_sj H_bc Q_0j : arr) (dt : R) (s0 : system) (P H C Qcov Rcov : mat) (Z x0 : arr) : option kalman_out :=
  let '(A_1, A_2, b) := semi_implicit_system M (c_n CO) (c_n CW) (c_n CP) bc (assembled M bc K CO CW CP A_sj x0 H_bc Q_0j dt s0) A_sj dt in
  kalman_semi_implicit inv M p a Z P (cut M M A_1) A_2 (vcut M b) H C Qcov Rcov.

Lemma cut_sup n m A : supported n m (cut n m A).
Proof.
  intros i j [L|L]; unfold cut; apply Nat.ltb_ge in L; rewrite L; [reflexivity|]. now rewrite andb_false_r.
Qed.
Lemma vcut_sup n v : vsupported n (vcut n v).
Proof. intros i L. unfold vcut. apply Nat.ltb_ge in L. now rewrite L. Qed.

(** The matrix does not depend on the heads before the step. *)
Lemma matrix_heads M bc K CO CW CP A_sj Hp Hp' H_bc Q dt s :
  system_matrix (c_n CO) (c_n CW) (c_n CP) (assembled M bc K CO CW CP A_sj Hp H_bc Q dt s) =
  system_matrix (c_n CO) (c_n CW) (c_n CP) (assembled M bc K CO CW CP A_sj Hp' H_bc Q dt s).
Proof.
  unfold assembled, sparse_matrix_equations, assemble_controls, system_matrix.
  destruct (numba_create_A_matrix _ _ _ _ _ _ _ _ _ _ _ _ _ _ _) as [A' F].
  destruct (Nat.eqb (c_n CO) 0); [|destruct (numba_create_OWP_matrix _ _ _ _ _ _ _ _ _ _ _) as [Om Od]];
  (destruct (Nat.eqb (c_n CW) 0); [|destruct (numba_create_OWP_matrix _ _ _ _ _ _ _ _ _ _ _) as [Wm Wd]]);
  (destruct (Nat.eqb (c_n CP) 0); [|destruct (numba_create_OWP_matrix _ _ _ _ _ _ _ _ _ _ _) as [Pm Pd]]); reflexivity.
Qed.

Section Model.
Variable inv : nat -> mat -> option mat.
Hypothesis inv_ok : forall n A B, inv n A = Some B -> inverse n A B.
Context {O : Type} (E : (O -> R) -> R) (HE : expectation E).

(** In networks of storages joined by orifices, weirs and pumps, with or without prescribed heads, the reported
    covariance is that of the errors and the corrected heads are the best. *)
Theorem C92_networks_without_superlinks M p a bc K CO CW CP A_sj H_bc Q_0j dt s0 P H C Qcov Rcov (Z x0 X0 X1 W V : O -> arr) ko x1 :
  model_world E M p a bc K CO CW CP A_sj H_bc Q_0j dt s0 P H C Qcov Rcov Z x0 X0 X1 W V -> k_n K = 0%nat ->
  (forall o, assimilated inv M p a bc K CO CW CP A_sj H_bc Q_0j dt s0 P H C Qcov Rcov (Z o) (x0 o) = Some (ko o)) ->
  (forall o, let s := assembled M bc K CO CW CP A_sj (x0 o) H_bc Q_0j dt s0 in
             vsupported M (x1 o) /\ solves M (system_matrix (c_n CO) (c_n CW) (c_n CP) s) (ko_b (ko o)) (x1 o)) ->
  (forall o, has_moments E M (fun o => vsub (X1 o) (x1 o)) (ko_P (ko o))) /\
  forall (xp : O -> arr) (G : mat) (w : arr),
  (forall o, let s := assembled M bc K CO CW CP A_sj (x0 o) H_bc Q_0j dt s0 in
             vsupported M (xp o) /\ solves M (system_matrix (c_n CO) (c_n CW) (c_n CP) s) (s_b s) (xp o)) -> supported M p G ->
  let err (y : O -> arr) := E (fun o => dot M w (vsub (X1 o) (y o)) * dot M w (vsub (X1 o) (y o))) in
  err x1 <= err (fun o => vadd (xp o) (mvec p G (vsub (Z o) (mvec M H (xp o))))).
Proof.
  intros [Hr Hn Hdt wP wQ wR weW weV wWV Ht Hrd (SP & SH & SC & SQ & SR & sX0 & sx0 & sX1 & sV)] HK Hko Hx1.
  set (A_1 := cut M M (system_matrix (c_n CO) (c_n CW) (c_n CP) (assembled M bc K CO CW CP A_sj zeros H_bc Q_0j dt s0))).
  set (A_2 := previous_head_matrix M bc A_sj dt).
  set (b := fun o => vcut M (s_b (assembled M bc K CO CW CP A_sj (x0 o) H_bc Q_0j dt s0))).
  assert (S1 : supported M M A_1) by apply cut_sup.
  assert (S2 : supported M M A_2).
  { intros i j Hij. unfold A_2, previous_head_matrix. destruct (Nat.ltb_spec i M); cbn [andb]; [|reflexivity].
    destruct (Nat.eqb_spec i j); [lia|reflexivity]. }
  (* rows *)
  assert (Row : forall (Hp v d : arr), vsupported M d -> solves M (system_matrix (c_n CO) (c_n CW) (c_n CP) (assembled M bc K CO CW CP A_sj Hp H_bc Q_0j dt s0)) d v ->
            mvec M A_1 v = d).
  { intros Hp v d Sd Hs. apply functional_extensionality. intros i. destruct (Nat.lt_ge_cases i M) as [L|L].
    - rewrite <- (Hs i L). unfold mvec. apply sum_n_ext. intros l Hl. unfold A_1, cut.
      apply Nat.ltb_lt in L, Hl. rewrite L, Hl. cbn [andb]. now rewrite (matrix_heads M bc K CO CW CP A_sj Hp zeros).
    - rewrite (Sd i L). unfold mvec. apply sum_n_0. intros. rewrite S1 by auto. ring. }
  assert (RowC : forall (Hp v d : arr), solves M (system_matrix (c_n CO) (c_n CW) (c_n CP) (assembled M bc K CO CW CP A_sj Hp H_bc Q_0j dt s0)) d v ->
            mvec M A_1 v = vcut M d).
  { intros Hp v d Hs. apply (Row Hp); [apply vcut_sup|]. intros i Hi. unfold row_holds. rewrite (Hs i Hi). unfold vcut.
    apply Nat.ltb_lt in Hi. now rewrite Hi. }
  assert (Hko' : forall o, kalman_semi_implicit inv M p a (Z o) P A_1 A_2 (b o) H C Qcov Rcov = Some (ko o)).
  { intros o. rewrite <- (Hko o). unfold assimilated, semi_implicit_system, A_1, b, A_2.
    rewrite (matrix_heads M bc K CO CW CP A_sj (x0 o) zeros). reflexivity. }
  assert (HW : world E M p a P A_1 A_2 H C Qcov Rcov b Z x0 X0 X1 W V).
  { constructor; auto; [|intros o; apply vcut_sup].
    intros o. rewrite (RowC (X0 o) _ (s_b (assembled M bc K CO CW CP A_sj (X0 o) H_bc Q_0j dt s0))) by apply (Ht o).
    unfold b. apply functional_extensionality. intros i. unfold vadd, vcut. destruct (Nat.ltb_spec i M) as [L|L].
    2:{ unfold mvec. rewrite sum_n_0; [ring|]. intros. rewrite S2 by auto. ring. }
    assert (A2 : mvec M A_2 (vsub (X0 o) (x0 o)) i = (if bc i then 0 else A_sj i / dt) * (X0 o i - x0 o i)).
    { unfold mvec. rewrite (sum_n_one _ M i L).
      - unfold A_2, previous_head_matrix, vsub. apply Nat.ltb_lt in L. rewrite L, Nat.eqb_refl. reflexivity.
      - intros l Hl Ne. unfold A_2, previous_head_matrix. apply Nat.eqb_neq in Ne. rewrite Nat.eqb_sym in Ne.
        rewrite Ne, andb_false_r. ring. }
    rewrite A2. destruct (bc i) eqn:Eb.
    - assert (Bb : forall Hp, s_b (assembled M bc K CO CW CP A_sj Hp H_bc Q_0j dt s0) i = H_bc i).
      { intros Hp. unfold assembled, sparse_matrix_equations.
        destruct (numba_create_A_matrix _ _ _ _ _ _ _ _ _ _ _ _ _ _ _) as [A' F].
        destruct (assemble_controls _ _ _ _ _ CO) as [[Om Od] D1]. destruct (assemble_controls _ _ _ _ _ CW) as [[Wm Wd] D2].
        destruct (assemble_controls _ _ _ _ _ CP) as [[Pm Pd] D3]. cbn [s_b]. now rewrite Eb. }
      rewrite !Bb. ring.
    - pose proof (C69_sensitivity_to_previous_heads M bc K CO CW CP A_sj (x0 o) H_bc Q_0j dt s0 Hr Hn (X0 o) i ltac:(lra) L Eb) as Sn.
      unfold attached_area, sum_if in Sn. rewrite HK in Sn. cbn [sum_n] in Sn. rewrite !Rplus_0_r in Sn. lra. }
  assert (Hx1' : forall o, vsupported M (x1 o) /\ mvec M A_1 (x1 o) = ko_b (ko o)).
  { intros o. destruct (Hx1 o) as [Sx Sv]. split; auto. apply (Row (x0 o)); auto.
    destruct (kalman_unfold inv inv_ok M p a (Z o) P A_1 A_2 (b o) H C Qcov Rcov) with (ko := ko o) as (Ai0 & P10 & Si0 & _ & _ & _ & KU); auto.
    { apply vcut_sup. } cbv zeta in KU. destruct KU as (_ & _ & _ & _ & _ & x & _ & _ & ->). eapply vsup_mvec, S1. }
  split.
  - apply (C92_reported_covariance_is_that_of_the_errors inv inv_ok E HE M p a P A_1 A_2 H C Qcov Rcov b Z x0 X0 X1 W V); auto.
  - intros xp G w Hxp SG.
    apply (C92_no_correction_is_better inv inv_ok E HE M p a P A_1 A_2 H C Qcov Rcov b Z x0 X0 X1 W V) with (ko := ko); auto.
    intros o. destruct (Hxp o) as [Sx Sv]. split; auto. apply (RowC (x0 o)). exact Sv.
Qed.
End Model.

(** ** Superlinks *)

(** Four equally likely outcomes: two fair coins. *)
Definition coins (f : bool * bool -> R) : R := (f (true, true) + f (true, false) + f (false, true) + f (false, false)) / 4.
Definition sg (c : bool) : R := if c then 1 else -1.
Lemma coins_expectation : expectation coins.
Proof.
  constructor; unfold coins; intros; [lra|lra|].
  pose proof (H (true, true)). pose proof (H (true, false)). pose proof (H (false, true)). pose proof (H (false, false)). lra.
Qed.

(** Two junctions of 1 m2, the second held at 3 m, joined by a superlink with end pieces of 10 m by 1 m (the network of
    C69). *)
Definition pipe_K : superlinks :=
  mkSuperlinks 1 (fun _ => 0%nat) (fun _ => 1%nat) (fun _ => 1) (fun _ => -1) zeros (fun _ => 1) (fun _ => -1) zeros
             (fun _ => 10) (fun _ => 1) (fun _ => 1) (fun _ => 10) (fun _ => 1) (fun _ => 1).
Definition pipe_bc (j : nat) : bool := Nat.eqb j 1.
Definition pipe_system (Hp : arr) : system :=
  assembled 2 pipe_bc pipe_K no_controls no_controls no_controls (fun _ => 1) Hp (fun _ => 3) zeros 1 fresh_system.
Definition v2 (x y : R) : arr := fun i => if Nat.eqb i 0 then x else if Nat.eqb i 1 then y else 0.
Lemma pipe_matrix Hp : cut 2 2 (system_matrix 0 0 0 (pipe_system Hp)) = mat2 2 7 (-1) 0 1.
Proof.
  fext. unfold cut. destruct x as [|[|x]]; (destruct x0 as [|[|x0]]); cbn; unfold zeros, zeros2, upd, upd2, xi; cbn; try lra; reflexivity.
Qed.
Lemma pipe_rhs Hp : vcut 2 (s_b (pipe_system Hp)) = v2 (6 * Hp 0%nat) 3.
Proof.
  fext. unfold vcut. destruct x as [|[|x]]; cbn; unfold zeros, zeros2, upd, upd2, xi; cbn; try lra; reflexivity.
Qed.
Definition pipe_assimilated (z : arr) (Hp : arr) : option kalman_out :=
  assimilated inv2 2 1 0 pipe_bc pipe_K no_controls no_controls no_controls (fun _ => 1) (fun _ => 3) zeros 1 fresh_system
    (mat2 2 1 0 0 0) H12 zeros2 zeros2 (eye 1) z Hp.
Lemma pipe_filter z Hp : exists ko, pipe_assimilated z Hp = Some ko /\ ko_P ko 0%nat 0%nat = 1 / 50 /\
  let y := (6 * Hp 0%nat + 3) / 7 in
  solves 2 (system_matrix 0 0 0 (pipe_system Hp)) (ko_b ko) (v2 (y + (z 0%nat - y) / 50) 3).
Proof.
  unfold pipe_assimilated, assimilated, semi_implicit_system. change (c_n no_controls) with 0%nat. fold (pipe_system Hp).
  rewrite pipe_matrix, pipe_rhs. unfold kalman_semi_implicit.
  assert (I1 : inv2 2 (mat2 2 7 (-1) 0 1) = Some (mat2 2 (1/7) (1/7) 0 1)).
  { unfold inv2. cbn [Nat.eqb mat2]. destruct (Req_EM_T _ 0); [lra|]. do 2 f_equal; lra. }
  rewrite I1. cbn [bind].
  match goal with |- context [inv2 1 ?X] => set (S := X) end.
  assert (ES : S 0%nat 0%nat = 50 / 49).
  { unfold S, madd, mmul, tr, eye, H12, previous_head_matrix, mat2, zeros2. cbn. lra. }
  assert (I2 : inv2 1 S = Some (mat2 1 (49/50) 0 0 0)).
  { unfold inv2. cbn [Nat.eqb]. rewrite ES. destruct (Req_EM_T _ 0); [lra|]. do 2 f_equal; lra. }
  rewrite I2. cbn [bind]. eexists. split; [reflexivity|]. cbn [ko_P ko_b]. split.
  - unfold madd, msub, mmul, tr, eye, H12, previous_head_matrix, mat2, zeros2. cbn. lra.
  - cbv zeta. intros j Hj. unfold row_holds.
    assert (EA : forall i l, (i < 2)%nat -> (l < 2)%nat -> system_matrix 0 0 0 (pipe_system Hp) i l = mat2 2 7 (-1) 0 1 i l).
    { intros i l Hi Hl. rewrite <- (pipe_matrix Hp). unfold cut. apply Nat.ltb_lt in Hi, Hl. now rewrite Hi, Hl. }
    destruct j as [|[|]]; [| |lia]; rewrite (sum_n_ext _ (fun l => mat2 2 7 (-1) 0 1 (_ : nat) l * v2 ((6 * Hp 0%nat + 3) / 7 + (z 0%nat - (6 * Hp 0%nat + 3) / 7) / 50) 3 l)) by (intros l Hl; rewrite EA by lia; reflexivity);
    unfold mvec, vadd, vsub, madd, msub, mmul, tr, eye, H12, previous_head_matrix, v2, mat2, zeros2; cbn; lra.
Qed.

Definition pipe_x0 (o : bool * bool) : arr := v2 1 3.
Definition pipe_X0 (o : bool * bool) : arr := v2 (1 + sg (fst o)) 3.
Definition pipe_X1 (o : bool * bool) : arr := v2 ((6 * (1 + sg (fst o)) + 3) / 7) 3.
Definition pipe_V (o : bool * bool) : arr := one_v (sg (snd o)).
Definition pipe_Z (o : bool * bool) : arr := vadd (mvec 2 H12 (pipe_X1 o)) (pipe_V o).

(** With superlinks the filter underestimates the errors: it is told the right covariances, the true heads follow the
    model without any noise, and the reported variance of the error of the first head is 0.02 where it is 0.706. *)
Theorem C92_superlinks_refuted :
  exists ko x1,
  model_world coins 2 1 0 pipe_bc pipe_K no_controls no_controls no_controls (fun _ => 1) (fun _ => 3) zeros 1 fresh_system
    (mat2 2 1 0 0 0) H12 zeros2 zeros2 (eye 1) pipe_Z pipe_x0 pipe_X0 pipe_X1 (fun _ => zeros) pipe_V /\
  (forall o, pipe_assimilated (pipe_Z o) (pipe_x0 o) = Some (ko o)) /\
  (forall o, vsupported 2 (x1 o) /\ solves 2 (system_matrix 0 0 0 (pipe_system (pipe_x0 o))) (ko_b (ko o)) (x1 o)) /\
  (forall o, ko_P (ko o) 0%nat 0%nat = 1 / 50) /\
  coins (fun o => vsub (pipe_X1 o) (x1 o) 0%nat * vsub (pipe_X1 o) (x1 o) 0%nat) = 353 / 500.
Proof.
  set (ko := fun o => match pipe_assimilated (pipe_Z o) (pipe_x0 o) with Some k => k | None => mkKalman zeros zeros2 zeros2 end).
  set (x1 := fun o => let y := (6 * pipe_x0 o 0%nat + 3) / 7 in v2 (y + (pipe_Z o 0%nat - y) / 50) 3).
  assert (G : forall o, pipe_assimilated (pipe_Z o) (pipe_x0 o) = Some (ko o) /\ ko_P (ko o) 0%nat 0%nat = 1 / 50 /\
     solves 2 (system_matrix 0 0 0 (pipe_system (pipe_x0 o))) (ko_b (ko o)) (x1 o)).
  { intros o. destruct (pipe_filter (pipe_Z o) (pipe_x0 o)) as (k & Ek & EP & Es). unfold ko. rewrite Ek. auto. }
  exists ko, x1. split; [|split; [apply G|split; [|split; [apply G|]]]].
  - assert (V2 : forall x y, vsupported 2 (v2 x y)) by (intros x y i Hi; destruct i as [|[|]]; cbn; auto; lia).
    constructor.
    + constructor.
    + unfold network_ok, ends_in; simpl. repeat split; intros; lia.
    + lra.
    + intros i j Hi Hj. destruct i as [|[|]]; [| |lia]; (destruct j as [|[|]]; [| |lia]);
        unfold coins, vsub, pipe_X0, pipe_x0, v2, sg; cbn; lra.
    + intros i j Hi; lia.
    + intros i j Hi Hj. destruct i as [|]; [|lia]; (destruct j as [|]; [|lia]).
      unfold coins, pipe_V, one_v, sg, eye; cbn; lra.
    + intros i j Hi Hj; lia.
    + intros i j Hi Hj. destruct i as [|[|]]; [| |lia]; (destruct j as [|]; [|lia]);
        unfold coins, vsub, pipe_X0, pipe_x0, v2, sg, pipe_V, one_v; cbn; lra.
    + intros i j Hi; lia.
    + intros o. cbv zeta. change (c_n no_controls) with 0%nat. fold (pipe_system (pipe_X0 o)). intros j Hj. unfold row_holds.
      assert (EA : forall i l, (i < 2)%nat -> (l < 2)%nat -> system_matrix 0 0 0 (pipe_system (pipe_X0 o)) i l = mat2 2 7 (-1) 0 1 i l).
      { intros i l Hi Hl. rewrite <- (pipe_matrix (pipe_X0 o)). unfold cut. apply Nat.ltb_lt in Hi, Hl. now rewrite Hi, Hl. }
      assert (EB : s_b (pipe_system (pipe_X0 o)) j = v2 (6 * pipe_X0 o 0%nat) 3 j).
      { rewrite <- pipe_rhs. unfold vcut. apply Nat.ltb_lt in Hj. now rewrite Hj. }
      rewrite EB. cbn [sum_n]. rewrite !EA by lia.
      destruct j as [|[|]]; [| |lia]; unfold mvec, vsub, pipe_X1, pipe_X0, v2, mat2; cbn; lra.
    + reflexivity.
    + split; [apply mat2_supported; auto|]. split; [apply H12_supp|]. split; [intros i j _; reflexivity|]. split; [intros i j _; reflexivity|].
      split; [apply sup_eye|]. repeat split; try (intros o; apply V2).
      intros o i Hi. unfold pipe_V, one_v. destruct i; [lia|reflexivity].
  - intros o. split; [|apply G]. intros i Hi. unfold x1, v2. destruct i as [|[|]]; cbn; auto; lia.
  - unfold coins, vsub, x1, pipe_Z, vadd, mvec, pipe_X1, pipe_V, pipe_x0, one_v, H12, v2, sg. cbn. lra.
Qed.

(** ** Two tanks

    Two tanks joined by an orifice, the gauge at the first one. Prior errors of 1 m in both, an error of 1 m of the
    gauge; no process noise. *)
Definition tank_K : superlinks :=
  mkSuperlinks 0 (fun _ => 0%nat) (fun _ => 1%nat) zeros zeros zeros zeros zeros zeros zeros zeros zeros zeros zeros zeros.
Definition tank_O : controls := mkControls 1 (fun _ => 0%nat) (fun _ => 1%nat) (fun _ => 1) (fun _ => -1) zeros.
Definition tank_bc (j : nat) : bool := false.
Definition tank_system (Hp : arr) : system :=
  assembled 2 tank_bc tank_K tank_O no_controls no_controls (fun _ => 1) Hp zeros zeros 1 fresh_system.
Lemma tank_matrix Hp : cut 2 2 (system_matrix 1 0 0 (tank_system Hp)) = mat2 2 2 (-1) (-1) 2.
Proof.
  fext. unfold cut. destruct x as [|[|x]]; (destruct x0 as [|[|x0]]); cbn; unfold zeros, zeros2, upd, upd2, xi; cbn; try lra; reflexivity.
Qed.
Lemma tank_rhs Hp : vcut 2 (s_b (tank_system Hp)) = v2 (Hp 0%nat) (Hp 1%nat).
Proof.
  fext. unfold vcut. destruct x as [|[|x]]; cbn; unfold zeros, zeros2, upd, upd2, xi; cbn; try lra; reflexivity.
Qed.

Definition tank_assimilated (z : arr) (Hp : arr) : option kalman_out :=
  assimilated inv2 2 1 0 tank_bc tank_K tank_O no_controls no_controls (fun _ => 1) zeros zeros 1 fresh_system
    (mat2 2 1 0 0 0) H12 zeros2 zeros2 (eye 1) z Hp.
Definition tank_estimate (z : arr) (Hp : arr) : arr :=
  let y := (2 * Hp 0%nat + Hp 1%nat) / 3 in
  v2 (y + 4 / 13 * (z 0%nat - y)) ((Hp 0%nat + 2 * Hp 1%nat) / 3 + 2 / 13 * (z 0%nat - y)).
Lemma tank_filter z Hp : exists ko, tank_assimilated z Hp = Some ko /\ ko_P ko 0%nat 0%nat = 4 / 13 /\ ko_P ko 1%nat 1%nat = 1 / 13 /\
  solves 2 (system_matrix 1 0 0 (tank_system Hp)) (ko_b ko) (tank_estimate z Hp).
Proof.
  unfold tank_assimilated, assimilated, semi_implicit_system. change (c_n no_controls) with 0%nat. change (c_n tank_O) with 1%nat. fold (tank_system Hp).
  rewrite tank_matrix, tank_rhs. unfold kalman_semi_implicit.
  assert (I1 : inv2 2 (mat2 2 2 (-1) (-1) 2) = Some (mat2 2 (2/3) (1/3) (1/3) (2/3))).
  { unfold inv2. cbn [Nat.eqb mat2]. destruct (Req_EM_T _ 0); [lra|]. do 2 f_equal; lra. }
  rewrite I1. cbn [bind].
  match goal with |- context [inv2 1 ?X] => set (S := X) end.
  assert (ES : S 0%nat 0%nat = 13 / 9).
  { unfold S, madd, mmul, tr, eye, H12, previous_head_matrix, mat2, zeros2, tank_bc. cbn. lra. }
  assert (I2 : inv2 1 S = Some (mat2 1 (9/13) 0 0 0)).
  { unfold inv2. cbn [Nat.eqb]. rewrite ES. destruct (Req_EM_T _ 0); [lra|]. do 2 f_equal; lra. }
  rewrite I2. cbn [bind]. eexists. split; [reflexivity|]. cbn [ko_P ko_b]. split; [|split].
  - unfold madd, msub, mmul, tr, eye, H12, previous_head_matrix, mat2, zeros2, tank_bc. cbn. lra.
  - unfold madd, msub, mmul, tr, eye, H12, previous_head_matrix, mat2, zeros2, tank_bc. cbn. lra.
  - intros j Hj. unfold row_holds.
    assert (EA : forall i l, (i < 2)%nat -> (l < 2)%nat -> system_matrix 1 0 0 (tank_system Hp) i l = mat2 2 2 (-1) (-1) 2 i l).
    { intros i l Hi Hl. rewrite <- (tank_matrix Hp). unfold cut. apply Nat.ltb_lt in Hi, Hl. now rewrite Hi, Hl. }
    destruct j as [|[|]]; [| |lia]; rewrite (sum_n_ext _ (fun l => mat2 2 2 (-1) (-1) 2 (_ : nat) l * tank_estimate z Hp l)) by (intros l Hl; rewrite EA by lia; reflexivity);
    unfold tank_estimate, mvec, vadd, vsub, madd, msub, mmul, tr, eye, H12, previous_head_matrix, v2, mat2, zeros2, tank_bc; cbn; lra.
Qed.

Definition tank_x0 (o : bool * bool) : arr := v2 2 1.
Definition tank_X0 (o : bool * bool) : arr := v2 (2 + sg (fst o)) 1.
Definition tank_X1 (o : bool * bool) : arr := v2 ((2 * (2 + sg (fst o)) + 1) / 3) ((2 + sg (fst o) + 2) / 3).
Definition tank_Z (o : bool * bool) : arr := vadd (mvec 2 H12 (tank_X1 o)) (pipe_V o).

Example C92_example : exists ko x1,
  model_world coins 2 1 0 tank_bc tank_K tank_O no_controls no_controls (fun _ => 1) zeros zeros 1 fresh_system
    (mat2 2 1 0 0 0) H12 zeros2 zeros2 (eye 1) tank_Z tank_x0 tank_X0 tank_X1 (fun _ => zeros) pipe_V /\
  (forall o, tank_assimilated (tank_Z o) (tank_x0 o) = Some (ko o)) /\
  has_moments coins 2 (fun o => vsub (tank_X1 o) (x1 o)) (ko_P (ko (true, true))) /\
  coins (fun o => vsub (tank_X1 o) (x1 o) 0%nat * vsub (tank_X1 o) (x1 o) 0%nat) = 4 / 13 /\
  coins (fun o => vsub (tank_X1 o) (x1 o) 1%nat * vsub (tank_X1 o) (x1 o) 1%nat) = 1 / 13.
Proof.
  set (ko := fun o => match tank_assimilated (tank_Z o) (tank_x0 o) with Some k => k | None => mkKalman zeros zeros2 zeros2 end).
  set (x1 := fun o => tank_estimate (tank_Z o) (tank_x0 o)).
  assert (G : forall o, tank_assimilated (tank_Z o) (tank_x0 o) = Some (ko o) /\ (ko_P (ko o) 0%nat 0%nat = 4 / 13 /\ ko_P (ko o) 1%nat 1%nat = 1 / 13) /\
     solves 2 (system_matrix 1 0 0 (tank_system (tank_x0 o))) (ko_b (ko o)) (x1 o)).
  { intros o. destruct (tank_filter (tank_Z o) (tank_x0 o)) as (k & Ek & EP & EP' & Es). unfold ko. rewrite Ek. auto. }
  assert (V2 : forall x y, vsupported 2 (v2 x y)) by (intros x y i Hi; destruct i as [|[|]]; cbn; auto; lia).
  assert (MW : model_world coins 2 1 0 tank_bc tank_K tank_O no_controls no_controls (fun _ => 1) zeros zeros 1 fresh_system
    (mat2 2 1 0 0 0) H12 zeros2 zeros2 (eye 1) tank_Z tank_x0 tank_X0 tank_X1 (fun _ => zeros) pipe_V).
  { constructor.
    + constructor.
    + unfold network_ok, ends_in; simpl. repeat split; intros; lia.
    + lra.
    + intros i j Hi Hj. destruct i as [|[|]]; [| |lia]; (destruct j as [|[|]]; [| |lia]);
        unfold coins, vsub, tank_X0, tank_x0, v2, sg; cbn; lra.
    + intros i j Hi; lia.
    + intros i j Hi Hj. destruct i as [|]; [|lia]; (destruct j as [|]; [|lia]).
      unfold coins, pipe_V, one_v, sg, eye; cbn; lra.
    + intros i j Hi Hj; lia.
    + intros i j Hi Hj. destruct i as [|[|]]; [| |lia]; (destruct j as [|]; [|lia]);
        unfold coins, vsub, tank_X0, tank_x0, v2, sg, pipe_V, one_v; cbn; lra.
    + intros i j Hi; lia.
    + intros o. cbv zeta. change (c_n no_controls) with 0%nat. change (c_n tank_O) with 1%nat. fold (tank_system (tank_X0 o)). intros j Hj. unfold row_holds.
      assert (EA : forall i l, (i < 2)%nat -> (l < 2)%nat -> system_matrix 1 0 0 (tank_system (tank_X0 o)) i l = mat2 2 2 (-1) (-1) 2 i l).
      { intros i l Hi Hl. rewrite <- (tank_matrix (tank_X0 o)). unfold cut. apply Nat.ltb_lt in Hi, Hl. now rewrite Hi, Hl. }
      assert (EB : s_b (tank_system (tank_X0 o)) j = v2 (tank_X0 o 0%nat) (tank_X0 o 1%nat) j).
      { rewrite <- tank_rhs. unfold vcut. apply Nat.ltb_lt in Hj. now rewrite Hj. }
      rewrite EB. cbn [sum_n]. rewrite !EA by lia.
      destruct j as [|[|]]; [| |lia]; unfold mvec, vsub, tank_X1, tank_X0, v2, mat2; cbn; lra.
    + reflexivity.
    + split; [apply mat2_supported; auto|]. split; [apply H12_supp|]. split; [intros i j _; reflexivity|]. split; [intros i j _; reflexivity|].
      split; [apply sup_eye|]. repeat split; try (intros o; apply V2).
      intros o i Hi. unfold pipe_V, one_v. destruct i; [lia|reflexivity]. }
  assert (Mo : forall o, has_moments coins 2 (fun o => vsub (tank_X1 o) (x1 o)) (ko_P (ko o))).
  { apply (C92_networks_without_superlinks inv2 inv2_ok coins coins_expectation _ _ _ _ _ _ _ _ _ _ _ _ _ _ _ _ _ _ _ _ _ _ _ _ ko x1 MW eq_refl); [apply G|].
    intros o. split; [|apply G]. apply V2. }
  exists ko, x1. split; [exact MW|]. split; [apply G|]. split; [apply Mo|]. destruct (G (true, true)) as (_ & (P0 & P1) & _).
  split; [rewrite <- P0|rewrite <- P1]; apply (Mo (true, true)); lia.
Qed.

(** One tank, read by its gauge after the first and after the second step and never again: three fair coins decide the
    first error and the errors of the two readings. *)
Definition three (f : bool * bool * bool -> R) : R := (coins (fun o => f (o, true)) + coins (fun o => f (o, false))) / 2.
Lemma three_expectation : expectation three.
Proof.
  destruct coins_expectation as [A S P]. constructor; unfold three; intros.
  - rewrite !A. lra.
  - rewrite !S. lra.
  - pose proof (P (fun o => f (o, true)) (fun o => H (o, true))). pose proof (P (fun o => f (o, false)) (fun o => H (o, false))). lra.
Qed.
Definition inv02 (n : nat) (A : mat) : option mat := if Nat.eqb n 0 then Some zeros2 else inv2 n A.
Lemma inv02_ok : forall n A B, inv02 n A = Some B -> inverse n A B.
Proof.
  intros n A B. unfold inv02. destruct (Nat.eqb_spec n 0) as [->|]; [|apply inv2_ok].
  intros Q; injection Q as <-. split; [intros i j _; reflexivity|intros; lia].
Qed.
Definition read_p (n : nat) : nat := match n with 0 | 1 => 1 | _ => 0 end%nat.
Definition read_P (n : nat) : mat := mat2 1 (match n with O => 1 | S O => 1/2 | _ => 1/3 end) 0 0 0.
Definition read_V (n : nat) (o : bool * bool * bool) : arr :=
  match n with O => one_v (sg (snd (fst o))) | S O => one_v (sg (snd o)) | _ => zeros end.
Definition read_X (n : nat) (o : bool * bool * bool) : arr := one_v (sg (fst (fst o))).
Definition read_x (n : nat) (o : bool * bool * bool) : arr :=
  one_v (match n with O => 0 | S O => (sg (fst (fst o)) + sg (snd (fst o))) / 2
         | _ => (2 * sg (fst (fst o)) + sg (snd (fst o)) + sg (snd o)) / 3 end).
Definition read_Z (n : nat) (o : bool * bool * bool) : arr := vadd (mvec 1 (eye (read_p n)) (read_X (S n) o)) (read_V n o).

Example C92_many_example :
  worlds inv02 three 1 read_p (fun _ => 0%nat) (fun _ => eye 1) (fun _ => eye 1) (fun n => eye (read_p n)) (fun _ => zeros2)
    (fun _ => zeros2) (fun n => eye (read_p n)) read_P read_x read_Z read_x read_X (fun _ _ => zeros) read_V /\
  has_moments three 1 (fun o => vsub (read_X 2 o) (read_x 2 o)) (read_P 2).
Proof.
  assert (V1 : forall x, vsupported 1 (one_v x)) by (intros x i Hi; unfold one_v; destruct i; [lia|reflexivity]).
  assert (W : worlds inv02 three 1 read_p (fun _ => 0%nat) (fun _ => eye 1) (fun _ => eye 1) (fun n => eye (read_p n)) (fun _ => zeros2)
    (fun _ => zeros2) (fun n => eye (read_p n)) read_P read_x read_Z read_x read_X (fun _ _ => zeros) read_V).
  { assert (I1 : forall e, e 0%nat 0%nat <> 0 -> inv02 1 e = Some (mat2 1 (/ e 0%nat 0%nat) 0 0 0)).
    { intros e Ne. unfold inv02, inv2. cbn [Nat.eqb]. destruct (Req_EM_T _ 0); [contradiction|reflexivity]. }
    constructor.
    - exact (inhabits (true, true, true)).
    - intros i j Hi Hj. assert (i = 0)%nat as -> by lia. assert (j = 0)%nat as -> by lia.
      unfold three, coins, vsub, read_X, read_x, one_v, read_P, mat2, sg; cbn; lra.
    - intros n i j Hi; lia.
    - intros n i j Hi Hj. destruct n as [|[|n]]; cbn [read_p] in *; [| |lia]; assert (i = 0)%nat as -> by lia; assert (j = 0)%nat as -> by lia;
      unfold three, coins, read_V, one_v, eye, sg; cbn; lra.
    - intros n i j Hi Hj; lia.
    - intros n i j Hi Hj. destruct n as [|[|n]]; cbn [read_p] in *; [| |lia]; assert (i = 0)%nat as -> by lia; assert (j = 0)%nat as -> by lia;
      unfold three, coins, vsub, read_X, read_x, read_V, one_v, sg; cbn; lra.
    - intros n m i j Hi; lia.
    - intros n m _ i j Hi; lia.
    - intros n m Ne i j Hi Hj. destruct n as [|[|n]]; cbn [read_p] in *; [| |lia]; (destruct m as [|[|m]]; cbn [read_p] in *; [| |lia]); try lia;
      assert (i = 0)%nat as -> by lia; assert (j = 0)%nat as -> by lia; unfold three, coins, read_V, one_v, sg; cbn; lra.
    - intros n o. fext. unfold mvec, vsub, vadd, eye, read_X, one_v. cbn [sum_n]. destruct x; cbn; [lra|].
      unfold mvec. cbn. unfold read_x, one_v. cbn. lra.
    - reflexivity.
    - intros n o. unfold kalman_semi_implicit. rewrite (I1 (eye 1)) by (unfold eye; cbn; lra). cbn [bind].
      match goal with |- context [inv02 (read_p n) ?X] => set (Y := X) end.
      destruct n as [|[|n]]; cbn [read_p].
      + assert (EY : Y 0%nat 0%nat = 2) by (unfold Y, madd, mmul, tr, eye, read_P, mat2, zeros2; cbn; lra).
        rewrite (I1 Y), EY by lra. cbn [bind]. eexists. split; [reflexivity|]. cbn [ko_b ko_P]. split.
        * fext. destruct x; unfold mvec, vadd, vsub, madd, mmul, tr, eye, read_P, mat2, zeros2, read_x, read_Z, read_X, read_V, one_v; cbn; [|lra].
          unfold mvec, vadd, vsub, madd, mmul, tr, eye, read_P, mat2, zeros2, one_v; cbn; lra.
        * fext. unfold read_P, madd, msub, mmul, tr, eye, mat2, zeros2. destruct x as [|[|x]]; (destruct x0 as [|[|x0]]); cbn; lra.
      + assert (EY : Y 0%nat 0%nat = 3 / 2) by (unfold Y, madd, mmul, tr, eye, read_P, mat2, zeros2; cbn; lra).
        rewrite (I1 Y), EY by lra. cbn [bind]. eexists. split; [reflexivity|]. cbn [ko_b ko_P]. split.
        * fext. destruct x; unfold mvec, vadd, vsub, madd, mmul, tr, eye, read_P, mat2, zeros2, read_x, read_Z, read_X, read_V, one_v; cbn; [|lra].
          unfold mvec, vadd, vsub, madd, mmul, tr, eye, read_P, mat2, zeros2, one_v; cbn; lra.
        * fext. unfold read_P, madd, msub, mmul, tr, eye, mat2, zeros2. destruct x as [|[|x]]; (destruct x0 as [|[|x0]]); cbn; lra.
      + unfold inv02 at 1. cbn [Nat.eqb bind]. eexists. split; [reflexivity|]. cbn [ko_b ko_P]. split.
        * fext. destruct x; unfold mvec, vadd, vsub, eye, mat2, read_x, one_v; cbn; [|lra]. unfold mvec; cbn. lra.
        * fext. unfold read_P, madd, msub, mmul, tr, eye, mat2, zeros2. destruct x as [|[|x]]; (destruct x0 as [|[|x0]]); cbn; lra.
    - split; [apply mat2_supported; auto|]. split; [intros n o; apply V1|]. split; [intros n o; apply V1|].
      split; [intros [|[|n]] o; [apply V1|apply V1|intros i Hi; reflexivity]|]. intros n.
      split; [intros o; apply V1|]. split; [apply sup_eye|]. split; [apply sup_eye|].
      split; [intros i j Hij; unfold eye; destruct (Nat.eqb_spec i j); destruct (Nat.ltb_spec i (read_p n)); cbn; auto; destruct n as [|[|n]]; cbn [read_p] in *; lia|].
      split; [intros i j _; reflexivity|]. split; [intros i j _; reflexivity|]. apply sup_eye. }
  split; [exact W|]. apply (C92_any_number_of_assimilations inv02 inv02_ok three three_expectation _ _ _ _ _ _ _ _ _ _ _ _ _ _ _ _ W 2).
Qed.
