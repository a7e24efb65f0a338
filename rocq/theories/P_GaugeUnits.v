(** Property C96: units, order and combination of the gauges, and the unit of the variances, are conventions. *)
From Coq Require Import ZArith FunctionalExtensionality.
From Verif Require Import Prelude M_Coeffs M_Assembly S_Network M_Simulation M_Kalman P_Kalman P_SquareRoot.

Definition scal (c : R) (A : mat) : mat := fun i j => c * A i j.

Lemma scal_mmul_l k c A B : mmul k (scal c A) B = scal c (mmul k A B).
Proof. fext. unfold mmul, scal. rewrite <- sum_n_scal. apply sum_n_ext; intros; ring. Qed.
Lemma scal_mmul_r k c A B : mmul k A (scal c B) = scal c (mmul k A B).
Proof. fext. unfold mmul, scal. rewrite <- sum_n_scal. apply sum_n_ext; intros; ring. Qed.
Lemma scal_madd c A B : madd (scal c A) (scal c B) = scal c (madd A B).
Proof. fext. unfold madd, scal. ring. Qed.
Lemma scal_scal c d A : scal c (scal d A) = scal (c * d) A.
Proof. fext. unfold scal. ring. Qed.
Lemma scal_1 A : scal 1 A = A.
Proof. fext. unfold scal. ring. Qed.
Lemma scal_tr c A : tr (scal c A) = scal c (tr A).
Proof. reflexivity. Qed.
Lemma sup_scal n m c A : supported n m A -> supported n m (scal c A).
Proof. intros H i j Hij. unfold scal. rewrite H by auto. ring. Qed.

Lemma inverse_of n A B : supported n n A -> supported n n B -> mmul n A B = eye n -> mmul n B A = eye n -> inverse n A B.
Proof.
  intros SA SB E1 E2. split; [exact SB|]. intros i j Hi Hj.
  split; [pose proof (f_equal (fun X : mat => X i j) E1) as E|pose proof (f_equal (fun X : mat => X i j) E2) as E];
    unfold mmul, eye in E; rewrite E; apply Nat.ltb_lt in Hi; rewrite Hi; reflexivity.
Qed.
(** ** One assimilation *)
Section Once.
Variable inv : nat -> mat -> option mat.
Hypothesis inv_sound : forall n A B, inv n A = Some B -> inverse n A B.
Variables (M p a : nat).
(** [np.linalg.inv] inverts what can be inverted. *)
Hypothesis inv_all : forall A, supported p p A -> (exists B, inverse p A B) -> exists B, inv p A = Some B.
(** [T] turns readings into other readings: other units, another order, sums and differences; [c] is the unit of variance. *)
Variables (T Ti : mat) (c : R).
Hypothesis (ST : supported p p T) (HT : inverse p T Ti) (Hc : c <> 0).

Lemma transformed_inverse S Si : supported p p S -> inverse p S Si ->
  inverse p (scal c (mmul p (mmul p T S) (tr T))) (scal (/ c) (mmul p (mmul p (tr Ti) Si) Ti)).
Proof.
  intros SS IS. destruct (inverse_eq p T Ti ST HT) as [E1 E2]. destruct (inverse_eq p S Si SS IS) as [F1 F2].
  pose proof (proj1 HT) as STi. pose proof (proj1 IS) as SSi.
  assert (G1 : mmul p (tr T) (tr Ti) = eye p) by (rewrite <- tr_mmul, E2; apply eye_tr).
  assert (G2 : mmul p (tr Ti) (tr T) = eye p) by (rewrite <- tr_mmul, E1; apply eye_tr).
  apply inverse_of.
  - apply sup_scal. eapply sup_mmul; [eapply sup_mmul; [exact ST|exact SS]|apply sup_tr, ST].
  - apply sup_scal. eapply sup_mmul; [eapply sup_mmul; [apply sup_tr, STi|exact SSi]|exact STi].
  - rewrite scal_mmul_l, scal_mmul_r, scal_scal. replace (c * / c) with 1 by (field; exact Hc). rewrite scal_1.
    rewrite !mmul_assoc. rewrite <- (mmul_assoc p p (tr T)), G1.
    rewrite (eye_l p p) by (eapply sup_mmul; [exact SSi|exact STi]).
    rewrite <- (mmul_assoc p p S), F1. rewrite (eye_l p p) by exact STi. exact E1.
  - rewrite scal_mmul_l, scal_mmul_r, scal_scal. replace (/ c * c) with 1 by (field; exact Hc). rewrite scal_1.
    rewrite !mmul_assoc. rewrite <- (mmul_assoc p p Ti), E2.
    rewrite (eye_l p p) by (eapply sup_mmul; [exact SS|apply sup_tr, ST]).
    rewrite <- (mmul_assoc p p Si), F2. rewrite (eye_l p p) by apply sup_tr, ST. exact G2.
Qed.

Variables (Z : arr) (P A_1 A_2 : mat) (b : arr) (H C Qcov Rcov : mat).
Hypothesis (SZ : vsupported p Z) (Sb : vsupported M b).
Hypothesis (SP : supported M M P) (S1 : supported M M A_1) (S2 : supported M M A_2).
Hypothesis (SH : supported p M H) (SC : supported M a C) (SQ : supported a a Qcov) (SR : supported p p Rcov).

Lemma gauges_once :
  match kalman_semi_implicit inv M p a Z P A_1 A_2 b H C Qcov Rcov,
        kalman_semi_implicit inv M p a (mvec p T Z) (scal c P) A_1 A_2 b (mmul p T H) C (scal c Qcov) (scal c (mmul p (mmul p T Rcov) (tr T))) with
  | Some k, Some k' => ko_b k' = ko_b k /\ ko_P k' = scal c (ko_P k) /\ ko_Pzz k' = scal c (mmul p (mmul p T (ko_Pzz k)) (tr T))
  | None, None => True
  | _, _ => False
  end.
Proof.
  destruct (inverse_eq p T Ti ST HT) as [E1 E2]. pose proof (proj1 HT) as STi.
  assert (G1 : mmul p (tr T) (tr Ti) = eye p) by (rewrite <- tr_mmul, E2; apply eye_tr).
  unfold kalman_semi_implicit. destruct (inv M A_1) as [Ai|] eqn:EA; cbn [bind]; [|exact I].
  set (P1 := madd (mmul M (mmul M (mmul M (mmul M Ai A_2) P) (tr A_2)) (tr Ai)) (mmul a (mmul a C Qcov) (tr C))).
  assert (EP : madd (mmul M (mmul M (mmul M (mmul M Ai A_2) (scal c P)) (tr A_2)) (tr Ai)) (mmul a (mmul a C (scal c Qcov)) (tr C)) = scal c P1).
  { unfold P1. rewrite <- scal_madd. rewrite !scal_mmul_r, !scal_mmul_l. reflexivity. }
  rewrite !EP. pose proof (inv_sound _ _ _ EA) as IA.
  assert (SP1 : supported M M P1).
  { unfold P1. apply sup_madd.
    - eapply sup_mmul; [eapply sup_mmul; [eapply sup_mmul; [eapply sup_mmul; [apply IA|exact S2]|exact SP]|apply sup_tr, S2]|apply sup_tr, IA].
    - eapply sup_mmul; [eapply sup_mmul; [exact SC|exact SQ]|apply sup_tr, SC]. }
  set (S := madd (mmul M (mmul M H P1) (tr H)) Rcov).
  assert (SS : supported p p S) by (apply sup_madd; [eapply sup_mmul; [eapply sup_mmul; [exact SH|exact SP1]|apply sup_tr, SH]|exact SR]).
  assert (ES : madd (mmul M (mmul M (mmul p T H) (scal c P1)) (tr (mmul p T H))) (scal c (mmul p (mmul p T Rcov) (tr T)))
               = scal c (mmul p (mmul p T S) (tr T))).
  { unfold S. rewrite scal_mmul_r, scal_mmul_l, scal_madd. f_equal.
    rewrite (mmul_madd_r p T), mmul_madd_l. f_equal. rewrite tr_mmul, !mmul_assoc. reflexivity. }
  rewrite !ES. set (S' := scal c (mmul p (mmul p T S) (tr T))).
  assert (SS' : supported p p S') by (apply sup_scal; eapply sup_mmul; [eapply sup_mmul; [exact ST|exact SS]|apply sup_tr, ST]).
  assert (Back : forall B, inverse p S' B -> inverse p S (scal c (mmul p (mmul p (tr T) B) T))).
  { intros B IB. destruct (inverse_eq p S' B SS' IB) as [F1 F2]. pose proof (proj1 IB) as SB.
    assert (G2 : mmul p (tr Ti) (tr T) = eye p) by (rewrite <- tr_mmul, E1; apply eye_tr).
    assert (ESS : S = scal (/ c) (mmul p (mmul p Ti S') (tr Ti))).
    { unfold S'. rewrite scal_mmul_r, scal_mmul_l, scal_scal. replace (/ c * c) with 1 by (field; exact Hc). rewrite scal_1.
      rewrite !mmul_assoc, G1, <- (mmul_assoc p p Ti), E2. rewrite (eye_r p p S SS). symmetry. apply (eye_l p p), SS. }
    apply inverse_of; [exact SS| | |].
    - apply sup_scal. eapply sup_mmul; [eapply sup_mmul; [apply sup_tr, ST|exact SB]|exact ST].
    - rewrite ESS, scal_mmul_l, scal_mmul_r, scal_scal. replace (/ c * c) with 1 by (field; exact Hc). rewrite scal_1.
      rewrite !mmul_assoc. rewrite <- (mmul_assoc p p (tr Ti)), G2.
      rewrite (eye_l p p) by (eapply sup_mmul; [exact SB|exact ST]).
      rewrite <- (mmul_assoc p p S'), F1. rewrite (eye_l p p) by exact ST. exact E2.
    - rewrite ESS, scal_mmul_l, scal_mmul_r, scal_scal. replace (c * / c) with 1 by (field; exact Hc). rewrite scal_1.
      rewrite !mmul_assoc. rewrite <- (mmul_assoc p p T), E1.
      rewrite (eye_l p p) by (eapply sup_mmul; [exact SS'|apply sup_tr, STi]).
      rewrite <- (mmul_assoc p p B), F2. rewrite (eye_l p p) by apply sup_tr, STi. exact G1. }
  destruct (inv p S) as [Si|] eqn:E3, (inv p S') as [Si'|] eqn:E4; cbn [bind]; auto.
  - pose proof (inv_sound _ _ _ E3) as IS.
    assert (EI : Si' = scal (/ c) (mmul p (mmul p (tr Ti) Si) Ti)).
    { apply (inverse_unique p S'); [exact SS'|now apply inv_sound|apply transformed_inverse; auto]. }
    set (L := mmul p (mmul M P1 (tr H)) Si).
    assert (EL : mmul p (mmul M (scal c P1) (tr (mmul p T H))) Si' = mmul p L Ti).
    { rewrite EI, scal_mmul_l, scal_mmul_l, scal_mmul_r, scal_scal. replace (c * / c) with 1 by (field; exact Hc). rewrite scal_1.
      unfold L. rewrite tr_mmul. rewrite !mmul_assoc. do 2 f_equal. rewrite <- (mmul_assoc p p (tr T)), G1.
      apply (eye_l p p). eapply sup_mmul; [apply (proj1 IS)|exact STi]. }
    rewrite EL. cbn [ko_b ko_P ko_Pzz].
    assert (ELH : mmul p (mmul p L Ti) (mmul p T H) = mmul p L H).
    { rewrite mmul_assoc. f_equal. rewrite <- (mmul_assoc p p Ti), E2. apply (eye_l p M), SH. }
    split; [|split; [|reflexivity]].
    + do 2 f_equal. rewrite (mvec_mmul M p T H), <- mvec_vsub, mvec_mmul. f_equal. rewrite <- mvec_mmul, E2. apply eye_vec.
      intros i Hi. unfold vsub. rewrite SZ by exact Hi. rewrite (vsup_mvec M p M H _ SH i Hi). ring.
    + rewrite ELH. apply scal_mmul_r.
  - destruct (inv_all S' SS' (ex_intro _ _ (transformed_inverse S Si SS (inv_sound _ _ _ E3)))) as (B & X). rewrite X in E4. discriminate.
  - destruct (inv_all S SS (ex_intro _ _ (Back _ (inv_sound _ _ _ E4)))) as (B & X). rewrite X in E3. discriminate.
Qed.
End Once.

(** ** Any number of assimilations, with anything done to the model in between *)
Section Run.
Variable inv : nat -> mat -> option mat.
Variables (B V I : Type).
Variable solve : I -> R -> V -> B -> option B.
Variables (A1_of : B -> mat) (A2_of : B -> R -> mat) (b_of : B -> arr) (set_b : B -> arr -> B).
Variables (M p a : nat) (H C Qcov Rcov : mat).

(** What happens: the model does something (steps, loads, ...), or readings [Z] are assimilated after a step of length [dt]. *)
Inductive event : Type :=
| Advance (f : model B V -> option (model B V))
| Assimilate (i : I) (Z : arr) (dt : R).
Fixpoint live (l : list event) (m : model B V) (P : mat) : option (model B V * mat) :=
  match l with
  | [] => Some (m, P)
  | Advance f :: l => do m <- f m; live l m P
  | Assimilate i Z dt :: l =>
      do r <- kalman_filter inv B V I solve A1_of A2_of b_of set_b M i p a Z H C Qcov Rcov P dt m; live l (fst (fst r)) (snd (fst r))
  end.
End Run.
Arguments Advance {B V I}. Arguments Assimilate {B V I}.
(** The same events with other readings. *)
Definition reread {B V I} (p : nat) (T : mat) (e : event B V I) : event B V I :=
  match e with Advance f => Advance f | Assimilate i Z dt => Assimilate i (mvec p T Z) dt end.

(** C96: give the readings in other units, in another order, or as other independent combinations (any invertible matrix T), and
    the variances in another unit (c), with the gauges' matrix and error covariance changed accordingly: the model goes
    through the same states, the covariance of the heads is the same but for its unit, and one fails only where the
    other does. *)
Theorem C96_units_and_order_of_gauges_are_conventions :
  forall (inv : nat -> mat -> option mat) (B V I : Type) solve (A1_of : B -> mat) A2_of b_of set_b M p a H C Qcov Rcov T Ti c
         (l : list (event B V I)) (m : model B V) P,
  (forall n A B, inv n A = Some B -> inverse n A B) ->
  (forall A, supported p p A -> (exists B, inverse p A B) -> exists B, inv p A = Some B) ->
  supported p p T -> inverse p T Ti -> c <> 0 ->
  (forall b, supported M M (A1_of b) /\ (forall dt, supported M M (A2_of b dt)) /\ vsupported M (b_of b)) ->
  supported p M H -> supported M a C -> supported a a Qcov -> supported p p Rcov -> supported M M P ->
  (forall i Z dt, In (Assimilate i Z dt) l -> vsupported p Z) ->
  match live inv B V I solve A1_of A2_of b_of set_b M p a H C Qcov Rcov l m P,
        live inv B V I solve A1_of A2_of b_of set_b M p a (mmul p T H) C (scal c Qcov) (scal c (mmul p (mmul p T Rcov) (tr T)))
             (map (reread p T) l) m (scal c P) with
  | Some (m1, P1), Some (m2, P2) => m2 = m1 /\ P2 = scal c P1
  | None, None => True
  | _, _ => False
  end.
Proof.
  intros inv B V I solve A1_of A2_of b_of set_b M p a H C Qcov Rcov T Ti c l m P Iok Iall ST HT Hc Sm SH SC SQ SR SP SZ.
  revert m P SP SZ. induction l as [|e l IH]; intros m P SP SZ; [cbn [live map]; auto|]. destruct e as [f|i Z dt]; cbn [live map reread].
  - destruct (f m) as [m1|]; cbn [bind]; [|exact Logic.I]. apply IH; [exact SP|]. intros i Z dt Hin. eapply SZ. right. exact Hin.
  - destruct (Sm (m_body m)) as (Sa & Sb & Sc). pose proof (SZ i Z dt (or_introl eq_refl)) as Sz.
    pose proof (gauges_once inv Iok M p a Iall T Ti c ST HT Hc Z P (A1_of (m_body m)) (A2_of (m_body m) dt) (b_of (m_body m)) H C Qcov Rcov Sz SP (Sb dt) SH SC SQ SR) as G.
    unfold kalman_filter.
    destruct (kalman_semi_implicit inv M p a Z P _ _ _ H C Qcov Rcov) as [k|] eqn:Ek;
    destruct (kalman_semi_implicit inv M p a (mvec p T Z) _ _ _ _ _ _ _ _) as [k'|]; cbn [bind]; try contradiction; [|exact Logic.I].
    destruct G as (Gb & GP & _). rewrite Gb.
    match goal with |- context[solve_step' B V I solve i dt ?q] => destruct (solve_step' B V I solve i dt q) as [m1|] end; cbn [bind fst snd]; [|exact Logic.I].
    rewrite GP. apply IH.
    + destruct (kalman_unfold inv Iok M p a Z P (A1_of (m_body m)) (A2_of (m_body m) dt) (b_of (m_body m)) H C Qcov Rcov Sc SP Sa (Sb dt) SH SC SQ SR k Ek)
        as (Ai & P1 & Si & _ & SP1 & _ & K). cbv zeta in K. destruct K as (_ & _ & SL & _ & -> & _).
      eapply sup_mmul; [|exact SP1]. apply sup_msub; [apply sup_eye|]. eapply sup_mmul; [exact SL|exact SH].
    + intros i' Z' dt' Hin. eapply SZ. right. exact Hin.
Qed.

(** Two gauges, read in centimetres and in the other order: variances 10000 times as large. *)
Definition swap_cm : mat := mat2 2 0 100 100 0.
Lemma eye_mat2 : eye 2 = mat2 2 1 0 0 1.
Proof. fext. destruct x as [|[|x]]; destruct x0 as [|[|x0]]; cbn; reflexivity. Qed.
Lemma tr_mat2 a b c d : tr (mat2 2 a b c d) = mat2 2 a c b d.
Proof. fext. unfold tr. destruct x as [|[|x]]; destruct x0 as [|[|x0]]; cbn; reflexivity. Qed.
Lemma mmul_mat2 a b c d a' b' c' d' :
  mmul 2 (mat2 2 a b c d) (mat2 2 a' b' c' d') = mat2 2 (a * a' + b * c') (a * b' + b * d') (c * a' + d * c') (c * b' + d * d').
Proof. fext. unfold mmul. destruct x as [|[|x]]; destruct x0 as [|[|x0]]; cbn; ring. Qed.
Example C96_example :
  (forall n A B, inv2 n A = Some B -> inverse n A B) /\
  (forall A, supported 2 2 A -> (exists B, inverse 2 A B) -> exists B, inv2 2 A = Some B) /\
  supported 2 2 swap_cm /\ inverse 2 swap_cm (mat2 2 0 (1 / 100) (1 / 100) 0) /\
  scal 1 (mmul 2 (mmul 2 swap_cm (mat2 2 1 0 0 4)) (tr swap_cm)) = mat2 2 40000 0 0 10000 /\
  exists r, live inv2 arr unit unit (fun _ _ _ b => Some b) (fun _ => eye 2) (fun _ _ => eye 2) (fun _ => fun i => if Nat.ltb i 2 then 1 else 0) (fun _ b => b)
    2 2 0 (eye 2) (mat2 2 0 0 0 0) (mat2 2 0 0 0 0) (mat2 2 1 0 0 4)
    [Assimilate tt (fun i => if Nat.ltb i 2 then 3 else 0) 10] (mkModel 0 0%Z (fun _ => 0) (0, tt)) (mat2 2 1 0 0 1) = Some r.
Proof.
  split; [exact inv2_ok|]. split.
  { intros A SA (B & SB & HB). unfold inv2. cbn [Nat.eqb]. destruct (Req_EM_T _ 0) as [D0|]; [|eauto]. exfalso.
    pose proof (HB 0%nat 0%nat ltac:(lia) ltac:(lia)) as [E00 _]. pose proof (HB 0%nat 1%nat ltac:(lia) ltac:(lia)) as [E01 _].
    pose proof (HB 1%nat 0%nat ltac:(lia) ltac:(lia)) as [E10 _]. pose proof (HB 1%nat 1%nat ltac:(lia) ltac:(lia)) as [E11 _].
    simpl in E00, E01, E10, E11.
    assert (X : (A 0%nat 0%nat * A 1%nat 1%nat - A 0%nat 1%nat * A 1%nat 0%nat) * (B 0%nat 0%nat * B 1%nat 1%nat - B 0%nat 1%nat * B 1%nat 0%nat) = 1).
    { transitivity ((A 0%nat 0%nat * B 0%nat 0%nat + A 0%nat 1%nat * B 1%nat 0%nat) * (A 1%nat 0%nat * B 0%nat 1%nat + A 1%nat 1%nat * B 1%nat 1%nat)
        - (A 0%nat 0%nat * B 0%nat 1%nat + A 0%nat 1%nat * B 1%nat 1%nat) * (A 1%nat 0%nat * B 0%nat 0%nat + A 1%nat 1%nat * B 1%nat 0%nat)); [ring|].
      replace (A 0%nat 0%nat * B 0%nat 0%nat + A 0%nat 1%nat * B 1%nat 0%nat) with 1 by lra.
      replace (A 1%nat 0%nat * B 0%nat 1%nat + A 1%nat 1%nat * B 1%nat 1%nat) with 1 by lra.
      replace (A 0%nat 0%nat * B 0%nat 1%nat + A 0%nat 1%nat * B 1%nat 1%nat) with 0 by lra. ring. }
    rewrite D0 in X. lra. }
  split; [apply mat2_supported; auto|]. split.
  { split; [apply mat2_supported; auto|]. intros i j Hi Hj. destruct i as [|[|]]; [| |lia]; (destruct j as [|[|]]; [| |lia]); simpl; split; lra. }
  split.
  { fext. unfold scal, mmul, tr, swap_cm, mat2. destruct x as [|[|x]]; destruct x0 as [|[|x0]]; simpl; ring. }
  cbn [live]. unfold kalman_filter, kalman_semi_implicit.
  assert (E1 : exists Ai, inv2 2 (eye 2) = Some Ai /\ Ai = eye 2).
  { unfold inv2. cbn [Nat.eqb]. destruct (Req_EM_T _ 0) as [D0|]; [exfalso; cbn in D0; lra|]. eexists. split; [reflexivity|].
    fext. destruct x as [|[|x]]; destruct x0 as [|[|x0]]; cbn; try field; try reflexivity; destruct (Nat.eqb _ _); reflexivity. }
  destruct E1 as (Ai & -> & ->). cbn [bind].
  match goal with |- context[inv2 2 ?S] => assert (S2 : S = mat2 2 2 0 0 5); [|assert (E2 : exists Si, inv2 2 S = Some Si)] end.
  { rewrite eye_mat2, !tr_mat2, !mmul_mat2. fext. unfold madd, mmul. cbn [sum_n]. destruct x as [|[|x]]; destruct x0 as [|[|x0]]; cbn; ring. }
  { unfold inv2. cbn [Nat.eqb]. destruct (Req_EM_T _ 0) as [D0|]; [exfalso|eauto]. rewrite S2 in D0. cbn in D0. lra. }
  destruct E2 as (Si & ->). cbn [bind solve_step' m_body m_saved snd fst m_t m_ic]. eexists. reflexivity.
Qed.
