(** Property C93: the filter works with the matrices it is given, and does not fail. *)
From Coq Require Import FunctionalExtensionality.
From Verif Require Import Prelude M_Coeffs M_Recurrence M_Assembly S_Network M_Simulation M_Kalman L_Gauss L_Inverse P_Kalman P_SquareRoot.
From Verif Require Import M_FilterSetup.

(** ** What the documentation says an argument stands for: a matrix of [r] rows and [c] columns *)
Inductive stands_for (M : nat) (default : mat) : argument -> nat -> nat -> mat -> Prop :=
  | sf_absent : stands_for M default Absent M M default
  | sf_scalar s A : (forall i j, A i j = if Nat.ltb i M && Nat.eqb i j then s else 0) -> stands_for M default (Scalar s) M M A
  | sf_vector n v A : (forall i j, A i j = if Nat.ltb i n && Nat.eqb i j then v i else 0) -> stands_for M default (Vector n v) n n A
  | sf_matrix r c A : supported r c A -> stands_for M default (Matrix r c A) r c A.

(** Arguments that are not matrices of one column (or of no row). *)
Definition several_columns (a : argument) : Prop := match a with Matrix r c _ => r <> 0%nat /\ c <> 1%nat | _ => True end.

Lemma configured M d a r c A : stands_for M d a r c A -> several_columns a -> configure M d a = Grid r c A.
Proof.
  intros [ |s A' E|n v A' E|r' c' A' S] Hs; cbn [configure].
  - reflexivity.
  - f_equal. fext. rewrite E. unfold eye. destruct (_ && _); ring.
  - f_equal. fext. now rewrite E.
  - destruct Hs as [Hr Hc]. destruct (Nat.eqb_spec r' (r' * c')) as [Q|]; [|reflexivity]. exfalso.
    destruct c' as [|[|c']]; [|lia|]; nia.
Qed.
Lemma stands_supported M d a r c A : supported M M d -> stands_for M d a r c A -> supported r c A.
Proof.
  intros Sd [ |s A' E|n v A' E|r' c' A' S]; auto; intros i j Hij; rewrite E;
    match goal with |- context [Nat.ltb i ?k] => destruct (Nat.ltb_spec i k); destruct (Nat.eqb_spec i j); cbn [andb]; auto; lia end.
Qed.

Lemma dim_same n : dim n n = Some n. Proof. unfold dim. now rewrite Nat.eqb_refl. Qed.
Lemma pick_same n i : pick n n i = i. Proof. unfold pick. now rewrite Nat.eqb_refl. Qed.
Lemma zip_grid f r c A B : zip f (Grid r c A) (Grid r c B) = Some (Grid r c (fun i j => f (A i j) (B i j))).
Proof. cbn [zip]. rewrite !dim_same. cbn [bind]. do 2 f_equal. fext. now rewrite !pick_same. Qed.
Lemma zip_row f n v w : zip f (Row n v) (Row n w) = Some (Row n (fun i => f (v i) (w i))).
Proof. cbn [zip]. rewrite dim_same. cbn [bind]. do 2 f_equal. apply functional_extensionality. intros i. now rewrite !pick_same. Qed.
Lemma matmul_grid r k c A B : matmul (Grid r k A) (Grid k c B) = Some (Grid r c (mmul k A B)).
Proof. cbn [matmul]. now rewrite Nat.eqb_refl. Qed.
Lemma matmul_row r k A v : matmul (Grid r k A) (Row k v) = Some (Row r (mvec k A v)).
Proof. cbn [matmul]. now rewrite Nat.eqb_refl. Qed.

Section Inverse.
Variable inv : nat -> mat -> option mat.

(** When shapes fit, the filter on shaped arrays is the filter on matrices. *)
Lemma shaped_filter M p a Z P A_1 A_2 b H C Qcov Rcov :
  kalman_nd inv M (Row p Z) (Grid M M P) (Grid M M A_1) (Grid M M A_2) (Row M b) (Grid p M H) (Grid M a C) (Grid a a Qcov) (Grid p p Rcov) =
  bind (kalman_semi_implicit inv M p a Z P A_1 A_2 b H C Qcov Rcov)
    (fun ko => Some (Row M (ko_b ko), Grid M M (ko_P ko), Grid p p (ko_Pzz ko))).
Proof.
  unfold kalman_nd, kalman_semi_implicit, inverse_of, transposed. rewrite Nat.eqb_refl.
  destruct (inv M A_1) as [Ai|]; [|reflexivity]. cbn [bind].
  repeat (rewrite ?matmul_grid, ?matmul_row, ?zip_grid, ?zip_row; cbn [bind]). rewrite Nat.eqb_refl.
  change (fun i j => ?x i j + ?y i j) with (madd x y).
  match goal with |- context [inv p ?X] => destruct (inv p X) as [Si|] eqn:ES end.
  - cbn [bind]. repeat (rewrite ?matmul_grid, ?matmul_row, ?zip_grid, ?zip_row; cbn [bind]).
    unfold madd in *. rewrite ES. cbn [bind ko_b ko_P ko_Pzz]. reflexivity.
  - unfold madd in *. rewrite ES. reflexivity.
Qed.
End Inverse.

(** Symmetric and nonnegative; positive definite on the first [n] entries. *)
Definition covariance (n : nat) (A : mat) : Prop := symmetric A /\ psd n A.
Definition definite (n : nat) (A : mat) : Prop :=
  forall x, quad n A x = 0 -> forall i, (i < n)%nat -> x i = 0.

(** The calls of [kalman_filter] of a run, each with the system of its step. *)
Record reading : Type := mkReading { rd_Z : arr; rd_A1 : mat; rd_A2 : mat; rd_b : arr }.
Fixpoint assimilate_all (inv : nat -> mat -> option mat) (M p : nat) (s : filter_setup) (l : list reading) : option (list nd * filter_setup) :=
  match l with
  | [] => Some ([], s)
  | q :: l => do r <- assimilate inv M s (Row p (rd_Z q)) (rd_A1 q) (rd_A2 q) (rd_b q);
              do r' <- assimilate_all inv M p (snd r) l; Some (fst r :: fst r', snd r')
  end.
(** The same on matrices alone: the filter of C47, C63 and C92, call after call. *)
Fixpoint filtered (inv : nat -> mat -> option mat) (M p a : nat) (P H C Qcov Rcov : mat) (l : list reading) : option (list arr * mat) :=
  match l with
  | [] => Some ([], P)
  | q :: l => do ko <- kalman_semi_implicit inv M p a (rd_Z q) P (rd_A1 q) (rd_A2 q) (rd_b q) H C Qcov Rcov;
              do r <- filtered inv M p a (ko_P ko) H C Qcov Rcov l; Some (ko_b ko :: fst r, snd r)
  end.

Section Setup.
Variable inv : nat -> mat -> option mat.
Hypothesis inv_ok : forall n A B, inv n A = Some B -> inverse n A B.
Variables (M p a : nat) (aR aQ aC aH : argument) (Rcov Qcov C H : mat).
Hypothesis (FR : stands_for M zeros2 aR p p Rcov) (FQ : stands_for M zeros2 aQ a a Qcov)
           (FC : stands_for M (eye M) aC M a C) (FH : stands_for M (eye M) aH p M H).

(** C93: arguments that fit together (p readings of M heads, a noise sources) and are not single columns are used for what
    they stand for, in every assimilation; the covariance starts at Pxx if given and at C Qcov C' otherwise. *)
Theorem C93_filter_uses_what_it_is_given : forall Pxx l,
  several_columns aR -> several_columns aQ -> several_columns aC -> several_columns aH ->
  exists s, set_up M aR aQ aC aH (match Pxx with Some P => Some (Grid M M P) | None => None end) = Some s /\
  let P0 := match Pxx with Some P => P | None => fun i j => sum_n (fun l => sum_n (fun k => C i k * Qcov k l) a * C j l) a end in
  assimilate_all inv M p s l =
    bind (filtered inv M p a P0 H C Qcov Rcov l)
      (fun r => Some (map (Row M) (fst r), mkSetup (Grid p p Rcov) (Grid a a Qcov) (Grid M a C) (Grid p M H) (Grid M M (snd r)))).
Proof.
  intros Pxx l NR NQ NC NH. unfold set_up.
  rewrite (configured _ _ _ _ _ _ FR NR), (configured _ _ _ _ _ _ FQ NQ), (configured _ _ _ _ _ _ FC NC), (configured _ _ _ _ _ _ FH NH).
  assert (G : forall l P, assimilate_all inv M p (mkSetup (Grid p p Rcov) (Grid a a Qcov) (Grid M a C) (Grid p M H) (Grid M M P)) l =
    bind (filtered inv M p a P H C Qcov Rcov l)
      (fun r => Some (map (Row M) (fst r), mkSetup (Grid p p Rcov) (Grid a a Qcov) (Grid M a C) (Grid p M H) (Grid M M (snd r))))).
  { clear l. induction l as [|q l IH]; intros P; cbn [assimilate_all filtered]; [reflexivity|].
    unfold assimilate. cbn [fs_P fs_H fs_C fs_Q fs_R]. rewrite shaped_filter.
    destruct (kalman_semi_implicit _ _ _ _ _ _ _ _ _ _ _ _ _) as [ko|]; [|reflexivity]. cbn [bind fst snd]. rewrite IH.
    destruct (filtered _ _ _ _ _ _ _ _ _ l) as [r|]; reflexivity. }
  destruct Pxx as [P|].
  - eexists. split; [reflexivity|]. apply G.
  - cbn [transposed]. rewrite matmul_grid. cbn [bind]. rewrite matmul_grid. cbn [bind]. eexists. split; [reflexivity|]. apply G.
Qed.

(** C93: with errors of the gauges that leave no reading exact, the filter never fails: each call of any sequence returns a
    right-hand side of M entries. *)
Theorem C93_filter_never_fails : forall Pxx l,
  (forall n A, nonsingular n A -> exists B, inv n A = Some B) ->
  several_columns aR -> several_columns aQ -> several_columns aC -> several_columns aH ->
  covariance p Rcov -> definite p Rcov -> covariance a Qcov ->
  match Pxx with Some P => supported M M P /\ covariance M P | None => True end ->
  (forall q, In q l -> nonsingular M (rd_A1 q) /\ supported M M (rd_A1 q) /\ supported M M (rd_A2 q) /\ vsupported M (rd_b q)) ->
  exists s bs s', set_up M aR aQ aC aH (match Pxx with Some P => Some (Grid M M P) | None => None end) = Some s /\
    assimilate_all inv M p s l = Some (map (Row M) bs, s') /\ length bs = length l.
Proof.
  intros Pxx l HC NR NQ NC NH [YR PR] DR [YQ PQ] HP Hl.
  destruct (C93_filter_uses_what_it_is_given Pxx l NR NQ NC NH) as (s & Es & Ea). cbv zeta in Ea.
  assert (SZ : supported M M zeros2) by (intros i j _; reflexivity).
  pose proof (stands_supported _ _ _ _ _ _ SZ FR) as SR. pose proof (stands_supported _ _ _ _ _ _ SZ FQ) as SQ.
  pose proof (stands_supported _ _ _ _ _ _ (sup_eye M) FC) as SC. pose proof (stands_supported _ _ _ _ _ _ (sup_eye M) FH) as SH.
  assert (G : forall l P, supported M M P -> symmetric P -> psd M P ->
     (forall q, In q l -> nonsingular M (rd_A1 q) /\ supported M M (rd_A1 q) /\ supported M M (rd_A2 q) /\ vsupported M (rd_b q)) ->
     exists r, filtered inv M p a P H C Qcov Rcov l = Some r /\ length (fst r) = length l).
  { clear l Hl Ea. induction l as [|q l IH]; intros P SP YP PP Hl; cbn [filtered]; [eexists; split; reflexivity|].
    destruct (Hl q (or_introl eq_refl)) as (N1 & S1 & S2 & Sb).
    assert (Ek : exists ko, kalman_semi_implicit inv M p a (rd_Z q) P (rd_A1 q) (rd_A2 q) (rd_b q) H C Qcov Rcov = Some ko).
    { unfold kalman_semi_implicit. destruct (HC M _ N1) as [Ai ->]. cbn [bind].
      match goal with |- context [inv p (madd (mmul M (mmul M H ?X) (tr H)) Rcov)] => set (P1 := X) end.
      assert (PP1 : psd M P1).
      { intros x. unfold P1. rewrite quad_madd.
        replace (mmul M (mmul M (mmul M (mmul M Ai (rd_A2 q)) P) (tr (rd_A2 q))) (tr Ai)) with (mmul M (mmul M (mmul M Ai (rd_A2 q)) P) (tr (mmul M Ai (rd_A2 q))))
          by (rewrite tr_mmul, !mmul_assoc; reflexivity).
        rewrite !quad_congruence. apply Rplus_le_le_0_compat; [apply PP|apply PQ]. }
      destruct (HC p (madd (mmul M (mmul M H P1) (tr H)) Rcov)) as [Si ->]; [|cbn [bind]; eauto].
      intros v Hv. apply DR.
      assert (Q0 : quad p (madd (mmul M (mmul M H P1) (tr H)) Rcov) v = 0).
      { unfold quad. apply sum_n_0. intros i Hi. unfold mvec. rewrite (Hv i Hi). ring. }
      rewrite quad_madd, quad_congruence in Q0. pose proof (PP1 (mvec p (tr H) v)). pose proof (PR v). lra. }
    destruct Ek as [ko Ek]. rewrite Ek. cbn [bind].
    destruct (C47_covariances_stay_symmetric inv inv_ok M p a (rd_Z q) P (rd_A1 q) (rd_A2 q) (rd_b q) H C Qcov Rcov Sb SP S1 S2 SH SC SQ SR ko Ek YP YQ YR) as [Y' _].
    destruct (C47_observation_reduces_uncertainty inv inv_ok M p a (rd_Z q) P (rd_A1 q) (rd_A2 q) (rd_b q) H C Qcov Rcov Sb SP S1 S2 SH SC SQ SR ko Ek YP YQ YR PP PQ PR) as (P1 & _ & B).
    destruct (kalman_unfold inv inv_ok M p a (rd_Z q) P (rd_A1 q) (rd_A2 q) (rd_b q) H C Qcov Rcov Sb SP S1 S2 SH SC SQ SR ko Ek) as (Ai & P1' & Si & IA & SP1 & _ & K).
    cbv zeta in K. destruct K as (_ & _ & SL & _ & EP & _).
    assert (SP' : supported M M (ko_P ko)).
    { rewrite EP. apply (sup_mmul M M M M M); [|exact SP1]. apply sup_msub; [apply sup_eye|]. eapply sup_mmul; [exact SL|exact SH]. }
    destruct (IH (ko_P ko) SP' Y' (fun x => proj1 (B x)) ltac:(intros; apply Hl; now right)) as (r & -> & Lr). cbn [bind].
    eexists. split; [reflexivity|]. cbn [fst length]. now rewrite Lr. }
  assert (exists r, filtered inv M p a (match Pxx with Some P => P | None => fun i j => sum_n (fun l => sum_n (fun k => C i k * Qcov k l) a * C j l) a end) H C Qcov Rcov l = Some r
    /\ length (fst r) = length l) as (r & Er & Lr).
  { destruct Pxx as [P|].
    - destruct HP as [SP [YP PP]]. apply G; auto.
    - change (fun i j => sum_n (fun l => sum_n (fun k => C i k * Qcov k l) a * C j l) a) with (mmul a (mmul a C Qcov) (tr C)). apply G; auto.
      + eapply sup_mmul; [eapply sup_mmul; [exact SC|exact SQ]|apply sup_tr, SC].
      + apply tr_sym. apply tr_sym in YQ. rewrite !tr_mmul, tr_tr, YQ, mmul_assoc. reflexivity.
      + intros x. rewrite quad_congruence. apply PQ. }
  rewrite Er in Ea. cbn [bind] in Ea. exists s, (fst r). eexists. split; [exact Es|]. split; [exact Ea|exact Lr].
Qed.
End Setup.

(** ** Where the set-up goes wrong *)

(** One noise source: C is documented as a matrix with one column per noise source; with a single one the set-up reduces it
    to its first entry, and without Pxx no assimilation is possible, whatever the covariance of the source. *)
Theorem C93_single_noise_source_refuted : forall inv M aR aQ aH Cm Qm Z A_1 A_2 b,
  (0 < M)%nat -> stands_for M zeros2 aQ 1 1 Qm ->
  bind (set_up M aR aQ (Matrix M 1 Cm) aH None) (fun s => assimilate inv M s Z A_1 A_2 b) = None.
Proof.
  intros inv M aR aQ aH Cm Qm Z A_1 A_2 b HM FQ.
  assert (EC : configure M (eye M) (Matrix M 1 Cm) = Row 1 (fun i => Cm i i)).
  { cbn [configure]. rewrite Nat.mul_1_r, Nat.eqb_refl. f_equal. lia. }
  unfold set_up. rewrite EC.
  assert (K : (exists v, configure M zeros2 aQ = Row 1 v) \/ exists A, configure M zeros2 aQ = Grid 1 1 A).
  { inversion FQ; subst; cbn [configure Nat.eqb Nat.mul Nat.add Nat.min]; eauto. }
  destruct K as [[v ->]|[A ->]]; cbn [matmul Nat.eqb bind transposed]; [reflexivity|].
  unfold assimilate. cbn [fs_P fs_H fs_C fs_Q fs_R]. unfold kalman_nd. destruct (inverse_of inv (Grid M M A_1)) as [x|] eqn:E; [|reflexivity]. cbn [bind].
  destruct (matmul x (Row M b)); [|reflexivity]. cbn [bind]. destruct (matmul x (Grid M M A_2)) as [[| |]|]; reflexivity.
Qed.

(** With Pxx given the noise of the source goes to every head: here it should reach the first of two heads only, and the
    variance of the reading of the second is reported as 2 instead of 1. *)
Definition first_only : mat := fun i j => if Nat.eqb i 0 && Nat.eqb j 0 then 1 else 0.
Theorem C93_noise_reaches_other_heads_refuted : exists s,
  set_up 2 (Scalar 1) (Vector 1 (fun _ => 1)) (Matrix 2 1 first_only) Absent (Some (Grid 2 2 zeros2)) = Some s /\ exists bh P' zz,
  kalman_nd inv2 2 (Row 2 zeros) (fs_P s) (Grid 2 2 (eye 2)) (Grid 2 2 (eye 2)) (Row 2 zeros) (fs_H s) (fs_C s) (fs_Q s) (fs_R s) = Some (bh, P', Grid 2 2 zz) /\
  zz 1%nat 1%nat = 2 /\
  first_only 1%nat 0%nat * 1 * first_only 1%nat 0%nat + 1 = 1.
Proof.
  eexists. unfold set_up. cbn [configure Nat.eqb Nat.mul Nat.add Nat.min bind matmul].
  assert (I1 : inv2 2 (eye 2) = Some (mat2 2 1 0 0 1)).
  { unfold inv2, eye. cbn. destruct (Req_EM_T _ 0); [lra|]. do 2 f_equal; lra. }
  split; [reflexivity|]. cbn [fs_P fs_H fs_C fs_Q fs_R].
  unfold kalman_nd, inverse_of. cbn [Nat.eqb]. rewrite I1. cbn [bind].
  cbn [matmul zip dim transposed Nat.eqb bind].
  match goal with |- context [inv2 2 ?X] => assert (I2 : exists B, inv2 2 X = Some B) end.
  { unfold inv2. cbn [Nat.eqb]. destruct (Req_EM_T _ 0) as [Q|]; [exfalso|eauto].
    unfold pick, mmul, tr, eye, mat2, zeros2, first_only in Q. cbn in Q. lra. }
  destruct I2 as [B I2]. rewrite I2. cbn [bind matmul zip dim Nat.eqb]. eexists _, _, _. split; [reflexivity|]. split.
  - unfold pick, mmul, tr, eye, mat2, zeros2, first_only. cbn. lra.
  - unfold first_only. cbn. lra.
Qed.

(** A scalar error of the gauges becomes a matrix for as many gauges as there are heads: with fewer or more gauges no
    assimilation is possible. *)
Theorem C93_scalar_gauge_error_refuted : forall inv M p a r aQ aC Hm Qcov C Pxx Z A_1 A_2 b,
  (2 <= M)%nat -> (0 < p)%nat -> p <> M ->
  stands_for M zeros2 aQ a a Qcov -> stands_for M (eye M) aC M a C -> several_columns aQ -> several_columns aC ->
  bind (set_up M (Scalar r) aQ aC (Matrix p M Hm) (match Pxx with Some P => Some (Grid M M P) | None => None end))
    (fun s => assimilate inv M s Z A_1 A_2 b) = None.
Proof.
  intros inv M p a r aQ aC Hm Qcov C Pxx Z A_1 A_2 b HM Hp Ne FQ FC NQ NC. unfold set_up.
  rewrite (configured _ _ _ _ _ _ FQ NQ), (configured _ _ _ _ _ _ FC NC).
  assert (EH : configure M (eye M) (Matrix p M Hm) = Grid p M Hm).
  { cbn [configure]. destruct (Nat.eqb_spec p (p * M)); [nia|reflexivity]. }
  rewrite EH. cbn [configure transposed]. rewrite matmul_grid. cbn [bind]. rewrite matmul_grid.
  assert (G : forall P, assimilate inv M (mkSetup (Grid M M (fun i j => r * eye M i j)) (Grid a a Qcov) (Grid M a C) (Grid p M Hm) (Grid M M P)) Z A_1 A_2 b = None).
  { intros P. unfold assimilate. cbn [fs_P fs_H fs_C fs_Q fs_R]. unfold kalman_nd, inverse_of at 1, transposed. rewrite Nat.eqb_refl.
    destruct (inv M A_1) as [Ai|]; [|reflexivity]. cbn [bind].
    repeat (rewrite ?matmul_grid, ?matmul_row, ?zip_grid; cbn [bind]).
    cbn [zip]. unfold dim. destruct (Nat.eqb_spec p M); [contradiction|]. destruct (Nat.eqb_spec M 1); [lia|].
    destruct (Nat.eqb_spec p 1) as [->|]; [|reflexivity]. cbn [bind]. unfold inverse_of. rewrite Nat.eqb_refl.
    destruct (inv M _) as [Si|]; [|reflexivity]. cbn [bind matmul]. destruct (Nat.eqb_spec 1 M); [lia|]. reflexivity. }
  destruct Pxx; cbn [bind]; apply G.
Qed.

(** With the default covariances (nothing is uncertain) the first assimilation raises. *)
Theorem C93_defaults_refuted : forall inv M Z A_1 A_2 b,
  (forall n A B, inv n A = Some B -> inverse n A B) -> (0 < M)%nat ->
  bind (set_up M Absent Absent Absent Absent None) (fun s => assimilate inv M s (Row M Z) A_1 A_2 b) = None.
Proof.
  intros inv M Z A_1 A_2 b Hinv HM. unfold set_up. cbn [configure transposed]. rewrite matmul_grid. cbn [bind]. rewrite matmul_grid. cbn [bind].
  unfold assimilate. cbn [fs_P fs_H fs_C fs_Q fs_R]. rewrite shaped_filter. unfold kalman_semi_implicit.
  destruct (inv M A_1) as [Ai|]; [|reflexivity]. cbn [bind].
  match goal with |- context [inv M ?X] => set (Y := X); assert (Z0 : forall i j, Y i j = 0) end.
  { intros i j. unfold Y.
    assert (A0 : forall k A, mmul k A zeros2 = zeros2) by (intros; fext; unfold mmul, zeros2; apply sum_n_0; intros; ring).
    assert (B0 : forall k A, mmul k zeros2 A = zeros2) by (intros; fext; unfold mmul, zeros2; apply sum_n_0; intros; ring).
    assert (C0 : madd zeros2 zeros2 = zeros2) by (fext; unfold madd, zeros2; ring).
    rewrite !A0, !B0, !A0, !B0, !C0, !A0, !B0, C0. reflexivity. }
  destruct (inv M Y) as [Si|] eqn:ES; [|reflexivity]. exfalso. destruct (Hinv _ _ _ ES) as [_ I]. destruct (I 0%nat 0%nat HM HM) as [I1 _]. rewrite Nat.eqb_refl in I1.
  rewrite sum_n_0 in I1 by (intros l _; rewrite Z0; ring). lra.
Qed.

(** Readings in the documented shape (one column): no call returns a vector; what replaces the right-hand side is a matrix. *)
Theorem C93_column_of_readings_refuted : forall inv M p a z P A_1 A_2 b H C Qcov Rcov bh P' zz,
  kalman_nd inv M (Grid p 1 z) (Grid M M P) (Grid M M A_1) (Grid M M A_2) (Row M b) (Grid p M H) (Grid M a C) (Grid a a Qcov) (Grid p p Rcov)
    = Some (bh, P', zz) ->
  exists n B, bh = Grid M n B.
Proof.
  intros inv M p a z P A_1 A_2 b H C Qcov Rcov bh P' zz. unfold kalman_nd, inverse_of, transposed. rewrite !Nat.eqb_refl.
  destruct (inv M A_1) as [Ai|]; [|discriminate]. cbn [bind].
  repeat (rewrite ?matmul_grid, ?matmul_row, ?zip_grid, ?zip_row; cbn [bind]). rewrite Nat.eqb_refl.
  destruct (inv p _) as [Si|]; [|discriminate]. cbn [bind].
  repeat (rewrite ?matmul_grid, ?matmul_row, ?zip_grid, ?zip_row; cbn [bind]).
  cbn [zip]. destruct (dim 1 p) as [q|]; [|discriminate]. cbn [bind]. rewrite matmul_grid. cbn [bind].
  destruct (dim M q) as [n|]; [|discriminate]. cbn [bind]. rewrite matmul_grid. cbn [bind]. intros E. injection E as <- _ _. eauto.
Qed.

(** ** Two heads, both read with errors of 0.1 and 0.2 m2, noise of 1 m2 at both: two assimilations return; with one reading
    given as a column the right-hand side becomes a 2 by 2 matrix. *)
Definition two_readings : list reading := [mkReading (one_v 3) (eye 2) (eye 2) (one_v 2); mkReading (one_v 4) (eye 2) (eye 2) (one_v 3)].
Example C93_example :
  (exists s b1 b2 s', set_up 2 (Vector 2 (fun i => match i with O => 1/10 | _ => 1/5 end)) (Scalar 1) Absent Absent None = Some s /\
     assimilate_all gauss_inv 2 2 s two_readings = Some ([Row 2 b1; Row 2 b2], s')) /\
  exists B P' zz, kalman_nd inv2 2 (Grid 1 1 (eye 1)) (Grid 2 2 (eye 2)) (Grid 2 2 (eye 2)) (Grid 2 2 (eye 2)) (Row 2 zeros)
     (Grid 1 2 H12) (Grid 2 2 (eye 2)) (Grid 2 2 (eye 2)) (Grid 1 1 (eye 1)) = Some (Grid 2 2 B, P', zz).
Proof.
  split.
  - set (Rm := fun i j : nat => if Nat.ltb i 2 && Nat.eqb i j then (match i with O => 1/10 | _ => 1/5 end) else 0).
    assert (NE : nonsingular 2 (eye 2)).
    { intros v Hv j Hj. pose proof (Hv 0%nat ltac:(lia)) as V0. pose proof (Hv 1%nat ltac:(lia)) as V1. unfold eye in V0, V1. cbn in V0, V1.
      destruct j as [|[|]]; [lra|lra|lia]. }
    destruct (C93_filter_never_fails gauss_inv gauss_inv_ok 2 2 2 (Vector 2 (fun i => match i with O => 1/10 | _ => 1/5 end)) (Scalar 1) Absent Absent
      Rm (eye 2) (eye 2) (eye 2)) with (Pxx := @None mat) (l := two_readings) as (s & bs & s' & Es & Ea & El).
    + constructor. reflexivity.
    + constructor. reflexivity.
    + constructor.
    + constructor.
    + exact gauss_inv_complete.
    + exact I.
    + exact I.
    + exact I.
    + exact I.
    + split.
      * intros i j. unfold Rm. destruct (Nat.eqb_spec i j) as [->|]; [now rewrite Nat.eqb_refl|]. destruct (Nat.eqb_spec j i); [lia|]. now rewrite !andb_false_r.
      * intros x. unfold quad, mvec, Rm. cbn. pose proof (Rle_0_sqr (x 0%nat)). pose proof (Rle_0_sqr (x 1%nat)). unfold Rsqr in *. lra.
    + intros x Hx. unfold quad, mvec, Rm in Hx. cbn in Hx. pose proof (Rle_0_sqr (x 0%nat)) as X0. pose proof (Rle_0_sqr (x 1%nat)) as X1.
      assert (Rsqr (x 0%nat) = 0 /\ Rsqr (x 1%nat) = 0) as [Y0 Y1] by (unfold Rsqr in *; lra).
      intros i Hi. destruct i as [|[|]]; [now apply Rsqr_0_uniq|now apply Rsqr_0_uniq|lia].
    + split; [apply tr_sym, eye_tr|]. intros x. unfold quad, mvec, eye. cbn. pose proof (Rle_0_sqr (x 0%nat)). pose proof (Rle_0_sqr (x 1%nat)). unfold Rsqr in *. lra.
    + exact I.
    + intros q Hq. assert (V1 : forall x, vsupported 2 (one_v x)) by (intros x i Hi; unfold one_v; destruct i; [lia|reflexivity]).
      destruct Hq as [<-|[<-|[]]]; cbn [rd_A1 rd_A2 rd_b]; repeat split; auto using sup_eye.
    + destruct bs as [|b1 [|b2 [|]]]; try discriminate El. exists s, b1, b2, s'. split; [exact Es|exact Ea].
  - assert (I1 : inv2 2 (eye 2) = Some (mat2 2 1 0 0 1)).
    { unfold inv2, eye. cbn. destruct (Req_EM_T _ 0); [lra|]. do 2 f_equal; lra. }
    unfold kalman_nd, inverse_of. cbn [Nat.eqb]. rewrite I1. cbn [bind].
    cbn [matmul zip dim transposed Nat.eqb bind].
    match goal with |- context [inv2 1 ?X] => assert (I2 : exists B, inv2 1 X = Some B) end.
    { unfold inv2. cbn [Nat.eqb]. destruct (Req_EM_T _ 0) as [Q|]; [exfalso|eauto].
      unfold pick, mmul, tr, eye, mat2, H12 in Q. cbn in Q. lra. }
    destruct I2 as [B I2]. rewrite I2. cbn [bind matmul zip dim Nat.eqb]. eauto.
Qed.
