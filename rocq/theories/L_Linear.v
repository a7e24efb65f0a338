(** Linear systems with strictly column-dominant matrices have exactly one solution. *)
From Verif Require Import Prelude S_Network.

Definition off_sum (M : nat) (l : mat) (j : nat) : R := sum_n (fun i => if Nat.eqb i j then 0 else Rabs (l i j)) M.
Definition dominant (M : nat) (l : mat) : Prop := forall j, (j < M)%nat -> off_sum M l j < Rabs (l j j).

Lemma sum_n_zero_terms f n : (forall i, (i < n)%nat -> 0 <= f i) -> sum_n f n <= 0 -> forall i, (i < n)%nat -> f i = 0.
Proof.
  induction n as [|n IH]; intros Hf Hs i Hi; [lia|]. simpl in Hs.
  assert (0 <= sum_n f n) by (apply sum_n_nonneg; auto). pose proof (Hf n ltac:(lia)).
  destruct (Nat.eq_dec i n) as [->|]; [lra|]. apply IH; auto; try lia; lra.
Qed.

Lemma dominant_kernel M l v :
  dominant M l -> (forall i, (i < M)%nat -> sum_n (fun j => l i j * v j) M = 0) ->
  forall j, (j < M)%nat -> v j = 0.
Proof.
  intros Hd Hv.
  assert (R : forall i, (i < M)%nat ->
            Rabs (l i i) * Rabs (v i) <= sum_n (fun j => if Nat.eqb j i then 0 else Rabs (l i j) * Rabs (v j)) M).
  { intros i Hi. specialize (Hv i Hi). rewrite (sum_n_split _ M i Hi) in Hv.
    rewrite <- Rabs_mult. replace (l i i * v i) with (- sum_n (fun j => if Nat.eqb j i then 0 else l i j * v j) M) by lra.
    rewrite Rabs_Ropp. eapply Rle_trans; [apply sum_n_abs|]. apply sum_n_le. intros j Hj.
    destruct (Nat.eqb j i); [rewrite Rabs_R0; lra|]. rewrite Rabs_mult. lra. }
  assert (S : sum_n (fun j => (Rabs (l j j) - off_sum M l j) * Rabs (v j)) M <= 0).
  { assert (E : sum_n (fun j => Rabs (l j j) * Rabs (v j)) M <= sum_n (fun j => off_sum M l j * Rabs (v j)) M).
    { eapply Rle_trans; [apply sum_n_le; apply R|]. rewrite sum_n_swap.
      apply sum_n_le. intros j Hj. unfold off_sum. rewrite <- sum_n_scal_r. apply sum_n_le. intros i Hi.
      rewrite (Nat.eqb_sym j i). destruct (Nat.eqb i j); lra. }
    rewrite (sum_n_ext _ (fun j => Rabs (l j j) * Rabs (v j) - off_sum M l j * Rabs (v j))) by (intros; ring).
    rewrite sum_n_minus. lra. }
  intros j Hj. pose proof (Hd j Hj).
  assert (Z : (Rabs (l j j) - off_sum M l j) * Rabs (v j) = 0).
  { apply (sum_n_zero_terms (fun j => (Rabs (l j j) - off_sum M l j) * Rabs (v j)) M); auto.
    intros i Hi. apply Rmult_le_pos; [pose proof (Hd i Hi); lra|apply Rabs_pos]. }
  apply Rmult_integral in Z. destruct Z as [Z|Z]; [lra|].
  destruct (Req_dec (v j) 0) as [|N]; auto. apply Rabs_no_R0 in N. contradiction.
Qed.

(** Elimination of the last unknown. *)
Lemma schur_dominant M l : dominant (S M) l -> dominant M (fun i j => l i j - l i M * l M j / l M M).
Proof.
  intros Hd j Hj. unfold dominant, off_sum in Hd.
  pose proof (Hd j ltac:(lia)) as H1. pose proof (Hd M ltac:(lia)) as H2. simpl in H1, H2.
  rewrite Nat.eqb_refl in H2. destruct (Nat.eqb_spec M j) as [E|_]; [lia|]. rewrite Rplus_0_r in H2.
  assert (P : 0 < Rabs (l M M)).
  { eapply Rle_lt_trans; [|exact H2]. apply sum_n_nonneg. intros i Hi. destruct (Nat.eqb i M); [lra|apply Rabs_pos]. }
  assert (N : l M M <> 0) by (intros E; rewrite E, Rabs_R0 in P; lra).
  set (q := Rabs (l M j) / Rabs (l M M)).
  assert (Q : 0 <= q) by (unfold q; apply Rmult_le_pos; [apply Rabs_pos|left; now apply Rinv_0_lt_compat]).
  assert (T : forall i, Rabs (l i M * l M j / l M M) = Rabs (l i M) * q).
  { intros i. unfold q, Rdiv. rewrite !Rabs_mult, Rabs_inv by auto. ring. }
  rewrite (sum_n_split _ M j Hj) in H2. destruct (Nat.eqb_spec j M) as [E|_]; [lia|].
  unfold off_sum.
  apply Rle_lt_trans with
    (sum_n (fun i => if Nat.eqb i j then 0 else Rabs (l i j)) M
     + sum_n (fun i => if Nat.eqb i j then 0 else if Nat.eqb i M then 0 else Rabs (l i M)) M * q).
  - rewrite <- sum_n_scal_r, <- sum_n_plus. apply sum_n_le. intros i Hi.
    destruct (Nat.eqb_spec i j); [lra|]. destruct (Nat.eqb_spec i M) as [E|_]; [lia|]. rewrite <- T.
    unfold Rminus. eapply Rle_trans; [apply Rabs_triang|]. rewrite Rabs_Ropp. lra.
  - pose proof (Rabs_triang_inv (l j j) (l j M * l M j / l M M)) as TI. rewrite T in TI.
    assert (Rabs (l M j) = q * Rabs (l M M)) by (unfold q; field; lra).
    set (s := sum_n (fun i => if Nat.eqb i j then 0 else if Nat.eqb i M then 0 else Rabs (l i M)) M) in *.
    assert (q * s <= q * (Rabs (l M M) - Rabs (l j M))) by (apply Rmult_le_compat_l; lra). lra.
Qed.

Lemma dominant_solvable M : forall l b, dominant M l -> exists v, solves M l b v.
Proof.
  induction M as [|M IH]; intros l b Hd.
  - exists (fun _ => 0). intros j Hj; lia.
  - assert (N : l M M <> 0).
    { intros E. pose proof (Hd M ltac:(lia)) as H. rewrite E, Rabs_R0 in H.
      assert (0 <= off_sum (S M) l M); [|lra]. apply sum_n_nonneg. intros i _. destruct (Nat.eqb i M); [lra|apply Rabs_pos]. }
    destruct (IH _ (fun i => b i - l i M * b M / l M M) (schur_dominant M l Hd)) as [v Hv].
    set (x := (b M - sum_n (fun j => l M j * v j) M) / l M M).
    exists (upd v M x). intros i Hi. unfold row_holds. simpl. rewrite upd_eq.
    rewrite (sum_n_ext _ (fun j => l i j * v j)) by (intros j Hj; rewrite upd_neq by lia; reflexivity).
    destruct (Nat.eq_dec i M) as [->|].
    + unfold x. field. auto.
    + specialize (Hv i ltac:(lia)). unfold row_holds in Hv.
      rewrite (sum_n_ext _ (fun j => l i j * v j - l i M / l M M * (l M j * v j))) in Hv
        by (intros; field; auto).
      rewrite sum_n_minus, sum_n_scal in Hv.
      assert (E : sum_n (fun j => l i j * v j) M = b i - l i M * b M / l M M + l i M / l M M * sum_n (fun j => l M j * v j) M) by lra.
      rewrite E. unfold x. field. auto.
Qed.

(** Rows of the identity may be eliminated first. *)
Definition reduced (bc : nat -> bool) (l : mat) : mat :=
  fun i j => if bc i || bc j then (if Nat.eqb i j then 1 else 0) else l i j.

Lemma identity_rows_solvable M bc l b :
  (forall i j, (i < M)%nat -> (j < M)%nat -> bc i = true -> l i j = if Nat.eqb i j then 1 else 0) ->
  dominant M (reduced bc l) ->
  (exists v, solves M l b v) /\
  (forall v w, solves M l b v -> solves M l b w -> forall j, (j < M)%nat -> v j = w j).
Proof.
  intros Hb Hd.
  assert (Row : forall v i, (i < M)%nat -> bc i = true -> sum_n (fun j => l i j * v j) M = v i).
  { intros v i Hi Hbi. rewrite (sum_n_single _ M i); auto.
    - rewrite Hb by auto. rewrite Nat.eqb_refl. lra.
    - intros j Hj Hne. rewrite Hb by auto. destruct (Nat.eqb_spec i j); [congruence|lra]. }
  assert (Red : forall v i, (i < M)%nat ->
     sum_n (fun j => reduced bc l i j * v j) M
     = if bc i then v i else sum_n (fun j => if bc j then 0 else l i j * v j) M).
  { intros v i Hi. unfold reduced. destruct (bc i) eqn:E; simpl.
    - rewrite (sum_n_single _ M i); auto.
      + rewrite Nat.eqb_refl. lra.
      + intros j Hj Hne. destruct (Nat.eqb_spec i j); [congruence|lra].
    - apply sum_n_ext. intros j Hj. destruct (bc j) eqn:Ej; auto.
      destruct (Nat.eqb_spec i j); [congruence|lra]. }
  split.
  - destruct (dominant_solvable M (reduced bc l)
        (fun i => if bc i then b i else b i - sum_n (fun j => if bc j then l i j * b j else 0) M) Hd) as [v Hv].
    exists v.
    assert (Vb : forall i, (i < M)%nat -> bc i = true -> v i = b i).
    { intros i Hi E. specialize (Hv i Hi). unfold row_holds in Hv. rewrite Red, E in Hv by auto. exact Hv. }
    intros i Hi. unfold row_holds. destruct (bc i) eqn:E.
    + rewrite Row by auto. auto.
    + specialize (Hv i Hi). unfold row_holds in Hv. rewrite Red, E in Hv by auto.
      rewrite (sum_n_ext _ (fun j => (if bc j then l i j * b j else 0) + (if bc j then 0 else l i j * v j))).
      * rewrite sum_n_plus. lra.
      * intros j Hj. destruct (bc j) eqn:Ej; [rewrite Vb by auto|]; lra.
  - intros v w Hv Hw.
    assert (Vv : forall j, (j < M)%nat -> bc j = true -> v j = b j)
      by (intros j Hj E; specialize (Hv j Hj); unfold row_holds in Hv; now rewrite Row in Hv).
    assert (Vw : forall j, (j < M)%nat -> bc j = true -> w j = b j)
      by (intros j Hj E; specialize (Hw j Hj); unfold row_holds in Hw; now rewrite Row in Hw).
    assert (Z : forall j, (j < M)%nat -> v j - w j = 0).
    { apply (dominant_kernel M (reduced bc l) (fun j => v j - w j) Hd).
      intros i Hi. rewrite Red by auto. specialize (Hv i Hi). specialize (Hw i Hi). unfold row_holds in Hv, Hw.
      destruct (bc i) eqn:E.
      - rewrite Row in Hv, Hw by auto. lra.
      - rewrite (sum_n_ext _ (fun j => l i j * v j - l i j * w j)).
        + rewrite sum_n_minus. lra.
        + intros j Hj. destruct (bc j) eqn:Ej; [|ring]. 
          assert (v j = w j) as ->; [|ring].
          pose proof (Vv j Hj Ej) as X1. pose proof (Vw j Hj Ej) as X2. lra. }
    intros j Hj. specialize (Z j Hj). lra.
Qed.
