(** Lemmas on [argsort] and on positions in permuted arrays. *)
From Coq Require Import Sorting.Permutation Sorting.Sorted.
From Verif Require Import Prelude M_Coeffs M_Numerics M_Layout.

Lemma insert_perm f i l : Permutation (insert_by f i l) (i :: l).
Proof.
  induction l as [|j l IH]; simpl; [reflexivity|]. destruct (Rleb (f i) (f j)); [reflexivity|].
  rewrite IH. apply perm_swap.
Qed.
Lemma argsort_perm_list f l : Permutation (fold_right (insert_by f) [] l) l.
Proof. induction l as [|i l IH]; simpl; [reflexivity|]. rewrite insert_perm. now apply perm_skip. Qed.
Lemma argsort_perm n f : Permutation (argsort n f) (seq 0 n).
Proof. apply argsort_perm_list. Qed.

Lemma insert_sorted f i l :
  StronglySorted (fun a b => f a <= f b) l -> StronglySorted (fun a b => f a <= f b) (insert_by f i l).
Proof.
  induction l as [|j l IH]; intros H; simpl.
  - constructor; constructor.
  - inversion H as [|? ? Hs Hf]; subst. destruct (Rleb_spec (f i) (f j)) as [Hij|Hij].
    + constructor; [exact H|]. constructor; [exact Hij|].
      eapply Forall_impl; [|exact Hf]. intros a Ha; simpl in Ha. lra.
    + constructor; [now apply IH|].
      apply (Permutation_Forall (Permutation_sym (insert_perm f i l))).
      constructor; [lra | exact Hf].
Qed.
Lemma argsort_sorted_list f l : StronglySorted (fun a b => f a <= f b) (fold_right (insert_by f) [] l).
Proof. induction l as [|i l IH]; simpl; [constructor | now apply insert_sorted]. Qed.

Lemma sorted_nth f l : StronglySorted (fun a b => f a <= f b) l ->
  forall i j, (i < j)%nat -> (j < length l)%nat -> f (nth i l O) <= f (nth j l O).
Proof.
  induction 1 as [|a l Hs IH Hf]; intros i j Hij Hj; simpl in Hj; [lia|].
  destruct j as [|j]; [lia|]. simpl nth. destruct i as [|i].
  - rewrite Forall_forall in Hf. apply Hf. apply nth_In. lia.
  - apply IH; lia.
Qed.

Section Argsort.
Variables (n : nat) (f : arr).
Local Notation ix := (argsort n f).

Lemma argsort_length : length ix = n.
Proof. rewrite (Permutation_length (argsort_perm n f)). apply seq_length. Qed.
Lemma argsort_le i j : (i <= j)%nat -> (j < n)%nat -> f (nth i ix O) <= f (nth j ix O).
Proof.
  intros Hij Hj. destruct (Nat.eq_dec i j) as [->|Hne]; [lra|].
  apply sorted_nth; [apply argsort_sorted_list | lia | rewrite argsort_length; lia].
Qed.
Lemma argsort_lt i : (i < n)%nat -> (nth i ix O < n)%nat.
Proof.
  intros Hi. assert (In (nth i ix O) (seq 0 n)).
  { apply (Permutation_in _ (argsort_perm n f)). apply nth_In. now rewrite argsort_length. }
  apply in_seq in H. lia.
Qed.
Lemma argsort_nodup : NoDup ix.
Proof. apply (Permutation_NoDup (Permutation_sym (argsort_perm n f))), seq_NoDup. Qed.
Lemma argsort_inj i j : (i < n)%nat -> (j < n)%nat -> nth i ix O = nth j ix O -> i = j.
Proof. intros Hi Hj. apply (proj1 (NoDup_nth ix O) argsort_nodup); rewrite argsort_length; auto. Qed.
Lemma argsort_surj p : (p < n)%nat -> exists i, (i < n)%nat /\ nth i ix O = p.
Proof.
  intros Hp. assert (H : In p ix).
  { apply (Permutation_in _ (Permutation_sym (argsort_perm n f))). apply in_seq. lia. }
  apply (In_nth _ _ O) in H. rewrite argsort_length in H. exact H.
Qed.
Lemma argsort_first p : (p < n)%nat -> (forall q, (q < n)%nat -> q <> p -> f p < f q) -> nth 0 ix O = p.
Proof.
  intros Hp H. destruct (argsort_surj p Hp) as [i [Hi E]].
  destruct (Nat.eq_dec (nth 0 ix O) p) as [E'|Hne]; [exact E'|].
  specialize (H _ (argsort_lt 0%nat ltac:(lia)) Hne).
  pose proof (argsort_le 0 i ltac:(lia) Hi). rewrite E in H0. lra.
Qed.
Lemma argsort_last p : (p < n)%nat -> (forall q, (q < n)%nat -> q <> p -> f q < f p) -> nth (n - 1) ix O = p.
Proof.
  intros Hp H. destruct (argsort_surj p Hp) as [i [Hi E]].
  destruct (Nat.eq_dec (nth (n - 1) ix O) p) as [E'|Hne]; [exact E'|].
  specialize (H _ (argsort_lt (n - 1)%nat ltac:(lia)) Hne).
  pose proof (argsort_le i (n - 1) ltac:(lia) ltac:(lia)). rewrite E in H0. lra.
Qed.
Lemma argsort_strict : (forall p q, (p < n)%nat -> (q < n)%nat -> p <> q -> f p <> f q) ->
  forall i j, (i < j)%nat -> (j < n)%nat -> f (nth i ix O) < f (nth j ix O).
Proof.
  intros H i j Hij Hj. pose proof (argsort_le i j ltac:(lia) Hj).
  assert (f (nth i ix O) <> f (nth j ix O)).
  { apply H; try (apply argsort_lt; lia). intros E. apply argsort_inj in E; lia. }
  lra.
Qed.
End Argsort.

Lemma position_spec p l : In p l -> nth (position p l) l O = p /\ (position p l < length l)%nat.
Proof.
  induction l as [|x l IH]; intros H; [destruct H|]. simpl.
  destruct (Nat.eqb_spec x p) as [E|E]; simpl; [split; [exact E | lia]|].
  destruct H as [H|H]; [contradiction|]. destruct (IH H). split; [auto | lia].
Qed.

Lemma searchsorted_bracket x N v : forall a,
  let c := searchsorted (map x (seq a N)) v in
  (c <= N)%nat /\ (forall i, (i < c)%nat -> x (a + i)%nat < v) /\ ((c < N)%nat -> v <= x (a + c)%nat).
Proof.
  induction N as [|N IH]; intros a; cbn [seq map searchsorted].
  - repeat split; try lia; intros; lia.
  - destruct (Rltb_spec (x a) v) as [H|H].
    + destruct (IH (S a)) as [H1 [H2 H3]]. repeat split; [lia | | ].
      * intros [|i] Hi; [rewrite Nat.add_0_r; exact H|].
        replace (a + S i)%nat with (S a + i)%nat by lia. apply H2. lia.
      * intros Hc. rewrite <- Nat.add_succ_comm. apply H3. lia.
    + repeat split; [lia | intros; lia |]. intros _. rewrite Nat.add_0_r. lra.
Qed.

Lemma telescope (x : arr) n : sum_n (diff x) n = x n - x O.
Proof. induction n as [|n IH]; simpl; [lra|]. rewrite IH. unfold diff. lra. Qed.
