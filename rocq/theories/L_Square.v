(** A square system whose homogeneous version has only the trivial solution can be solved for every right-hand side. *)
From Verif Require Import Prelude S_Network.

Definition transp (p q j : nat) : nat := if Nat.eqb j p then q else if Nat.eqb j q then p else j.
Lemma sum_transp f n p : (p <= n)%nat -> sum_n (fun j => f (transp p n j)) (S n) = sum_n f (S n).
Proof.
  intros Hp. destruct (Nat.eq_dec p n) as [->|Hne].
  - apply sum_n_ext. intros j Hj. unfold transp. destruct (Nat.eqb_spec j n) as [->|]; auto.
  - simpl. rewrite (sum_n_split f n p), (sum_n_split (fun j => f (transp p n j)) n p) by lia.
    assert (E1 : transp p n p = n) by (unfold transp; now rewrite Nat.eqb_refl).
    assert (E2 : transp p n n = p).
    { unfold transp. rewrite Nat.eqb_refl. destruct (Nat.eqb_spec n p); [lia|auto]. }
    rewrite E1, E2.
    assert (E3 : sum_n (fun j => if Nat.eqb j p then 0 else f (transp p n j)) n = sum_n (fun j => if Nat.eqb j p then 0 else f j) n).
    { apply sum_n_ext. intros j Hj. unfold transp. destruct (Nat.eqb_spec j p); auto. destruct (Nat.eqb_spec j n); [lia|auto]. }
    rewrite E3. lra.
Qed.

Lemma all_zero_dec (f : arr) n : (exists p, (p < n)%nat /\ f p <> 0) \/ (forall p, (p < n)%nat -> f p = 0).
Proof.
  induction n as [|n IH]; [right; intros; lia|].
  destruct IH as [(p & Hp & E)|IH]; [left; exists p; split; auto|].
  destruct (Req_dec (f n) 0) as [E|E].
  - right. intros p Hp. destruct (Nat.eq_dec p n) as [->|]; auto. apply IH. lia.
  - left. exists n. split; auto.
Qed.

(** m equations in m + 1 unknowns have a non-trivial solution. *)
Lemma wide_kernel m : forall a : mat, exists v : arr,
  (exists j, (j < S m)%nat /\ v j <> 0) /\ forall i, (i < m)%nat -> sum_n (fun j => a i j * v j) (S m) = 0.
Proof.
  induction m as [|m IH]; intros a.
  - exists (fun _ => 1). split; [exists 0%nat; split; [lia|lra]|intros; lia].
  - destruct (all_zero_dec (a m) (S (S m))) as [(p & Hp & E)|Z].
    + pose (t := transp p (S m)).
      destruct (IH (fun i j => a i (t j) - a i (t (S m)) * a m (t j) / a m (t (S m)))) as (w & (j0 & Hj0 & Hw) & HK).
      assert (Et : t (S m) = p).
      { unfold t, transp. rewrite Nat.eqb_refl. destruct (Nat.eqb_spec (S m) p); auto. }
      assert (Tinv : forall j, t (t j) = j).
      { intros j. unfold t, transp. destruct (Nat.eqb_spec j p) as [->|A].
        - destruct (Nat.eqb_spec (S m) p); auto. now rewrite Nat.eqb_refl.
        - destruct (Nat.eqb_spec j (S m)) as [->|B]; [now rewrite Nat.eqb_refl|].
          destruct (Nat.eqb_spec j p); [lia|]. destruct (Nat.eqb_spec j (S m)); [lia|auto]. }
      pose (S0 := sum_n (fun j => a m (t j) * w j) (S m)).
      pose (v' := fun j => if Nat.eqb j (S m) then - S0 / a m p else w j).
      exists (fun j => v' (t j)). split.
      * exists (t j0). split.
        -- unfold t, transp. destruct (Nat.eqb_spec j0 p); [lia|]. destruct (Nat.eqb_spec j0 (S m)); lia.
        -- rewrite Tinv. unfold v'. destruct (Nat.eqb_spec j0 (S m)); [lia|auto].
      * intros i Hi.
        rewrite (sum_n_ext _ (fun j => (fun q => a i (t q) * v' q) (t j))) by (intros; rewrite Tinv; reflexivity).
        etransitivity; [exact (sum_transp (fun q => a i (t q) * v' q) (S m) p ltac:(lia))|].
        assert (U : forall i, sum_n (fun q => a i (t q) * v' q) (S (S m)) = sum_n (fun q => a i (t q) * w q) (S m) - a i p * S0 / a m p).
        { intros i'. change (sum_n (fun q => a i' (t q) * v' q) (S (S m))) with (sum_n (fun q => a i' (t q) * v' q) (S m) + a i' (t (S m)) * v' (S m)).
          rewrite Et. unfold v' at 2. rewrite Nat.eqb_refl.
          rewrite (sum_n_ext (fun q => a i' (t q) * v' q) (fun q => a i' (t q) * w q)).
          - field. auto.
          - intros q Hq. unfold v'. destruct (Nat.eqb_spec q (S m)); [lia|auto]. }
        rewrite U. destruct (Nat.eq_dec i m) as [->|].
        -- fold S0. field. auto.
        -- specialize (HK i ltac:(lia)). rewrite Et in HK.
           assert (G : sum_n (fun j => (a i (t j) - a i p * a m (t j) / a m p) * w j) (S m)
                       = sum_n (fun q => a i (t q) * w q) (S m) - a i p / a m p * S0).
           { unfold S0. rewrite <- sum_n_scal, <- sum_n_minus. apply sum_n_ext. intros; field. auto. }
           rewrite G in HK. rewrite <- HK. field. auto.
    + destruct (IH a) as (w & (j0 & Hj0 & Hw) & HK).
      exists (fun j => if Nat.eqb j (S m) then 0 else w j). split.
      * exists j0. split; [lia|]. destruct (Nat.eqb_spec j0 (S m)); [lia|auto].
      * intros i Hi. destruct (Nat.eq_dec i m) as [->|].
        -- apply sum_n_0. intros j Hj. rewrite Z by auto. lra.
        -- change (sum_n (fun j => a i j * (if Nat.eqb j (S m) then 0 else w j)) (S m)
                   + a i (S m) * (if Nat.eqb (S m) (S m) then 0 else w (S m)) = 0).
           rewrite Nat.eqb_refl.
           rewrite (sum_n_ext _ (fun j => a i j * w j)) by (intros j Hj; destruct (Nat.eqb_spec j (S m)); [lia|auto]).
           rewrite HK by lia. lra.
Qed.

Lemma square_solvable M (l : mat) b :
  (forall v, (forall i, (i < M)%nat -> sum_n (fun j => l i j * v j) M = 0) -> forall j, (j < M)%nat -> v j = 0) ->
  exists v, solves M l b v.
Proof.
  intros HK.
  destruct (wide_kernel M (fun i j => if Nat.eqb j M then - b i else l i j)) as (v & (j0 & Hj0 & Hv) & Hz).
  assert (R : forall i, (i < M)%nat -> sum_n (fun j => l i j * v j) M = b i * v M).
  { intros i Hi. specialize (Hz i Hi). simpl in Hz. rewrite Nat.eqb_refl in Hz.
    rewrite (sum_n_ext _ (fun j => l i j * v j)) in Hz by (intros j Hj; destruct (Nat.eqb_spec j M); [lia|auto]). lra. }
  assert (T : v M <> 0).
  { intros E. apply Hv. destruct (Nat.eq_dec j0 M) as [->|]; auto.
    apply HK; [|lia]. intros i Hi. rewrite R, E by auto. lra. }
  exists (fun j => v j / v M). intros i Hi. unfold row_holds.
  rewrite (sum_n_ext _ (fun j => l i j * v j * / v M)) by (intros; unfold Rdiv; ring).
  rewrite sum_n_scal_r, R by auto. field. auto.
Qed.
