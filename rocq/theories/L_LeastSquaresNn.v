(** The selections of the non-negative variant, and what both variants write at the ends. *)
From Verif Require Import Prelude M_Coeffs M_Recurrence M_LeastSquares S_Network S_LeastSquares S_Model L_LeastSquares
  L_LeastSquaresChain.

Lemma select_app {A} k1 k2 k (v1 v2 : list A) : length k1 = length v1 ->
  select (k1 ++ k2) k (v1 ++ v2) = select k1 k v1 ++ select k2 k v2.
Proof.
  unfold select. revert v1. induction k1 as [|x k1 IH]; intros [|y v1] E; try discriminate; [reflexivity|].
  simpl in *. injection E as E. destruct (Nat.eqb x k); simpl; rewrite IH; auto.
Qed.
Lemma select_same {A} k (v : list A) : select (repeat k (length v)) k v = v.
Proof. unfold select. induction v as [|y v IH]; simpl; [reflexivity|]. rewrite Nat.eqb_refl. simpl. now rewrite IH. Qed.
Lemma select_other {A} k k' (v : list A) : k' <> k -> select (repeat k' (length v)) k v = [].
Proof.
  intros N. unfold select. induction v as [|y v IH]; simpl; [reflexivity|].
  destruct (Nat.eqb_spec k' k); [contradiction|]. exact IH.
Qed.
Lemma select_blocks {A} (g : nat -> list A) NK k : (k < NK)%nat ->
  select (flat_map (fun k => repeat k (length (g k))) (seq 0 NK)) k (flat_map g (seq 0 NK)) = g k.
Proof.
  intros Hk.
  assert (G : forall n, select (flat_map (fun k => repeat k (length (g k))) (seq 0 n)) k (flat_map g (seq 0 n)) =
                        if (k <? n)%nat then g k else []).
  { induction n as [|n IH]; [reflexivity|].
    rewrite !seq_S, !flat_map_app, select_app.
    - rewrite IH. simpl. rewrite !app_nil_r. destruct (Nat.eq_dec n k) as [->|N].
      + rewrite select_same. destruct (Nat.ltb_spec k k), (Nat.ltb_spec k (S k)); simpl; auto; lia.
      + rewrite select_other by auto. rewrite app_nil_r.
        destruct (Nat.ltb_spec k n), (Nat.ltb_spec k (S n)); auto; lia.
    - clear. generalize (seq 0 n). intros l. induction l as [|x l IH]; simpl; [reflexivity|].
      rewrite !app_length, repeat_length, IH. reflexivity. }
  rewrite G. destruct (Nat.ltb_spec k NK); [reflexivity|lia].
Qed.
Lemma map_flat {A B C} (g : B -> C) (f : A -> list B) l : map g (flat_map f l) = flat_map (fun x => map g (f x)) l.
Proof. induction l as [|x l IH]; simpl; [reflexivity|]. now rewrite map_app, IH. Qed.
Lemma flat_map_only {A} (f : nat -> list A) NK k : (k < NK)%nat -> (forall k', (k' < NK)%nat -> k' <> k -> f k' = []) ->
  flat_map f (seq 0 NK) = f k.
Proof.
  intros Hk Ho.
  assert (G : forall n, (n <= NK)%nat -> flat_map f (seq 0 n) = if (k <? n)%nat then f k else []).
  { induction n as [|n IH]; intros Hn; [reflexivity|]. rewrite seq_S, flat_map_app, IH by lia. simpl. rewrite app_nil_r.
    destruct (Nat.eq_dec n k) as [->|N].
    - destruct (Nat.ltb_spec k k), (Nat.ltb_spec k (S k)); simpl; auto; lia.
    - rewrite (Ho n) by (auto; lia). rewrite app_nil_r. destruct (Nat.ltb_spec k n), (Nat.ltb_spec k (S n)); auto; lia. }
  rewrite G by lia. destruct (Nat.ltb_spec k NK); [reflexivity|lia].
Qed.
Lemma map_const_repeat {A} (g : nat -> A) x s n : (forall j, (j < n)%nat -> g (s + j)%nat = x) -> map g (seq s n) = repeat x n.
Proof.
  revert s. induction n as [|n IH]; intros s H; [reflexivity|]. simpl. f_equal.
  - rewrite <- (H 0%nat) by lia. f_equal; lia.
  - apply IH. intros j Hj. rewrite <- (H (S j)) by lia. f_equal; lia.
Qed.
Lemma of_list_map (a : arr) s n j : (j < n)%nat -> of_list (map a (seq s n)) j = a (s + j)%nat.
Proof.
  intros H. unfold of_list. rewrite (nth_indep _ 0 (a 0%nat)) by (rewrite map_length, seq_length; auto).
  rewrite map_nth, seq_nth; auto.
Qed.

Section Nn.
  Variable T : chain.
  Hypothesis HT : contiguous T.
  Let NK := c_NK T.
  Let nk := c_nk T.
  Let len := fun k => (nk k + 1)%nat.
  Let I1 := c_I1 T.
  Let i1 := c_i1 T.

  Ltac bools := repeat match goal with |- context [Nat.eqb ?a ?b] => destruct (Nat.eqb_spec a b) end;
                repeat match goal with |- context [(?a <=? ?b)%nat] => destruct (Nat.leb_spec a b) end;
                repeat match goal with |- context [(?a <? ?b)%nat] => destruct (Nat.ltb_spec a b) end; simpl; auto; try lia.

  Lemma X_list (a : arr) :
    compress a (mask_X T) (c_NJ T) = flat_map (fun k => map a (seq (I1 k + 1) (nk k - 1))) (seq 0 NK).
  Proof.
    unfold compress. rewrite (ct_NJ T HT), (where_blocks _ len NK (fun _ => 1%nat) (fun k => nk k - 1)%nat).
    - rewrite map_flat. apply flat_map_eq. intros k Hk. apply in_seq in Hk. fold len. rewrite (I1_eq T HT) by (fold NK; lia).
      reflexivity.
    - intros k' Hk'. pose proof (nk_pos T HT k' Hk'). fold nk in H. unfold len. lia.
    - intros k' j' Hk' Hj'. fold len. rewrite (I1_eq T HT) by auto. unfold len in Hj'. unfold mask_X.
      rewrite (start_at T HT), (end_at T HT) by (auto; fold nk; lia). pose proof (nk_pos T HT k' Hk'). fold nk in H |- *. bools.
  Qed.
  Lemma U_list (a : arr) :
    compress a (mask_U T) (c_NJ T) = flat_map (fun k => map a (seq (I1 k) (nk k - 1))) (seq 0 NK).
  Proof.
    unfold compress. rewrite (ct_NJ T HT), (where_blocks _ len NK (fun _ => 0%nat) (fun k => nk k - 1)%nat).
    - rewrite map_flat. apply flat_map_eq. intros k Hk. apply in_seq in Hk. fold len. rewrite (I1_eq T HT) by (fold NK; lia).
      rewrite Nat.add_0_r. reflexivity.
    - intros k' Hk'. unfold len. lia.
    - intros k' j' Hk' Hj'. fold len. rewrite (I1_eq T HT) by auto. unfold len in Hj'. unfold mask_U.
      rewrite (penult_at T HT), (end_at T HT) by (auto; fold nk; lia). pose proof (nk_pos T HT k' Hk'). fold nk in H |- *. bools.
  Qed.
  Lemma kk_list : map (c_ki T) (where_ (fun i => negb (c_lend T i)) (c_NL T)) =
    flat_map (fun k => repeat k (nk k - 1)) (seq 0 NK).
  Proof.
    rewrite (ct_NL T HT), (where_blocks _ nk NK (fun _ => 0%nat) (fun k => nk k - 1)%nat).
    - rewrite map_flat. apply flat_map_eq. intros k Hk. apply in_seq in Hk. apply map_const_repeat. intros j Hj.
      rewrite Nat.add_0_r. unfold nk. rewrite (i1_eq T HT) by (fold NK; lia). apply (ki_at T HT); [fold NK; lia|fold nk; lia].
    - intros k' Hk'. lia.
    - intros k' j' Hk' Hj'. unfold nk. rewrite (i1_eq T HT) by auto.
      destruct (ct_link T HT k' j' Hk' Hj') as (_ & _ & _ & E). rewrite E. fold nk. bools.
  Qed.
  Lemma ki_list : map (c_ki T) (seq 0 (c_NL T)) = flat_map (fun k => repeat k (nk k)) (seq 0 NK).
  Proof.
    rewrite (ct_NL T HT), seq_nsum, map_flat. apply flat_map_eq. intros k Hk. apply in_seq in Hk.
    apply map_const_repeat. intros j Hj. rewrite (i1_eq T HT) by (fold NK; lia). apply (ki_at T HT); [fold NK; lia|exact Hj].
  Qed.
  Lemma b_list (v : arr) : map v (seq 0 (c_NL T)) = flat_map (fun k => map v (seq (i1 k) (nk k))) (seq 0 NK).
  Proof.
    rewrite (ct_NL T HT), seq_nsum, map_flat. apply flat_map_eq. intros k Hk. apply in_seq in Hk.
    rewrite (i1_eq T HT) by (fold NK; lia). reflexivity.
  Qed.

  Lemma select_X (a : arr) k : (k < NK)%nat ->
    select (map (c_ki T) (where_ (fun i => negb (c_lend T i)) (c_NL T))) k (compress a (mask_X T) (c_NJ T)) =
    map a (seq (I1 k + 1) (nk k - 1)).
  Proof.
    intros Hk. rewrite kk_list, X_list.
    rewrite (flat_map_eq (fun k => repeat k (nk k - 1)) (fun k => repeat k (length (map a (seq (I1 k + 1) (nk k - 1)))))).
    - exact (select_blocks (fun k => map a (seq (I1 k + 1) (nk k - 1))) NK k Hk).
    - intros; now rewrite map_length, seq_length.
  Qed.
  Lemma select_U (a : arr) k : (k < NK)%nat ->
    select (map (c_ki T) (where_ (fun i => negb (c_lend T i)) (c_NL T))) k (compress a (mask_U T) (c_NJ T)) =
    map a (seq (I1 k) (nk k - 1)).
  Proof.
    intros Hk. rewrite kk_list, U_list.
    rewrite (flat_map_eq (fun k => repeat k (nk k - 1)) (fun k => repeat k (length (map a (seq (I1 k) (nk k - 1)))))).
    - exact (select_blocks (fun k => map a (seq (I1 k) (nk k - 1))) NK k Hk).
    - intros; now rewrite map_length, seq_length.
  Qed.
  Lemma select_b (v : arr) k : (k < NK)%nat ->
    select (map (c_ki T) (seq 0 (c_NL T))) k (map v (seq 0 (c_NL T))) = map v (seq (i1 k) (nk k)).
  Proof.
    intros Hk. rewrite ki_list, b_list.
    rewrite (flat_map_eq (fun k => repeat k (nk k)) (fun k => repeat k (length (map v (seq (i1 k) (nk k)))))).
    - exact (select_blocks (fun k => map v (seq (i1 k) (nk k))) NK k Hk).
    - intros; now rewrite map_length, seq_length.
  Qed.
  Lemma inner_list k : (k < NK)%nat ->
    where_ (fun I => Nat.eqb (c_kI T I) k && negb (c_start T I) && negb (c_end T I)) (c_NJ T) = seq (I1 k + 1) (nk k - 1).
  Proof.
    intros Hk. rewrite (ct_NJ T HT).
    rewrite (where_blocks _ len NK (fun _ => 1%nat) (fun k' => if Nat.eqb k' k then nk k' - 1 else 0)%nat).
    - rewrite (flat_map_only _ NK k Hk).
      + rewrite Nat.eqb_refl. fold len. rewrite (I1_eq T HT) by auto. reflexivity.
      + intros k' Hk' N. destruct (Nat.eqb_spec k' k); [contradiction|reflexivity].
    - intros k' Hk'. pose proof (nk_pos T HT k' Hk'). fold nk in H. unfold len. bools.
    - intros k' j' Hk' Hj'. fold len. rewrite (I1_eq T HT) by auto. unfold len in Hj'.
      rewrite (start_at T HT), (end_at T HT) by (auto; fold nk; lia).
      destruct (ct_junction T HT k' j' Hk' ltac:(fold nk; lia)) as (E & _). rewrite E.
      pose proof (nk_pos T HT k' Hk'). fold nk in H |- *. bools.
  Qed.

  Variables (f : fwd) (b : bwd) (h_uk h_dk : arr).
  Let X := compress (bX b) (mask_X T) (c_NJ T).
  Let U := compress (fU f) (mask_U T) (c_NJ T).
  Variable v : arr.
  Let rhs k := link_rhs (at_ T (fU f) k) (at_ T (fV f) k) (at_ T (fW f) k) (at_ T (bX b) k) (at_ T (bY b) k) (at_ T (bZ b) k)
                        (nk k) (h_uk k) (h_dk k).
  Hypothesis Hv : forall k r, (k < NK)%nat -> (r < nk k)%nat -> v (i1 k + r)%nat = rhs k r.

  Lemma nn_loop_inv nnls h h' : sound_nnls nnls ->
    nnls_superlinks nnls T U X v h = Some h' ->
    forall k, (k < NK)%nat -> holds_inner T (best_nonneg_k T f b h_uk h_dk) h' k.
  Proof.
    intros Hs E. unfold nnls_superlinks in E. cbv zeta in E.
    refine (for_opt_inv (fun m h => (m <= NK)%nat -> forall k, (k < m)%nat ->
              holds_inner T (best_nonneg_k T f b h_uk h_dk) h k) NK _ h h' _ _ E _); auto.
    - intros _ k Hk. lia.
    - intros k s1 s2 Hk IH Eb _.
      unfold U, X in Eb. rewrite select_U, select_X, select_b, inner_list in Eb by auto.
      rewrite !map_length, !seq_length in Eb. fold nk in Eb. rewrite !Nat.eqb_refl in Eb. simpl andb in Eb. cbv iota in Eb.
      destruct (nnls _ _ _ _) as [inner|] eqn:El in Eb; [|discriminate]. cbn [bind] in Eb. injection Eb as <-.
      destruct (Hs _ _ _ _ _ El) as [Pos Best].
      assert (RE : forall y, residual2 (nk k) (nk k - 1)
                (flat_matrix (map (fU f) (seq (I1 k) (nk k - 1))) (map (bX b) (seq (I1 k + 1) (nk k - 1))))
                (of_list (map v (seq (i1 k) (nk k)))) y =
              residual2 (nk k) (nk k - 1) (link_matrix (at_ T (fU f) k) (at_ T (bX b) k)) (rhs k) y).
      { intros y. apply residual2_ext.
        - intros r c Hr Hc. unfold flat_matrix, link_matrix, at_. destruct (Nat.eqb_spec r c) as [->|].
          + apply of_list_map; auto.
          + destruct (Nat.eqb_spec r (c + 1)) as [->|]; auto. rewrite of_list_map by auto.
            fold I1. do 2 f_equal. lia.
        - intros r Hr. rewrite of_list_map by auto. apply Hv; auto. }
      assert (B : best_nonneg_k T f b h_uk h_dk k inner).
      { split; [exact Pos|]. intros y Hy. specialize (Best y Hy). rewrite !RE in Best. exact Best. }
      destruct (put_at (fun i => nth i (seq (I1 k + 1) (nk k - 1)) O) inner s1 (nk k - 1)) as [P1 P2].
      { intros p q Hp Hq. rewrite !seq_nth by auto. lia. }
      cbv zeta in P1, P2.
      intros k' Hk'. destruct (Nat.eq_dec k' k) as [->|N].
      + exists inner. split; auto. intros j Hj. rewrite <- (P1 j Hj). rewrite seq_nth by auto. reflexivity.
      + apply (holds_other T HT _ s1 _ k k'); auto; try (fold NK; lia); [|apply IH; lia].
        intros I HI. apply P2. intros j Hj. rewrite seq_nth by auto. fold I1 nk in HI. lia.
  Qed.

  (** ** Ends *)
  Lemma ends_written good h1 k : (k < NK)%nat -> holds_inner T good h1 k ->
    let h3 := put_masked (put_masked h1 (c_start T) (c_NJ T) h_uk (c_NK T)) (c_end T) (c_NJ T) h_dk (c_NK T) in
    exists x, good k x /\ forall j, (j <= nk k)%nat -> h3 (I1 k + j)%nat = with_ends (nk k) (h_uk k) (h_dk k) x j.
  Proof.
    intros Hk (x & G & E) h3. exists x. split; auto. intros j Hj.
    assert (E3 : h3 = for_n NK (fun k v => upd v (I1 k + nk k)%nat (h_dk k)) (for_n NK (fun k v => upd v (I1 k) (h_uk k)) h1)).
    { unfold h3, put_masked. fold NK.
      rewrite (for_n_ext NK (fun k h => upd h (nth k (where_ (c_start T) (c_NJ T)) O) (h_uk k)) (fun k v => upd v (I1 k) (h_uk k)))
        by (intros; rewrite (start_entry T HT) by auto; reflexivity).
      apply for_n_ext. intros; rewrite (end_entry T HT) by auto. reflexivity. }
    rewrite E3. clear E3 h3.
    destruct (put_at I1 h_uk h1 NK) as [P1 P2].
    { intros p q Hp Hq Eq. destruct (Nat.lt_trichotomy p q) as [L|[L|L]]; auto.
      - pose proof (I1_after T HT p q L Hq). fold I1 in H. lia.
      - pose proof (I1_after T HT q p L Hp). fold I1 in H. lia. }
    cbv zeta in P1, P2.
    destruct (put_at (fun k => I1 k + nk k)%nat h_dk (for_n NK (fun k v => upd v (I1 k) (h_uk k)) h1) NK) as [P3 P4].
    { intros p q Hp Hq Eq. destruct (Nat.lt_trichotomy p q) as [L|[L|L]]; auto.
      - pose proof (I1_after T HT p q L Hq). fold I1 nk in H. lia.
      - pose proof (I1_after T HT q p L Hp). fold I1 nk in H. lia. }
    cbv zeta in P3, P4. pose proof (nk_pos T HT k Hk) as Np. fold nk in Np.
    assert (O4 : (j < nk k)%nat -> forall p, (p < NK)%nat -> (I1 k + j)%nat <> (I1 p + nk p)%nat).
    { intros L p Hp C. destruct (Nat.lt_trichotomy p k) as [M|[->|M]]; [|lia|].
      - pose proof (I1_after T HT p k M Hk). fold I1 nk in H. lia.
      - pose proof (I1_after T HT k p M Hp). fold I1 nk in H. lia. }
    unfold with_ends. destruct (Nat.eqb_spec j 0) as [->|N0].
    - rewrite P4 by (apply O4; lia). rewrite Nat.add_0_r. apply P1; auto.
    - destruct (Nat.eqb_spec j (nk k)) as [->|N1]; [apply P3; auto|].
      rewrite P4 by (apply O4; lia). rewrite P2.
      + rewrite <- E by (fold nk; lia). f_equal. fold I1. lia.
      + intros p Hp C. destruct (Nat.lt_trichotomy p k) as [M|[->|M]]; [|lia|].
        * pose proof (I1_after T HT p k M Hk). fold I1 nk in H. lia.
        * pose proof (I1_after T HT k p M Hp). fold I1 nk in H. lia.
  Qed.
End Nn.
