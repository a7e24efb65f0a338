(** Lemmas on position lists, scatter loops and the generated chains. *)
From Verif Require Import Prelude M_Coeffs M_Numerics M_Layout.
Local Open Scope nat_scope.

Lemma cumsum_const_val c k : cumsum_const c k = c * (k + 1).
Proof. induction k as [|k IH]; simpl cumsum_const; [lia | rewrite IH; lia]. Qed.

Lemma del_from_filter idx len : forall pos,
  del_from pos idx (seq pos len) = filter (fun j => negb (existsb (Nat.eqb j) idx)) (seq pos len).
Proof.
  induction len as [|len IH]; intros pos; [reflexivity|].
  cbn [seq del_from filter]. rewrite IH. destruct (existsb (Nat.eqb pos) idx); reflexivity.
Qed.

Lemma existsb_multiples j f NK : existsb (Nat.eqb j) (map f (seq 0 NK)) = true <-> exists k, k < NK /\ j = f k.
Proof.
  rewrite existsb_exists. split.
  - intros [x [Hx E]]. apply Nat.eqb_eq in E. apply in_map_iff in Hx. destruct Hx as [k [<- Hk]].
    apply in_seq in Hk. exists k. split; [lia | exact E].
  - intros [k [Hk E]]. exists (f k). split; [|now apply Nat.eqb_eq].
    apply in_map. apply in_seq. lia.
Qed.

Lemma divmod_unique a b q r : r < b -> a = b * q + r -> a / b = q /\ a mod b = r.
Proof.
  intros Hr E. split.
  - symmetry. apply (Nat.div_unique a b q r); auto.
  - symmetry. apply (Nat.mod_unique a b q r); auto.
Qed.

Lemma end_member n NK j : j < (n + 1) * NK ->
  existsb (Nat.eqb j) (map S (downstream_nodes n NK)) = Nat.eqb (j mod (n + 1)) n \/ n = 0.
Proof.
  intros Hj. destruct n as [|n]; [now right|]. left. unfold downstream_nodes. rewrite map_map.
  apply Bool.eq_iff_eq_true. rewrite existsb_multiples, Nat.eqb_eq. split.
  - intros [k [Hk E]]. rewrite cumsum_const_val in E.
    destruct (divmod_unique j (S n + 1) k (S n)) as [_ E']; [lia | | exact E']. nia.
  - intros E. exists (j / (S n + 1)). rewrite cumsum_const_val. split.
    + apply Nat.div_lt_upper_bound; lia.
    + pose proof (Nat.div_mod j (S n + 1) ltac:(lia)). nia.
Qed.

Lemma start_member n NK j : j < (n + 1) * NK ->
  existsb (Nat.eqb j) (upstream_nodes n NK) = Nat.eqb (j mod (n + 1)) 0.
Proof.
  intros Hj. unfold upstream_nodes.
  apply Bool.eq_iff_eq_true. rewrite existsb_multiples, Nat.eqb_eq. split.
  - intros [k [Hk E]]. rewrite cumsum_const_val in E.
    destruct (divmod_unique j (n + 1) k 0) as [_ E']; [lia | nia | exact E'].
  - intros E. exists (j / (n + 1)). rewrite cumsum_const_val. split.
    + apply Nat.div_lt_upper_bound; lia.
    + pose proof (Nat.div_mod j (n + 1) ltac:(lia)). nia.
Qed.

Lemma filter_all {A} (p : A -> bool) l : (forall x, In x l -> p x = true) -> filter p l = l.
Proof.
  induction l as [|x l IH]; intros H; [reflexivity|]. simpl. rewrite (H x) by now left.
  rewrite IH; auto. intros y Hy; apply H; now right.
Qed.
Lemma filter_none {A} (p : A -> bool) l : (forall x, In x l -> p x = false) -> filter p l = [].
Proof.
  induction l as [|x l IH]; intros H; [reflexivity|]. simpl. rewrite (H x) by now left.
  apply IH. intros y Hy; apply H; now right.
Qed.

Lemma seq_blocks c NK : seq 0 (c * NK) = flat_map (fun k => seq (c * k) c) (seq 0 NK).
Proof.
  induction NK as [|NK IH]; [rewrite Nat.mul_0_r; reflexivity|].
  rewrite seq_S, flat_map_app. replace (c * S NK) with (c * NK + c) by lia.
  rewrite seq_app, IH. simpl. now rewrite app_nil_r.
Qed.

Lemma filter_flat_map {A B} (p : B -> bool) (f : A -> list B) l :
  filter p (flat_map f l) = flat_map (fun x => filter p (f x)) l.
Proof. induction l as [|x l IH]; simpl; [reflexivity|]. now rewrite filter_app, IH. Qed.

Lemma flat_map_ext_in {A B} (f h : A -> list B) l : (forall x, In x l -> f x = h x) -> flat_map f l = flat_map h l.
Proof.
  induction l as [|x l IH]; intros H; simpl; [reflexivity|].
  rewrite (H x) by now left. rewrite IH; auto. intros y Hy; apply H; now right.
Qed.

Lemma link_j0_blocks n NK : 1 <= n -> link_j0 n NK = flat_map (fun k => seq ((n + 1) * k) n) (seq 0 NK).
Proof.
  intros Hn. unfold link_j0, np_delete. rewrite del_from_filter.
  rewrite (filter_ext_in _ (fun j => negb (Nat.eqb (j mod (n + 1)) n))).
  2:{ intros j Hj. apply in_seq in Hj. destruct (end_member n NK j) as [E|E]; [lia | now rewrite E | lia]. }
  rewrite seq_blocks, filter_flat_map. apply flat_map_ext_in. intros k _.
  rewrite seq_app, filter_app. rewrite filter_all, filter_none; [apply app_nil_r| |].
  - intros j Hj. apply in_seq in Hj. destruct (divmod_unique j (n + 1) k n) as [_ E]; [lia | lia |].
    rewrite E, Nat.eqb_refl. reflexivity.
  - intros j Hj. apply in_seq in Hj.
    destruct (divmod_unique j (n + 1) k (j - (n + 1) * k)) as [_ E]; [lia | lia |].
    rewrite E. apply negb_true_iff, Nat.eqb_neq. lia.
Qed.

Lemma link_j1_blocks n NK : 1 <= n -> link_j1 n NK = flat_map (fun k => seq ((n + 1) * k + 1) n) (seq 0 NK).
Proof.
  intros Hn. unfold link_j1, np_delete. rewrite del_from_filter.
  rewrite (filter_ext_in _ (fun j => negb (Nat.eqb (j mod (n + 1)) 0))).
  2:{ intros j Hj. apply in_seq in Hj. rewrite start_member by lia. reflexivity. }
  rewrite seq_blocks, filter_flat_map. apply flat_map_ext_in. intros k _.
  replace (n + 1) with (S n) by lia. cbn [seq].
  replace (S (S n * k)) with (S n * k + 1) by lia. cbn [filter].
  destruct (divmod_unique (S n * k) (S n) k 0) as [_ E]; [lia | lia |]. rewrite E. cbn [Nat.eqb negb].
  apply filter_all. intros j Hj. apply in_seq in Hj.
  destruct (divmod_unique j (S n) k (j - S n * k)) as [_ E']; [lia | lia |].
  rewrite E'. apply negb_true_iff, Nat.eqb_neq. lia.
Qed.

Lemma nth_blocks (f : nat -> list nat) n NK : (forall k, length (f k) = n) ->
  forall a k m, k < NK -> m < n -> nth (n * k + m) (flat_map f (seq a NK)) 0 = nth m (f (a + k)) 0.
Proof.
  intros Hl. induction NK as [|NK IH]; intros a k m Hk Hm; [lia|].
  cbn [seq flat_map]. destruct k as [|k].
  - rewrite app_nth1 by (rewrite Hl; lia). f_equal; [lia | f_equal; lia].
  - rewrite app_nth2 by (rewrite Hl; lia). rewrite Hl.
    replace (n * S k + m - n) with (n * k + m) by lia. rewrite IH by lia. f_equal; f_equal; lia.
Qed.

Lemma link_j0_nth n NK k m : k < NK -> m < n -> nth (n * k + m) (link_j0 n NK) 0 = (n + 1) * k + m.
Proof.
  intros Hk Hm. rewrite link_j0_blocks by lia.
  rewrite (nth_blocks (fun k => seq ((n + 1) * k) n) n NK); auto; [|intros; apply seq_length].
  rewrite seq_nth by lia. lia.
Qed.
Lemma link_j1_nth n NK k m : k < NK -> m < n -> nth (n * k + m) (link_j1 n NK) 0 = (n + 1) * k + m + 1.
Proof.
  intros Hk Hm. rewrite link_j1_blocks by lia.
  rewrite (nth_blocks (fun k => seq ((n + 1) * k + 1) n) n NK); auto; [|intros; apply seq_length].
  rewrite seq_nth by lia. lia.
Qed.

Lemma length_blocks (f : nat -> list nat) n NK a : (forall k, length (f k) = n) ->
  length (flat_map f (seq a NK)) = n * NK.
Proof. intros Hl. revert a. induction NK as [|NK IH]; intros a; simpl; [lia|]. rewrite app_length, Hl, IH. lia. Qed.

Lemma group_block n NK k : 1 <= n -> k < NK ->
  filter (fun i => Nat.eqb (link_k n i) k) (seq 0 (n * NK)) = seq (n * k) n.
Proof.
  intros Hn Hk. unfold link_k.
  replace (n * NK) with (n * k + (n + (n * (NK - k - 1)))) by nia.
  rewrite seq_app, seq_app, !filter_app. cbn [Nat.add].
  rewrite (filter_none _ (seq 0 _)), (filter_all _ (seq (n * k) n)), (filter_none _ (seq (n * k + n) _)).
  - now rewrite app_nil_r.
  - intros i Hi. apply in_seq in Hi. apply Nat.eqb_neq. intros E.
    pose proof (Nat.div_mod i n ltac:(lia)). pose proof (Nat.mod_upper_bound i n ltac:(lia)). rewrite E in *. nia.
  - intros i Hi. apply in_seq in Hi. apply Nat.eqb_eq.
    apply (divmod_unique i n k (i - n * k)); lia.
  - intros i Hi. apply in_seq in Hi. apply Nat.eqb_neq. intros E.
    pose proof (Nat.div_mod i n ltac:(lia)). rewrite E in *. lia.
Qed.

Lemma fold_min_ge l : forall a, (forall x, In x l -> a <= x) -> fold_left Nat.min l a = a.
Proof.
  induction l as [|x l IH]; intros a H; simpl; [reflexivity|].
  rewrite Nat.min_l by (apply H; now left). apply IH. intros y Hy; apply H; now right.
Qed.
Lemma fold_max_seq m : forall a b, b <= a -> fold_left Nat.max (seq a (S m)) b = a + m.
Proof.
  induction m as [|m IH]; intros a b Hb.
  - simpl. lia.
  - change (fold_left Nat.max (seq (S a) (S m)) (Nat.max b a) = a + S m). rewrite IH by lia. lia.
Qed.

Lemma map_nth_block col (f : nat -> nat) s n : (forall m, m < n -> nth (s + m) col 0 = f m) ->
  map (fun i => nth i col 0) (seq s n) = map f (seq 0 n).
Proof.
  revert s f. induction n as [|n IH]; intros s f H; [reflexivity|]. cbn [seq map]. f_equal.
  - rewrite <- (Nat.add_0_r s). apply H. lia.
  - rewrite (IH (S s) (fun m => f (S m))).
    + rewrite <- seq_shift, map_map. reflexivity.
    + intros m Hm. replace (S s + m) with (s + S m) by lia. apply H. lia.
Qed.

Lemma map_add_seq a n : map (fun m => a + m) (seq 0 n) = seq a n.
Proof.
  revert a. induction n as [|n IH]; intros a; [reflexivity|]. cbn [seq map]. f_equal; [lia|].
  rewrite <- seq_shift, map_map, <- (IH (S a)). apply map_ext. intros; lia.
Qed.

Lemma start_node_val n NK k : 1 <= n -> k < NK -> start_node n NK k = (n + 1) * k.
Proof.
  intros Hn Hk. unfold start_node, group_values. rewrite group_block by auto.
  rewrite (map_nth_block _ (fun m => (n + 1) * k + m)) by (intros; apply link_j0_nth; auto).
  rewrite map_add_seq. destruct n as [|n]; [lia|]. cbn [seq list_min].
  apply fold_min_ge. intros x Hx. apply in_seq in Hx. lia.
Qed.
Lemma end_node_val n NK k : 1 <= n -> k < NK -> end_node n NK k = (n + 1) * k + n.
Proof.
  intros Hn Hk. unfold end_node, group_values. rewrite group_block by auto.
  rewrite (map_nth_block _ (fun m => ((n + 1) * k + 1) + m)).
  2:{ intros m Hm. rewrite link_j1_nth by auto. lia. }
  rewrite map_add_seq. unfold list_max. destruct n as [|n]; [lia|].
  rewrite fold_max_seq by lia. lia.
Qed.

(** Scatter loops. *)
Lemma scatter_other {A} n (a : nat -> A) idx vals p : (forall i, i < n -> idx i <> p) -> scatter n a idx vals p = a p.
Proof.
  unfold scatter. intros H. induction n as [|n IH]; [reflexivity|]. cbn [for_n].
  rewrite upd_neq by (intros E; apply (H n); [lia | auto]). apply IH. intros i Hi; apply H; lia.
Qed.
Lemma scatter_at {A} n (a : nat -> A) idx vals i : i < n ->
  (forall i', i' < n -> idx i' = idx i -> i' = i) -> scatter n a idx vals (idx i) = vals i.
Proof.
  unfold scatter. intros Hi Hinj. induction n as [|n IH]; [lia|]. cbn [for_n].
  destruct (Nat.eq_dec i n) as [->|Hne]; [apply upd_eq|].
  rewrite upd_neq. 2:{ intros E. apply Hne. symmetry. apply Hinj; [lia | auto]. }
  apply IH; [lia | intros i' Hi'; apply Hinj; lia].
Qed.
Lemma scatter_same {A} n (a : nat -> A) idx (v : A) i : i < n -> scatter n a idx (fun _ => v) (idx i) = v.
Proof.
  unfold scatter. intros Hi. induction n as [|n IH]; [lia|]. cbn [for_n].
  destruct (Nat.eq_dec i n) as [->|Hne]; [apply upd_eq|].
  unfold upd. destruct (Nat.eqb (idx i) (idx n)); [reflexivity|]. apply IH. lia.
Qed.

Lemma split_link n NK i : 1 <= n -> i < n * NK -> exists k m, k < NK /\ m < n /\ i = n * k + m.
Proof.
  intros Hn Hi. exists (i / n), (i mod n). split; [apply Nat.div_lt_upper_bound; lia|].
  split; [apply Nat.mod_upper_bound; lia | apply Nat.div_mod; lia].
Qed.
Lemma block_inj c k k' m m' : m < c -> m' < c -> c * k + m = c * k' + m' -> k = k' /\ m = m'.
Proof.
  intros Hm Hm' E. destruct (divmod_unique (c * k + m) c k m Hm eq_refl) as [A B].
  destruct (divmod_unique (c * k + m) c k' m' Hm' E) as [A' B']. lia.
Qed.
