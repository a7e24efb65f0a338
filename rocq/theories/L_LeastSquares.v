(** Lemmas on the least-squares reconstruction: masks over consecutive blocks, normal equations, the matrix of one
    superlink. *)
From Verif Require Import Prelude M_Recurrence M_LeastSquares S_Network S_LeastSquares L_Linear L_Square S_Model.

(** ** Consecutive blocks *)
Open Scope nat_scope.

Lemma nsum_ext f g k : (forall i, i < k -> f i = g i) -> nsum f k = nsum g k.
Proof. induction k as [|k IH]; intros H; simpl; [reflexivity|]. rewrite IH, H by auto. reflexivity. Qed.
Lemma nsum_mono f a b : a <= b -> nsum f a <= nsum f b.
Proof. induction 1; simpl; lia. Qed.
Lemma nsum_block f k NK : k < NK -> nsum f k + f k <= nsum f NK.
Proof. intros H. pose proof (nsum_mono f (S k) NK H). simpl in *. lia. Qed.

Lemma seq_nsum len NK : seq 0 (nsum len NK) = flat_map (fun k => seq (nsum len k) (len k)) (seq 0 NK).
Proof.
  induction NK as [|NK IH]; [reflexivity|]. cbn [nsum]. rewrite seq_app, IH.
  rewrite seq_S, flat_map_app. simpl. now rewrite app_nil_r.
Qed.

Lemma flat_map_filter {A B} (p : B -> bool) (f : A -> list B) l :
  filter p (flat_map f l) = flat_map (fun x => filter p (f x)) l.
Proof. induction l as [|x l IH]; simpl; [reflexivity|]. now rewrite filter_app, IH. Qed.

Lemma flat_map_eq {A B} (f h : A -> list B) l : (forall x, In x l -> f x = h x) -> flat_map f l = flat_map h l.
Proof.
  induction l as [|x l IH]; intros H; simpl; [reflexivity|].
  rewrite (H x) by now left. rewrite IH; auto. intros y Hy; apply H; now right.
Qed.

(** A mask that is true exactly on an interval of a block. *)
Lemma filter_interval p a c u v : u + v <= c ->
  (forall j, j < c -> p (a + j) = (u <=? j) && (j <? u + v)) -> filter p (seq a c) = seq (a + u) v.
Proof.
  intros H Hp. replace c with (u + (v + (c - u - v))) by lia. rewrite !seq_app, !filter_app.
  assert (N : forall s n, (forall x, In x (seq s n) -> p x = false) -> filter p (seq s n) = []).
  { intros s n. revert s. induction n as [|n IH]; intros s Hx; [reflexivity|]. simpl. rewrite (Hx s) by now left.
    apply IH. intros x Hi. apply Hx. now right. }
  assert (Y : forall s n, (forall x, In x (seq s n) -> p x = true) -> filter p (seq s n) = seq s n).
  { intros s n. revert s. induction n as [|n IH]; intros s Hx; [reflexivity|]. simpl. rewrite (Hx s) by now left.
    f_equal. apply IH. intros x Hi. apply Hx. now right. }
  rewrite (N a u), (Y (a + u) v), (N (a + u + v)).
  - simpl. apply app_nil_r.
  - intros x Hx. apply in_seq in Hx. replace x with (a + (x - a)) by lia. rewrite Hp by lia.
    apply andb_false_iff. right. apply Nat.ltb_ge. lia.
  - intros x Hx. apply in_seq in Hx. replace x with (a + (x - a)) by lia. rewrite Hp by lia.
    apply andb_true_iff. split; [apply Nat.leb_le | apply Nat.ltb_lt]; lia.
  - intros x Hx. apply in_seq in Hx. replace x with (a + (x - a)) by lia. rewrite Hp by lia.
    apply andb_false_iff. left. apply Nat.leb_gt. lia.
Qed.

Lemma where_blocks mask len NK (u v : nat -> nat) :
  (forall k, k < NK -> u k + v k <= len k) ->
  (forall k j, k < NK -> j < len k -> mask (nsum len k + j) = (u k <=? j) && (j <? u k + v k)) ->
  where_ mask (nsum len NK) = flat_map (fun k => seq (nsum len k + u k) (v k)) (seq 0 NK).
Proof.
  intros Hb Hm. unfold where_. rewrite seq_nsum, flat_map_filter. apply flat_map_eq.
  intros k Hk. apply in_seq in Hk. apply filter_interval; [apply Hb; lia|]. intros j Hj. apply Hm; auto; lia.
Qed.

Lemma length_flat (f : nat -> list nat) m NK : (forall k, k < NK -> length (f k) = m k) ->
  length (flat_map f (seq 0 NK)) = nsum m NK.
Proof.
  induction NK as [|NK IH]; intros H; [reflexivity|]. rewrite seq_S, flat_map_app, app_length, IH by auto. simpl.
  rewrite app_nil_r, H; auto.
Qed.

Lemma nth_error_flat (f : nat -> list nat) m NK : (forall k, k < NK -> length (f k) = m k) ->
  forall k j, k < NK -> j < m k -> nth_error (flat_map f (seq 0 NK)) (nsum m k + j) = nth_error (f k) j.
Proof.
  induction NK as [|NK IH]; intros Hl k j Hk Hj; [lia|].
  rewrite seq_S, flat_map_app. simpl. rewrite app_nil_r.
  destruct (Nat.eq_dec k NK) as [->|].
  - rewrite nth_error_app2 by (rewrite (length_flat f m) by auto; lia).
    rewrite (length_flat f m) by auto. f_equal. lia.
  - rewrite nth_error_app1; [apply IH; auto; lia|]. rewrite (length_flat f m) by auto.
    pose proof (nsum_block m k NK ltac:(lia)). lia.
Qed.

Lemma nth_error_interval s n j : j < n -> nth_error (seq s n) j = Some (s + j).
Proof.
  intros H. rewrite (nth_error_nth' _ 0) by (rewrite seq_length; lia). now rewrite seq_nth.
Qed.

(** Entry of a masked selection. *)
Lemma where_entry mask len NK u v : 
  (forall k, k < NK -> u k + v k <= len k) ->
  (forall k j, k < NK -> j < len k -> mask (nsum len k + j) = (u k <=? j) && (j <? u k + v k)) ->
  forall k j, k < NK -> j < v k ->
  nth_error (where_ mask (nsum len NK)) (nsum v k + j) = Some (nsum len k + u k + j).
Proof.
  intros Hb Hm k j Hk Hj. rewrite (where_blocks mask len NK u v) by auto.
  rewrite (nth_error_flat _ v) by (auto; intros; apply seq_length). now apply nth_error_interval.
Qed.
Lemma where_length mask len NK u v : 
  (forall k, k < NK -> u k + v k <= len k) ->
  (forall k j, k < NK -> j < len k -> mask (nsum len k + j) = (u k <=? j) && (j <? u k + v k)) ->
  length (where_ mask (nsum len NK)) = nsum v NK.
Proof.
  intros Hb Hm. rewrite (where_blocks mask len NK u v) by auto. apply length_flat. intros; apply seq_length.
Qed.
Lemma nsum_one k : nsum (fun _ => 1) k = k.
Proof. induction k; simpl; lia. Qed.
Lemma nth_of_error {A} (l : list A) i x d : nth_error l i = Some x -> nth i l d = x.
Proof. revert i. induction l as [|a l IH]; intros [|i]; simpl; try congruence. apply IH. Qed.

(** Every number below a total lies in one block. *)
Lemma nsum_locate f NK p : p < nsum f NK -> exists k j, k < NK /\ j < f k /\ p = nsum f k + j.
Proof.
  induction NK as [|NK IH]; simpl; intros H; [lia|].
  destruct (lt_dec p (nsum f NK)) as [L|L].
  - destruct (IH L) as (k & j & ? & ? & ?). exists k, j. repeat split; auto.
  - exists NK, (p - nsum f NK). repeat split; lia.
Qed.

Open Scope R_scope.

(** ** Normal equations *)

Lemma sq_nonneg x : 0 <= x ^ 2.
Proof. rewrite <- Rsqr_pow2. apply Rle_0_sqr. Qed.
Lemma sq_zero x : x ^ 2 = 0 -> x = 0.
Proof. intros H. destruct (Req_dec x 0); auto. exfalso. apply (pow_nonzero x 2); auto. Qed.

Lemma fill_diagonal_entry m n i j :
  fill_diagonal m n i j = if (i <? n)%nat && Nat.eqb i j && Reqb (m i i) 0 then 1 else m i j.
Proof.
  unfold fill_diagonal. revert i j. induction n as [|n IH]; intros i j.
  - reflexivity.
  - cbn [for_n].
    set (m' := for_n n _ _) in *.
    assert (D : m' n n = m n n).
    { rewrite IH. replace (n <? n)%nat with false; [reflexivity|]. symmetry. apply Nat.ltb_ge. lia. }
    rewrite D. destruct (Nat.eq_dec i n) as [->|Ni].
    + replace (n <? S n)%nat with true by (symmetry; apply Nat.ltb_lt; lia). simpl.
      assert (E : m' n j = m n j).
      { rewrite IH. replace (n <? n)%nat with false; [reflexivity|]. symmetry. apply Nat.ltb_ge. lia. }
      destruct (Reqb_spec (m n n) 0); simpl.
      * destruct (Nat.eqb_spec n j) as [<-|]; simpl; [apply upd2_eq|].
        rewrite upd2_neq by auto. exact E.
      * rewrite andb_false_r. exact E.
    + replace (i <? S n)%nat with (i <? n)%nat.
      2:{ destruct (Nat.ltb_spec i n), (Nat.ltb_spec i (S n)); auto; lia. }
      destruct (Reqb (m n n) 0); [rewrite upd2_neq by auto|]; apply IH.
Qed.

Section Normal.
  Variables (rows cols : nat) (A : mat) (b : arr).
  Let prod (x : arr) (r : nat) : R := sum_n (fun c => A r c * x c) cols.

  Lemma residual_prod x : residual2 rows cols A b x = sum_n (fun r => (prod x r - b r) ^ 2) rows.
  Proof. reflexivity. Qed.

  Lemma normal_zero_column c : normal_matrix A rows c c = 0 -> forall r, (r < rows)%nat -> A r c = 0.
  Proof.
    unfold normal_matrix. intros H r Hr.
    pose proof (sum_n_zero_terms (fun r => A r c * A r c) rows) as Z.
    specialize (Z ltac:(intros; cbv beta; apply Rle_0_sqr) ltac:(cbv beta; lra) r Hr). cbv beta in Z.
    apply Rsqr_0_uniq. exact Z.
  Qed.

  Lemma normal_row c x :
    sum_n (fun j => normal_matrix A rows c j * x j) cols = sum_n (fun r => A r c * prod x r) rows.
  Proof.
    unfold normal_matrix, prod.
    rewrite (sum_n_ext _ (fun j => sum_n (fun r => A r c * A r j * x j) rows))
      by (intros; rewrite sum_n_scal_r; reflexivity).
    rewrite sum_n_swap. apply sum_n_ext. intros r Hr. rewrite <- sum_n_scal. apply sum_n_ext. intros; ring.
  Qed.

  (** A solution of the filled normal equations is orthogonal to the columns. *)
  Lemma normal_orthogonal x :
    solves cols (fill_diagonal (normal_matrix A rows) cols) (normal_rhs A b rows) x ->
    forall c, (c < cols)%nat -> sum_n (fun r => A r c * (prod x r - b r)) rows = 0.
  Proof.
    intros S c Hc. specialize (S c Hc). unfold row_holds in S.
    destruct (Req_dec (normal_matrix A rows c c) 0) as [Z|Z].
    - apply sum_n_0. intros r Hr. rewrite (normal_zero_column c Z r Hr). ring.
    - rewrite (sum_n_ext _ (fun j => normal_matrix A rows c j * x j)) in S.
      2:{ intros j Hj. rewrite fill_diagonal_entry. destruct (Reqb_spec (normal_matrix A rows c c) 0); [contradiction|].
          now rewrite andb_false_r. }
      rewrite normal_row in S. unfold normal_rhs in S.
      rewrite (sum_n_ext _ (fun r => A r c * prod x r - A r c * b r)) by (intros; ring).
      rewrite sum_n_minus. lra.
  Qed.

  Lemma prod_minus x y r : prod (fun c => y c - x c) r = prod y r - prod x r.
  Proof. unfold prod. rewrite <- sum_n_minus. apply sum_n_ext. intros; ring. Qed.

  Lemma normal_pythagoras x y :
    (forall c, (c < cols)%nat -> sum_n (fun r => A r c * (prod x r - b r)) rows = 0) ->
    residual2 rows cols A b y = residual2 rows cols A b x + sum_n (fun r => (prod y r - prod x r) ^ 2) rows.
  Proof.
    intros O. rewrite !residual_prod.
    assert (C : sum_n (fun r => (prod y r - prod x r) * (prod x r - b r)) rows = 0).
    { rewrite (sum_n_ext _ (fun r => sum_n (fun c => (y c - x c) * (A r c * (prod x r - b r))) cols)).
      - rewrite sum_n_swap. apply sum_n_0. intros c Hc. rewrite sum_n_scal, O by auto. ring.
      - intros r Hr. rewrite <- prod_minus. unfold prod at 1. rewrite <- sum_n_scal_r. apply sum_n_ext. intros; ring. }
    rewrite <- sum_n_plus.
    rewrite (sum_n_ext (fun r => (prod y r - b r) ^ 2)
              (fun r => ((prod x r - b r) ^ 2 + (prod y r - prod x r) ^ 2) + 2 * ((prod y r - prod x r) * (prod x r - b r))))
      by (intros; ring).
    rewrite (sum_n_plus (fun r => (prod x r - b r) ^ 2 + (prod y r - prod x r) ^ 2)), sum_n_scal, C. ring.
  Qed.

  Lemma normal_best x y :
    solves cols (fill_diagonal (normal_matrix A rows) cols) (normal_rhs A b rows) x ->
    residual2 rows cols A b x <= residual2 rows cols A b y.
  Proof.
    intros S. rewrite (normal_pythagoras x y) by (apply normal_orthogonal; auto).
    pose proof (sum_n_nonneg (fun r => (prod y r - prod x r) ^ 2) rows ltac:(intros; apply sq_nonneg)). lra.
  Qed.

  (** With a trivial kernel the filled normal equations have exactly one solution. *)
  Hypothesis Ker : forall v, (forall r, (r < rows)%nat -> prod v r = 0) -> forall c, (c < cols)%nat -> v c = 0.

  Lemma normal_kernel v :
    (forall i, (i < cols)%nat -> sum_n (fun j => fill_diagonal (normal_matrix A rows) cols i j * v j) cols = 0) ->
    forall j, (j < cols)%nat -> v j = 0.
  Proof.
    intros H. apply Ker.
    assert (D : forall c, (c < cols)%nat -> normal_matrix A rows c c <> 0).
    { intros c Hc Z. pose proof (normal_zero_column c Z) as Zc.
      specialize (Ker (fun j => if Nat.eqb j c then 1 else 0)).
      assert (X : (fun j => if Nat.eqb j c then 1 else 0) c = 0).
      { apply Ker; auto. intros r Hr. unfold prod. apply sum_n_0. intros j Hj.
        destruct (Nat.eqb_spec j c) as [->|]; [rewrite (Zc r Hr)|]; ring. }
      cbv beta in X. rewrite Nat.eqb_refl in X. lra. }
    assert (N : forall c, (c < cols)%nat -> sum_n (fun r => A r c * prod v r) rows = 0).
    { intros c Hc. rewrite <- normal_row. rewrite <- (H c Hc). apply sum_n_ext. intros j Hj.
      rewrite fill_diagonal_entry. destruct (Reqb_spec (normal_matrix A rows c c) 0) as [Z|]; [destruct (D c Hc Z)|].
      now rewrite andb_false_r. }
    assert (Q : sum_n (fun r => (prod v r) ^ 2) rows = 0).
    { rewrite (sum_n_ext _ (fun r => sum_n (fun c => v c * (A r c * prod v r)) cols)).
      - rewrite sum_n_swap. apply sum_n_0. intros c Hc. rewrite sum_n_scal, N by auto. ring.
      - intros r Hr. simpl. rewrite Rmult_1_r. unfold prod at 1. rewrite <- sum_n_scal_r. apply sum_n_ext. intros; ring. }
    intros r Hr. apply sq_zero.
    apply (sum_n_zero_terms (fun r => (prod v r) ^ 2) rows); [intros; apply sq_nonneg | lra | auto].
  Qed.

  Lemma normal_exists : exists x, solves cols (fill_diagonal (normal_matrix A rows) cols) (normal_rhs A b rows) x.
  Proof. apply square_solvable. exact normal_kernel. Qed.

  Lemma normal_unique x y :
    solves cols (fill_diagonal (normal_matrix A rows) cols) (normal_rhs A b rows) x ->
    solves cols (fill_diagonal (normal_matrix A rows) cols) (normal_rhs A b rows) y ->
    forall j, (j < cols)%nat -> x j = y j.
  Proof.
    intros S S' j Hj. apply Rminus_diag_uniq. refine (normal_kernel (fun j => x j - y j) _ j Hj).
    intros i Hi. rewrite (sum_n_ext _ (fun j => fill_diagonal (normal_matrix A rows) cols i j * x j -
                                               fill_diagonal (normal_matrix A rows) cols i j * y j)) by (intros; ring).
    rewrite sum_n_minus. rewrite (S i Hi), (S' i Hi). ring.
  Qed.

  (** A vector with no residual is the only minimiser. *)
  Lemma exact_minimiser x y :
    (forall r, (r < rows)%nat -> prod y r = b r) -> residual2 rows cols A b x <= residual2 rows cols A b y ->
    forall j, (j < cols)%nat -> x j = y j.
  Proof.
    intros E L j Hj. apply Rminus_diag_uniq. refine (Ker (fun j => x j - y j) _ j Hj).
    assert (Z : residual2 rows cols A b y = 0).
    { rewrite residual_prod. apply sum_n_0. intros r Hr. rewrite E by auto. ring. }
    assert (Q : forall r, (r < rows)%nat -> prod x r - b r = 0).
    { intros r Hr. apply sq_zero. apply (sum_n_zero_terms (fun r => (prod x r - b r) ^ 2) rows); auto.
      - intros; apply sq_nonneg.
      - rewrite <- residual_prod. lra. }
    intros r Hr. rewrite prod_minus. rewrite E by auto. apply Q; auto.
  Qed.
End Normal.

(** The matrix only matters on its rows and columns. *)
Lemma residual2_ext rows cols A A' b b' x :
  (forall r c, (r < rows)%nat -> (c < cols)%nat -> A r c = A' r c) -> (forall r, (r < rows)%nat -> b r = b' r) ->
  residual2 rows cols A b x = residual2 rows cols A' b' x.
Proof.
  intros HA Hb. apply sum_n_ext. intros r Hr. rewrite Hb by auto. do 2 f_equal.
  apply sum_n_ext. intros c Hc. rewrite HA; auto.
Qed.

(** ** The matrix of one superlink *)

Definition link_matrix (U X : arr) : mat :=
  fun r c => if Nat.eqb r c then U r else if Nat.eqb r (c + 1) then - X r else 0.
Definition link_rhs (U V W X Y Z : arr) (n : nat) (hu hd : R) : arr :=
  fun r => - (W r * hu) + Z r * hd + Y r - V r + (if Nat.eqb r 0 then X r * hu else 0)
           - (if Nat.eqb (r + 1) n then U r * hd else 0).
Definition with_ends (n : nat) (hu hd : R) (x : arr) : arr :=
  fun j => if Nat.eqb j 0 then hu else if Nat.eqb j n then hd else x (j - 1)%nat.

Lemma sum_two (f : arr) n a b : (a < n)%nat -> (b < n)%nat -> a <> b ->
  (forall i, (i < n)%nat -> i <> a -> i <> b -> f i = 0) -> sum_n f n = f a + f b.
Proof.
  intros Ha Hb Hab H. rewrite (sum_n_split f n a Ha).
  rewrite (sum_n_single _ n b Hb).
  - destruct (Nat.eqb_spec b a); [congruence|]. reflexivity.
  - intros i Hi Ni. destruct (Nat.eqb_spec i a); auto.
Qed.

Lemma link_row U V W X Y Z n hu hd x r : (r < n)%nat ->
  sum_n (fun c => link_matrix U X r c * x c) (n - 1) - link_rhs U V W X Y Z n hu hd r =
  (U r * with_ends n hu hd x (r + 1)%nat + V r + W r * hu) - (X r * with_ends n hu hd x r + Y r + Z r * hd).
Proof.
  intros Hr.
  assert (S : sum_n (fun c => link_matrix U X r c * x c) (n - 1) =
              (if Nat.eqb (r + 1) n then 0 else U r * x r) - (if Nat.eqb r 0 then 0 else X r * x (r - 1)%nat)).
  { destruct (Nat.eqb_spec (r + 1) n) as [E|E]; destruct (Nat.eqb_spec r 0) as [E0|E0].
    - subst r. replace (n - 1)%nat with 0%nat by lia. simpl. ring.
    - rewrite (sum_n_single _ (n - 1) (r - 1)); [|lia|].
      + unfold link_matrix. destruct (Nat.eqb_spec r (r - 1)); [lia|]. destruct (Nat.eqb_spec r (r - 1 + 1)); [ring|lia].
      + intros c Hc Nc. unfold link_matrix. destruct (Nat.eqb_spec r c); [lia|]. destruct (Nat.eqb_spec r (c + 1)); [lia|ring].
    - rewrite (sum_n_single _ (n - 1) r); [|lia|].
      + unfold link_matrix. rewrite Nat.eqb_refl. ring.
      + intros c Hc Nc. unfold link_matrix. destruct (Nat.eqb_spec r c); [lia|]. destruct (Nat.eqb_spec r (c + 1)); [lia|ring].
    - rewrite (sum_two _ (n - 1) r (r - 1)); [|lia|lia|lia|].
      + unfold link_matrix. rewrite Nat.eqb_refl. destruct (Nat.eqb_spec r (r - 1)); [lia|].
        destruct (Nat.eqb_spec r (r - 1 + 1)); [ring|lia].
      + intros c Hc Nc Nc'. unfold link_matrix. destruct (Nat.eqb_spec r c); [lia|].
        destruct (Nat.eqb_spec r (c + 1)); [lia|ring]. }
  rewrite S. unfold link_rhs, with_ends.
  destruct (Nat.eqb_spec (r + 1) n) as [E|E]; destruct (Nat.eqb_spec r 0) as [E0|E0];
    destruct (Nat.eqb_spec (r + 1) 0); try lia; destruct (Nat.eqb_spec r n); try lia;
    try replace (r + 1 - 1)%nat with r by lia; ring.
Qed.

Lemma residual_disagreement U V W X Y Z n hu hd x : (1 <= n)%nat ->
  residual2 n (n - 1) (link_matrix U X) (link_rhs U V W X Y Z n hu hd) x =
  disagreement U V W X Y Z n (with_ends n hu hd x).
Proof.
  intros Hn. unfold residual2, disagreement. apply sum_n_ext. intros r Hr. rewrite link_row by auto.
  unfold with_ends at 4 6. simpl Nat.eqb. cbv iota. rewrite Nat.eqb_refl. destruct (Nat.eqb_spec n 0); [lia|].
  reflexivity.
Qed.

Lemma link_kernel U X n : (forall r, (r < n)%nat -> U r <> 0) ->
  forall v, (forall r, (r < n)%nat -> sum_n (fun c => link_matrix U X r c * v c) (n - 1) = 0) ->
  forall c, (c < n - 1)%nat -> v c = 0.
Proof.
  intros HU v H. induction c as [|c IH]; intros Hc.
  - specialize (H 0%nat ltac:(lia)). rewrite (sum_n_single _ (n - 1) 0) in H; [|lia|].
    + unfold link_matrix in H. simpl in H. apply Rmult_integral in H. destruct H; auto. destruct (HU 0%nat); auto; lia.
    + intros i Hi Ni. unfold link_matrix. destruct (Nat.eqb_spec 0 i); [lia|]. destruct (Nat.eqb_spec 0 (i + 1)); [lia|ring].
  - specialize (H (S c) ltac:(lia)). rewrite (sum_two _ (n - 1) (S c) c) in H; [|lia|lia|lia|].
    + unfold link_matrix in H at 1. rewrite Nat.eqb_refl in H. rewrite (IH ltac:(lia)), Rmult_0_r, Rplus_0_r in H.
      apply Rmult_integral in H. destruct H; auto. destruct (HU (S c)); auto; lia.
    + intros i Hi N1 N2. unfold link_matrix. destruct (Nat.eqb_spec (S c) i); [lia|].
      destruct (Nat.eqb_spec (S c) (i + 1)); [lia|ring].
Qed.

Lemma fill_matrix_some U X l n (uk xk : arr) :
  (forall i, (i < n - 1)%nat -> nth_error U (l + i) = Some (uk i) /\ nth_error X (l + i) = Some (xk (i + 1)%nat)) ->
  exists Ak, fill_matrix U X l n = Some Ak /\
    forall r c, (r < n)%nat -> (c < n - 1)%nat -> Ak r c = link_matrix uk xk r c.
Proof.
  intros H. unfold fill_matrix.
  destruct (for_opt_total (fun m (Ak : mat) => forall r c, Ak r c = if (c <? m)%nat then link_matrix uk xk r c else 0)
    (n - 1) (fun i (Ak : mat) =>
    match nth_error U (l + i), nth_error X (l + i) with
    | Some u, Some x => Some (upd2 (upd2 Ak i i u) (i + 1) i (- x))
    | _, _ => None
    end) (fun _ _ => 0)) as (Ak & E & P).
  - intros r c. reflexivity.
  - intros i s1 Hi P. destruct (H i Hi) as [-> ->]. eexists; split; [reflexivity|].
    intros r c. unfold upd2, link_matrix. rewrite P. unfold link_matrix.
    destruct (Nat.eqb_spec r (i + 1)), (Nat.eqb_spec c i), (Nat.eqb_spec r i), (Nat.eqb_spec r c),
      (Nat.eqb_spec r (c + 1)), (Nat.ltb_spec c (S i)), (Nat.ltb_spec c i); simpl; subst; try lia; auto.
  - exists Ak. split; [exact E|]. intros r c Hr Hc. rewrite P. destruct (Nat.ltb_spec c (n - 1)); [reflexivity|lia].
Qed.

Lemma write_inner_entry h inner j n I :
  write_inner h inner j n I = if ((j + 1 <=? I) && (I <? j + n))%nat then inner (I - (j + 1))%nat else h I.
Proof.
  unfold write_inner.
  assert (G : forall m, for_n m (fun i h => upd h (j + 1 + i)%nat (inner i)) h I =
    if ((j + 1 <=? I) && (I <? j + 1 + m))%nat then inner (I - (j + 1))%nat else h I).
  { induction m as [|m IH]; cbn [for_n].
    - destruct (Nat.leb_spec (j + 1) I), (Nat.ltb_spec I (j + 1 + 0)); simpl; auto; lia.
    - destruct (Nat.eq_dec I (j + 1 + m)) as [->|N].
      + rewrite upd_eq. destruct (Nat.leb_spec (j + 1) (j + 1 + m)), (Nat.ltb_spec (j + 1 + m) (j + 1 + S m)); simpl; try lia.
        f_equal; lia.
      + rewrite upd_neq by auto. rewrite IH.
        destruct (Nat.leb_spec (j + 1) I), (Nat.ltb_spec I (j + 1 + m)), (Nat.ltb_spec I (j + 1 + S m)); simpl; auto; lia. }
  rewrite G. destruct (Nat.leb_spec (j + 1) I), (Nat.ltb_spec I (j + 1 + (n - 1))), (Nat.ltb_spec I (j + n)); simpl; auto; lia.
Qed.
