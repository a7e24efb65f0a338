(** The least-squares reconstruction on consecutively numbered superlinks: what the masks select, what each superlink's
    least-squares problem is, and what is written back. *)
From Verif Require Import Prelude M_Recurrence M_LeastSquares S_Network S_LeastSquares S_Model L_LeastSquares M_Coeffs.

(** Additions at distinct positions. *)
Lemma add_at (pos : nat -> nat) (d : arr) (v0 : arr) n :
  (forall k k', (k < n)%nat -> (k' < n)%nat -> pos k = pos k' -> k = k') ->
  let v := for_n n (fun k v => upd v (pos k) (v (pos k) + d k)) v0 in
  (forall k, (k < n)%nat -> v (pos k) = v0 (pos k) + d k) /\
  (forall i, (forall k, (k < n)%nat -> i <> pos k) -> v i = v0 i).
Proof.
  induction n as [|n IH]; intros Hi; cbn [for_n].
  - split; [intros; lia|auto].
  - destruct IH as [I1 I2]; [intros; apply Hi; auto|]. cbv zeta in I1, I2 |- *. split.
    + intros k Hk. destruct (Nat.eq_dec k n) as [->|].
      * rewrite upd_eq, I2; [reflexivity|]. intros k' Hk' E. apply Hi in E; lia.
      * rewrite upd_neq; [apply I1; lia|]. intros E. apply Hi in E; lia.
    + intros i Hx. rewrite upd_neq by (apply Hx; lia). apply I2. intros; apply Hx; lia.
Qed.
Lemma put_at (pos : nat -> nat) (d : arr) (v0 : arr) n :
  (forall k k', (k < n)%nat -> (k' < n)%nat -> pos k = pos k' -> k = k') ->
  let v := for_n n (fun k v => upd v (pos k) (d k)) v0 in
  (forall k, (k < n)%nat -> v (pos k) = d k) /\
  (forall i, (forall k, (k < n)%nat -> i <> pos k) -> v i = v0 i).
Proof.
  induction n as [|n IH]; intros Hi; cbn [for_n].
  - split; [intros; lia|auto].
  - destruct IH as [I1 I2]; [intros; apply Hi; auto|]. cbv zeta in I1, I2 |- *. split.
    + intros k Hk. destruct (Nat.eq_dec k n) as [->|].
      * now rewrite upd_eq.
      * rewrite upd_neq; [apply I1; lia|]. intros E. apply Hi in E; lia.
    + intros i Hx. rewrite upd_neq by (apply Hx; lia). apply I2. intros; apply Hx; lia.
Qed.
Lemma for_n_ext {S} n (f g : nat -> S -> S) s : (forall i x, (i < n)%nat -> f i x = g i x) -> for_n n f s = for_n n g s.
Proof. intros H. induction n as [|n IH]; simpl; [reflexivity|]. rewrite IH, H by auto. reflexivity. Qed.

Section Chain.
  Variable T : chain.
  Hypothesis HT : contiguous T.
  Let NK := c_NK T.
  Let nk := c_nk T.
  Let len := fun k => (nk k + 1)%nat.
  Let I1 := c_I1 T.
  Let i1 := c_i1 T.

  Lemma nk_pos k : (k < NK)%nat -> (1 <= nk k)%nat.
  Proof. apply (ct_links T HT). Qed.
  Lemma I1_eq k : (k < NK)%nat -> nsum len k = I1 k.
  Proof. intros H. symmetry. apply (ct_first T HT k H). Qed.
  Lemma i1_eq k : (k < NK)%nat -> nsum nk k = i1 k.
  Proof. intros H. symmetry. apply (ct_first T HT k H). Qed.
  Lemma start_at k j : (k < NK)%nat -> (j <= nk k)%nat -> c_start T (I1 k + j)%nat = Nat.eqb j 0.
  Proof. intros Hk Hj. apply (ct_junction T HT k j Hk Hj). Qed.
  Lemma end_at k j : (k < NK)%nat -> (j <= nk k)%nat -> c_end T (I1 k + j)%nat = Nat.eqb j (nk k).
  Proof. intros Hk Hj. apply (ct_junction T HT k j Hk Hj). Qed.
  Lemma ki_at k j : (k < NK)%nat -> (j < nk k)%nat -> c_ki T (i1 k + j)%nat = k.
  Proof. intros Hk Hj. apply (ct_link T HT k j Hk Hj). Qed.
  Lemma Ik_at k j : (k < NK)%nat -> (j < nk k)%nat -> c_Ik T (i1 k + j)%nat = (I1 k + j)%nat.
  Proof. intros Hk Hj. apply (ct_link T HT k j Hk Hj). Qed.

  Lemma I1_after k k' : (k < k')%nat -> (k' < NK)%nat -> (I1 k + nk k < I1 k')%nat.
  Proof.
    intros H H'. rewrite <- !I1_eq by lia. pose proof (nsum_mono len (S k) k' H). simpl in *. unfold len in *. lia.
  Qed.
  Lemma i1_after k k' : (k < k')%nat -> (k' < NK)%nat -> (i1 k + nk k <= i1 k')%nat.
  Proof.
    intros H H'. rewrite <- !i1_eq by lia. pose proof (nsum_mono nk (S k) k' H). simpl in *. lia.
  Qed.
  Lemma I1_bound k : (k < NK)%nat -> (I1 k + nk k < c_NJ T)%nat.
  Proof.
    intros H. rewrite (ct_NJ T HT), <- I1_eq by auto. pose proof (nsum_block len k NK H). unfold len, nk, NK in *. lia.
  Qed.

  Lemma penult_at k j : (k < NK)%nat -> (j <= nk k)%nat -> is_penult T (I1 k + j)%nat = Nat.eqb (j + 1) (nk k).
  Proof.
    intros Hk Hj. unfold is_penult. pose proof (nk_pos k Hk) as Np.
    destruct (Nat.eq_dec j (nk k)) as [->|N].
    - replace (Nat.eqb (nk k + 1) (nk k)) with false by (symmetry; apply Nat.eqb_neq; lia).
      destruct (Nat.eq_dec (S k) NK) as [E|E].
      + assert (c_NJ T = I1 k + nk k + 1)%nat as ->.
        { rewrite (ct_NJ T HT). change (nsum len NK = I1 k + nk k + 1)%nat. rewrite <- E. simpl. rewrite I1_eq by lia.
          unfold len. lia. }
        rewrite Nat.mod_same by lia. replace 0%nat with (I1 0 + 0)%nat.
        * rewrite end_at by lia. apply Nat.eqb_neq. pose proof (nk_pos 0%nat ltac:(lia)). lia.
        * rewrite <- I1_eq by lia. reflexivity.
      + assert (X : I1 (S k) = (I1 k + nk k + 1)%nat).
        { rewrite <- !I1_eq by lia. simpl. unfold len. lia. }
        pose proof (I1_bound (S k) ltac:(lia)).
        rewrite Nat.mod_small by lia. rewrite <- X. replace (I1 (S k)) with (I1 (S k) + 0)%nat by lia.
        rewrite end_at by lia. apply Nat.eqb_neq. pose proof (nk_pos (S k) ltac:(lia)). lia.
    - pose proof (I1_bound k Hk). rewrite Nat.mod_small by lia. rewrite <- Nat.add_assoc. apply end_at; lia.
  Qed.

  Ltac bools := repeat match goal with |- context [Nat.eqb ?a ?b] => destruct (Nat.eqb_spec a b) end;
                repeat match goal with |- context [(?a <=? ?b)%nat] => destruct (Nat.leb_spec a b) end;
                repeat match goal with |- context [(?a <? ?b)%nat] => destruct (Nat.ltb_spec a b) end; simpl; auto; try lia.

  Lemma notend_entry k j : (k < NK)%nat -> (j < nk k)%nat ->
    nth (i1 k + j) (where_ (fun I => negb (c_end T I)) (c_NJ T)) O = (I1 k + j)%nat.
  Proof.
    intros Hk Hj. apply nth_of_error. rewrite (ct_NJ T HT), <- i1_eq, <- I1_eq by auto.
    erewrite (where_entry _ len NK (fun _ => 0%nat) nk); auto; try (cbv beta; f_equal; lia).
    - intros; unfold len; cbv beta; lia.
    - intros k' j' Hk' Hj'. rewrite I1_eq by auto. unfold len in Hj'. rewrite end_at by (auto; lia). bools.
  Qed.
  Lemma notend_length : length (where_ (fun I => negb (c_end T I)) (c_NJ T)) = c_NL T.
  Proof.
    rewrite (ct_NJ T HT), (ct_NL T HT). apply (where_length _ len NK (fun _ => 0%nat) nk).
    - intros; unfold len; cbv beta; lia.
    - intros k' j' Hk' Hj'. rewrite I1_eq by auto. unfold len in Hj'. rewrite end_at by (auto; lia). bools.
  Qed.
  Lemma start_entry k : (k < NK)%nat -> nth k (where_ (c_start T) (c_NJ T)) O = I1 k.
  Proof.
    intros Hk. apply nth_of_error. rewrite (ct_NJ T HT), <- I1_eq by auto.
    replace k with (nsum (fun _ => 1%nat) k + 0)%nat at 1 by (rewrite nsum_one; lia).
    erewrite (where_entry _ len NK (fun _ => 0%nat) (fun _ => 1%nat)); auto; try (cbv beta; f_equal; lia).
    - intros; unfold len; cbv beta; lia.
    - intros k' j' Hk' Hj'. rewrite I1_eq by auto. unfold len in Hj'. rewrite start_at by (auto; lia). bools.
  Qed.
  Lemma end_entry k : (k < NK)%nat -> nth k (where_ (c_end T) (c_NJ T)) O = (I1 k + nk k)%nat.
  Proof.
    intros Hk. apply nth_of_error. rewrite (ct_NJ T HT), <- I1_eq by auto.
    replace k with (nsum (fun _ => 1%nat) k + 0)%nat at 1 by (rewrite nsum_one; lia).
    erewrite (where_entry _ len NK nk (fun _ => 1%nat)); auto; try (cbv beta; f_equal; lia).
    - intros k' j' Hk' Hj'. rewrite I1_eq by auto. unfold len in Hj'. rewrite end_at by (auto; lia). bools.
  Qed.
  Lemma penult_entry k : (k < NK)%nat -> nth k (where_ (is_penult T) (c_NJ T)) O = (I1 k + (nk k - 1))%nat.
  Proof.
    intros Hk. apply nth_of_error. rewrite (ct_NJ T HT), <- I1_eq by auto.
    replace k with (nsum (fun _ => 1%nat) k + 0)%nat at 1 by (rewrite nsum_one; lia).
    erewrite (where_entry _ len NK (fun k => nk k - 1)%nat (fun _ => 1%nat)); auto; try (cbv beta; f_equal; lia).
    - intros k' Hk'. pose proof (nk_pos k' Hk'). unfold len; cbv beta; lia.
    - intros k' j' Hk' Hj'. rewrite I1_eq by auto. unfold len in Hj'. rewrite penult_at by (auto; lia).
      pose proof (nk_pos k' Hk'). bools.
  Qed.
  Lemma lstart_entry k : (k < NK)%nat -> nth k (where_ (c_lstart T) (c_NL T)) O = i1 k.
  Proof.
    intros Hk. apply nth_of_error. rewrite (ct_NL T HT), <- i1_eq by auto.
    replace k with (nsum (fun _ => 1%nat) k + 0)%nat at 1 by (rewrite nsum_one; lia).
    erewrite (where_entry _ nk NK (fun _ => 0%nat) (fun _ => 1%nat)); auto; try (cbv beta; f_equal; lia).
    - intros k' Hk'. pose proof (nk_pos k' Hk'). cbv beta. lia.
    - intros k' j' Hk' Hj'. rewrite i1_eq by auto. unfold i1. destruct (ct_link T HT k' j' Hk' Hj') as (_ & _ & -> & _). bools.
  Qed.
  Lemma lend_entry k : (k < NK)%nat -> nth k (where_ (c_lend T) (c_NL T)) O = (i1 k + (nk k - 1))%nat.
  Proof.
    intros Hk. apply nth_of_error. rewrite (ct_NL T HT), <- i1_eq by auto.
    replace k with (nsum (fun _ => 1%nat) k + 0)%nat at 1 by (rewrite nsum_one; lia).
    erewrite (where_entry _ nk NK (fun k => nk k - 1)%nat (fun _ => 1%nat)); auto; try (cbv beta; f_equal; lia).
    - intros k' Hk'. pose proof (nk_pos k' Hk'). cbv beta. lia.
    - intros k' j' Hk' Hj'. rewrite i1_eq by auto. unfold i1. destruct (ct_link T HT k' j' Hk' Hj') as (_ & _ & _ & ->).
      fold nk. pose proof (nk_pos k' Hk'). bools.
  Qed.
  Lemma X_entry (a : arr) k j : (k < NK)%nat -> (j < nk k - 1)%nat ->
    nth_error (compress a (mask_X T) (c_NJ T)) (nsum (fun k => nk k - 1)%nat k + j) = Some (a (I1 k + (j + 1))%nat).
  Proof.
    intros Hk Hj. unfold compress. apply map_nth_error. rewrite (ct_NJ T HT), <- I1_eq by auto.
    erewrite (where_entry _ len NK (fun _ => 1%nat) (fun k => nk k - 1)%nat); auto; try (cbv beta; f_equal; lia).
    - intros k' Hk'. pose proof (nk_pos k' Hk'). unfold len; cbv beta; lia.
    - intros k' j' Hk' Hj'. rewrite I1_eq by auto. unfold len in Hj'. unfold mask_X.
      rewrite start_at, end_at by (auto; lia). pose proof (nk_pos k' Hk'). bools.
  Qed.
  Lemma U_entry (a : arr) k j : (k < NK)%nat -> (j < nk k - 1)%nat ->
    nth_error (compress a (mask_U T) (c_NJ T)) (nsum (fun k => nk k - 1)%nat k + j) = Some (a (I1 k + j)%nat).
  Proof.
    intros Hk Hj. unfold compress. apply map_nth_error. rewrite (ct_NJ T HT), <- I1_eq by auto.
    erewrite (where_entry _ len NK (fun _ => 0%nat) (fun k => nk k - 1)%nat); auto; try (cbv beta; f_equal; lia).
    - intros k' Hk'. pose proof (nk_pos k' Hk'). unfold len; cbv beta; lia.
    - intros k' j' Hk' Hj'. rewrite I1_eq by auto. unfold len in Hj'. unfold mask_U.
      rewrite penult_at, end_at by (auto; lia). pose proof (nk_pos k' Hk'). bools.
  Qed.

  (** ** Right-hand sides *)
  Variables (f : fwd) (b : bwd) (h_uk h_dk : arr).
  Definition at_ (a : arr) (k : nat) : arr := fun j => a (c_I1 T k + j)%nat.
  Let rhs k := link_rhs (at_ (fU f) k) (at_ (fV f) k) (at_ (fW f) k) (at_ (bX b) k) (at_ (bY b) k) (at_ (bZ b) k)
                        (nk k) (h_uk k) (h_dk k).

  Lemma right_hand_side_spec : exists v, right_hand_side T f b h_uk h_dk = Some v /\
    forall k r, (k < NK)%nat -> (r < nk k)%nat -> v (i1 k + r)%nat = rhs k r.
  Proof.
    unfold right_hand_side. rewrite notend_length, Nat.eqb_refl. eexists; split; [reflexivity|].
    intros k r Hk Hr. set (ne := where_ (fun I => negb (c_end T I)) (c_NJ T)).
    set (b0 := fun i => - (fW f (nth i ne O) * h_uk (c_ki T i)) + bZ b (nth i ne O) * h_dk (c_ki T i) + bY b (nth i ne O)
                        - fV f (nth i ne O)).
    match goal with |- for_n _ ?F (for_n _ ?G _) _ = _ => set (F2 := F); set (F1 := G) end.
    set (v1 := for_n (c_NK T) F1 b0).
    destruct (add_at i1 (fun k => bX b (I1 k) * h_uk k) b0 NK) as [P1 P2].
    { intros p q Hp Hq E. destruct (Nat.lt_trichotomy p q) as [L|[L|L]]; auto.
      - pose proof (i1_after p q L Hq). pose proof (nk_pos p Hp). lia.
      - pose proof (i1_after q p L Hp). pose proof (nk_pos q Hq). lia. }
    destruct (add_at (fun k => i1 k + (nk k - 1))%nat (fun k => - (fU f (I1 k + (nk k - 1))%nat * h_dk k)) v1 NK) as [P3 P4].
    { intros p q Hp Hq E. pose proof (nk_pos p Hp). pose proof (nk_pos q Hq).
      destruct (Nat.lt_trichotomy p q) as [L|[L|L]]; auto.
      - pose proof (i1_after p q L Hq). lia.
      - pose proof (i1_after q p L Hp). lia. }
    assert (E1 : v1 = for_n NK (fun k v => upd v (i1 k) (v (i1 k) + bX b (I1 k) * h_uk k)) b0).
    { apply for_n_ext. intros p x Hp. unfold F1. rewrite lstart_entry, start_entry by auto. reflexivity. }
    rewrite <- E1 in P1, P2. cbv zeta in P1, P2, P3, P4.
    assert (E2 : for_n (c_NK T) F2 v1 = for_n NK (fun k v => upd v (i1 k + (nk k - 1))%nat
                   (v (i1 k + (nk k - 1))%nat + - (fU f (I1 k + (nk k - 1))%nat * h_dk k))) v1).
    { apply for_n_ext. intros p x Hp. unfold F2. rewrite lend_entry, penult_entry by auto. reflexivity. }
    rewrite E2. clear E2. set (v2 := for_n NK _ v1) in *.
    assert (Q1 : v1 (i1 k + r)%nat = b0 (i1 k + r)%nat + (if Nat.eqb r 0 then bX b (I1 k + r)%nat * h_uk k else 0)).
    { destruct (Nat.eqb_spec r 0) as [->|N].
      - rewrite !Nat.add_0_r. apply P1; auto.
      - rewrite P2; [ring|]. intros p Hp E. destruct (Nat.lt_trichotomy p k) as [L|[->|L]]; [|lia|].
        + pose proof (i1_after p k L Hk). lia.
        + pose proof (i1_after k p L Hp). lia. }
    assert (Q2 : v2 (i1 k + r)%nat = v1 (i1 k + r)%nat - (if Nat.eqb (r + 1) (nk k) then fU f (I1 k + r)%nat * h_dk k else 0)).
    { destruct (Nat.eqb_spec (r + 1) (nk k)) as [E|N].
      - replace r with (nk k - 1)%nat by lia. rewrite P3 by auto. ring.
      - rewrite P4; [ring|]. intros p Hp E. pose proof (nk_pos p Hp). destruct (Nat.lt_trichotomy p k) as [L|[->|L]]; [|lia|].
        + pose proof (i1_after p k L Hk). lia.
        + pose proof (i1_after k p L Hp). lia. }
    rewrite Q2, Q1. unfold b0, ne. rewrite notend_entry, ki_at by auto.
    unfold rhs, link_rhs, at_. reflexivity.
  Qed.

  (** ** The start of a superlink's rows in the compressed arrays *)
  Lemma k_1k_eq k : (k < NK)%nat -> nk k = nk 0%nat -> k_1k T k = nsum (fun k => nk k - 1)%nat k.
  Proof. intros Hk E. unfold k_1k. simpl. fold nk. rewrite E. lia. Qed.

  (** ** The two loops *)
  Let mat_k k := link_matrix (at_ (fU f) k) (at_ (bX b) k).
  Let X := compress (bX b) (mask_X T) (c_NJ T).
  Let U := compress (fU f) (mask_U T) (c_NJ T).

  Lemma fill_ok k : (k < NK)%nat -> nk k = nk 0%nat \/ nk k = 1%nat ->
    exists Ak, fill_matrix U X (k_1k T k) (nk k) = Some Ak /\
      forall r c, (r < nk k)%nat -> (c < nk k - 1)%nat -> Ak r c = mat_k k r c.
  Proof.
    intros Hk He. apply fill_matrix_some. intros i Hi. destruct He as [He|He]; [|lia].
    rewrite k_1k_eq by auto. unfold U, X. rewrite U_entry, X_entry by auto. auto.
  Qed.

  (** [h] holds inner depths with property [good] in superlink k. *)
  Definition holds_inner (good : nat -> arr -> Prop) (h : arr) (k : nat) : Prop :=
    exists x, good k x /\ forall j, (j < nk k - 1)%nat -> h (I1 k + 1 + j)%nat = x j.

  Lemma holds_other good h h' k k' : (k < NK)%nat -> (k' < NK)%nat -> k' <> k ->
    (forall I, ~ (I1 k < I < I1 k + nk k)%nat -> h' I = h I) -> holds_inner good h k' -> holds_inner good h' k'.
  Proof.
    intros Hk Hk' N Hs (x & G & E). exists x. split; auto. intros j Hj. rewrite Hs; auto.
    intros C. destruct (Nat.lt_trichotomy k k') as [L|[L|L]]; [|congruence|].
    - pose proof (I1_after k k' L Hk'). lia.
    - pose proof (I1_after k' k L Hk). lia.
  Qed.

  Definition best_k (k : nat) (x : arr) : Prop :=
    forall y, residual2 (nk k) (nk k - 1) (mat_k k) (rhs k) x <= residual2 (nk k) (nk k - 1) (mat_k k) (rhs k) y.
  Definition best_nonneg_k (k : nat) (x : arr) : Prop :=
    (forall c, (c < nk k - 1)%nat -> 0 <= x c) /\
    forall y, (forall c, (c < nk k - 1)%nat -> 0 <= y c) ->
      residual2 (nk k) (nk k - 1) (mat_k k) (rhs k) x <= residual2 (nk k) (nk k - 1) (mat_k k) (rhs k) y.

  Hypothesis Even : forall k, (k < NK)%nat -> nk k = nk 0%nat \/ nk k = 1%nat.
  Variable v : arr.
  Hypothesis Hv : forall k r, (k < NK)%nat -> (r < nk k)%nat -> v (i1 k + r)%nat = rhs k r.

  Lemma ls_best k Ak x : (k < NK)%nat ->
    (forall r c, (r < nk k)%nat -> (c < nk k - 1)%nat -> Ak r c = mat_k k r c) ->
    solves (nk k - 1) (fill_diagonal (normal_matrix Ak (nk k)) (nk k - 1))
      (normal_rhs Ak (fun r => v (i1 k + r)%nat) (nk k)) x -> best_k k x.
  Proof.
    intros Hk HA S y. pose proof (normal_best (nk k) (nk k - 1) Ak (fun r => v (i1 k + r)%nat) x y S) as B.
    rewrite <- !(residual2_ext (nk k) (nk k - 1) Ak (mat_k k) (fun r => v (i1 k + r)%nat) (rhs k)); auto.
  Qed.

  Lemma ls_loop_inv lin h h' : sound_solver lin ->
    numba_solve_internals_ls lin h NK nk (k_1k T) i1 I1 U X v = Some h' ->
    forall k, (k < NK)%nat -> holds_inner best_k h' k.
  Proof.
    intros Hs E. unfold numba_solve_internals_ls in E.
    refine (for_opt_inv (fun m h => (m <= NK)%nat -> forall k, (k < m)%nat -> holds_inner best_k h k) NK _ h h' _ _ E _); auto.
    - intros _ k Hk. lia.
    - intros k s1 s2 Hk IH Eb _. cbv zeta in Eb.
      destruct (fill_ok k Hk (Even k Hk)) as (Ak & EA & HA). rewrite EA in Eb. cbn [bind] in Eb.
      destruct (lin _ _ _) as [inner|] eqn:El in Eb; [|discriminate]. cbn [bind] in Eb. injection Eb as <-.
      pose proof (Hs _ _ _ _ El) as S. pose proof (ls_best k Ak inner Hk HA S) as B.
      intros k' Hk'. destruct (Nat.eq_dec k' k) as [->|N].
      + exists inner. split; auto. intros j Hj. rewrite write_inner_entry.
        destruct (Nat.leb_spec (I1 k + 1) (I1 k + 1 + j)), (Nat.ltb_spec (I1 k + 1 + j) (I1 k + nk k)); simpl; try lia.
        f_equal; lia.
      + apply (holds_other best_k s1 _ k k'); auto; try lia; [|apply IH; lia].
        intros I HI. rewrite write_inner_entry.
        destruct (Nat.leb_spec (I1 k + 1) I), (Nat.ltb_spec I (I1 k + nk k)); simpl; auto; lia.
  Qed.

  Lemma ls_loop_total lin h : (forall n, solver n (lin n)) ->
    (forall k r, (k < NK)%nat -> (r < nk k)%nat -> fU f (I1 k + r)%nat <> 0) ->
    exists h', numba_solve_internals_ls lin h NK nk (k_1k T) i1 I1 U X v = Some h' /\
      forall k, (k < NK)%nat -> holds_inner best_k h' k.
  Proof.
    intros Hs HU. unfold numba_solve_internals_ls.
    match goal with |- exists h', for_opt NK ?B h = Some h' /\ _ =>
      destruct (for_opt_total (fun m h => (m <= NK)%nat -> forall k, (k < m)%nat -> holds_inner best_k h k) NK B h)
        as (h' & E & P) end.
    - intros _ k Hk. lia.
    - intros k s1 Hk IH.
      destruct (fill_ok k Hk (Even k Hk)) as (Ak & EA & HA). cbv zeta. rewrite EA. cbn [bind].
      assert (Ker : forall w, (forall r, (r < nk k)%nat -> sum_n (fun c => Ak r c * w c) (nk k - 1) = 0) ->
                    forall c, (c < nk k - 1)%nat -> w c = 0).
      { intros w Hw. apply (link_kernel (at_ (fU f) k) (at_ (bX b) k) (nk k)); [intros; apply HU; auto|].
        intros r Hr. rewrite <- (Hw r Hr). apply sum_n_ext. intros c Hc. rewrite HA by auto. reflexivity. }
      destruct (Hs (nk k - 1)%nat (fill_diagonal (normal_matrix Ak (nk k)) (nk k - 1))
                 (normal_rhs Ak (fun r => v (i1 k + r)%nat) (nk k))) as (inner & El & S).
      { apply (normal_exists (nk k) (nk k - 1) Ak (fun r => v (i1 k + r)%nat) Ker). }
      { apply (normal_unique (nk k) (nk k - 1) Ak (fun r => v (i1 k + r)%nat) Ker). }
      rewrite El. cbn [bind]. eexists; split; [reflexivity|]. intros _.
      pose proof (ls_best k Ak inner Hk HA S) as B.
      intros k' Hk'. destruct (Nat.eq_dec k' k) as [->|N].
      + exists inner. split; auto. intros j Hj. rewrite write_inner_entry.
        destruct (Nat.leb_spec (I1 k + 1) (I1 k + 1 + j)), (Nat.ltb_spec (I1 k + 1 + j) (I1 k + nk k)); simpl; try lia.
        f_equal; lia.
      + apply (holds_other best_k s1 _ k k'); auto; try lia; [|apply IH; lia].
        intros I HI. rewrite write_inner_entry.
        destruct (Nat.leb_spec (I1 k + 1) I), (Nat.ltb_spec I (I1 k + nk k)); simpl; auto; lia.
    - exists h'. split; [exact E|]. intros k Hk. apply P; auto.
  Qed.
End Chain.
