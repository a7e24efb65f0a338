(** C38, C39, C53: generated chains, orientation, repositioning. *)
From Verif Require Import Prelude M_Coeffs M_Numerics M_Layout S_Superlink S_Layout L_Layout L_Sort.

(** ** C38 *)

(** The index tables of a model with generated internals: links and junctions of every superlink are consecutive,
    superlinks share none, none is left over, and every index table points to the right neighbour. *)
Theorem C38_generated_tables_form_chains n NK : (1 <= n)%nat ->
  let T := generated_tables n NK in
  layout NK (t_nk T) (t_i_1k T) (t_I_1k T) /\
  chain_tables NK (t_nk T) (t_i_1k T) (t_I_1k T) (junction_k n) (t_forward_I_i T) (t_backward_I_i T)
               (t_is_start T) (t_is_end T) /\
  blocks NK n (t_i_1k T) (n * NK) /\
  blocks NK (n + 1) (t_I_1k T) ((n + 1) * NK) /\
  (forall k, (k < NK)%nat ->
     t_nk T k = n /\ t_I_Np1k T k = (t_I_1k T k + n)%nat /\ t_I_Nk T k = (t_I_1k T k + n - 1)%nat /\
     t_i_nk T k = (t_i_1k T k + n - 1)%nat) /\
  (forall k j, (k < NK)%nat -> (j < n)%nat ->
     t_forward_I_I T (t_I_1k T k + j)%nat = (t_I_1k T k + j + 1)%nat /\
     t_backward_I_I T (t_I_1k T k + j + 1)%nat = (t_I_1k T k + j)%nat /\
     t_link_start T (t_i_1k T k + j)%nat = Nat.eqb j 0 /\
     t_link_end T (t_i_1k T k + j)%nat = Nat.eqb j (n - 1)).
Proof.
  intros Hn T.
  set (j0 := fun i => nth i (link_j0 n NK) O). set (j1 := fun i => nth i (link_j1 n NK) O).
  assert (J0 : forall k m, (k < NK)%nat -> (m < n)%nat -> j0 (n * k + m)%nat = ((n + 1) * k + m)%nat)
    by (intros; apply link_j0_nth; auto).
  assert (J1 : forall k m, (k < NK)%nat -> (m < n)%nat -> j1 (n * k + m)%nat = ((n + 1) * k + m + 1)%nat)
    by (intros; apply link_j1_nth; auto).
  assert (Inj0 : forall i i', (i < n * NK)%nat -> (i' < n * NK)%nat -> j0 i' = j0 i -> i' = i).
  { intros i i' Hi Hi' E. destruct (split_link n NK i Hn Hi) as [k [m [Hk [Hm ->]]]].
    destruct (split_link n NK i' Hn Hi') as [k' [m' [Hk' [Hm' ->]]]].
    rewrite !J0 in E by auto. apply block_inj in E; lia. }
  assert (Inj1 : forall i i', (i < n * NK)%nat -> (i' < n * NK)%nat -> j1 i' = j1 i -> i' = i).
  { intros i i' Hi Hi' E. destruct (split_link n NK i Hn Hi) as [k [m [Hk [Hm ->]]]].
    destruct (split_link n NK i' Hn Hi') as [k' [m' [Hk' [Hm' ->]]]].
    rewrite !J1 in E by auto. assert (E' : ((n + 1) * k' + m' = (n + 1) * k + m)%nat) by lia.
    apply block_inj in E'; lia. }
  assert (SN : forall k, (k < NK)%nat -> start_node n NK k = ((n + 1) * k)%nat) by (intros; apply start_node_val; auto).
  assert (EN : forall k, (k < NK)%nat -> end_node n NK k = ((n + 1) * k + n)%nat) by (intros; apply end_node_val; auto).
  assert (InjS : forall k k', (k < NK)%nat -> (k' < NK)%nat -> start_node n NK k' = start_node n NK k -> k' = k).
  { intros k k' Hk Hk' E. rewrite !SN in E by auto. nia. }
  assert (InjE : forall k k', (k < NK)%nat -> (k' < NK)%nat -> end_node n NK k' = end_node n NK k -> k' = k).
  { intros k k' Hk Hk' E. rewrite !EN in E by auto. nia. }
  assert (Lk : forall k m, (k < NK)%nat -> (m < n)%nat -> (n * k + m < n * NK)%nat) by (intros; nia).
  (* first passes of the tables *)
  assert (FI0 : forall k m, (k < NK)%nat -> (m < n)%nat ->
      scatter (n * NK) (fun I => I) j0 (fun i => i) ((n + 1) * k + m)%nat = (n * k + m)%nat).
  { intros k m Hk Hm. rewrite <- J0 by auto. apply (scatter_at (n * NK) (fun I => I) j0 (fun i => i)); auto. }
  assert (BI0 : forall k m, (k < NK)%nat -> (m < n)%nat ->
      scatter (n * NK) (fun I => I) j1 (fun i => i) ((n + 1) * k + m + 1)%nat = (n * k + m)%nat).
  { intros k m Hk Hm. rewrite <- J1 by auto. apply (scatter_at (n * NK) (fun I => I) j1 (fun i => i)); auto. }
  assert (FI : forall k m, (k < NK)%nat -> (m < n)%nat -> t_forward_I_i T ((n + 1) * k + m)%nat = (n * k + m)%nat).
  { intros k m Hk Hm. unfold T, generated_tables, make_tables; cbn [t_forward_I_i].
    rewrite scatter_other; [apply FI0; auto|]. intros k' Hk' E. rewrite EN in E by auto.
    apply block_inj in E; lia. }
  assert (BI : forall k m, (k < NK)%nat -> (m < n)%nat -> t_backward_I_i T ((n + 1) * k + m + 1)%nat = (n * k + m)%nat).
  { intros k m Hk Hm. unfold T, generated_tables, make_tables; cbn [t_backward_I_i].
    rewrite scatter_other; [apply BI0; auto|]. intros k' Hk' E. rewrite SN in E by auto.
    replace ((n + 1) * k')%nat with ((n + 1) * k' + 0)%nat in E by lia.
    replace ((n + 1) * k + m + 1)%nat with ((n + 1) * k + (m + 1))%nat in E by lia. apply block_inj in E; lia. }
  assert (I1 : forall k, (k < NK)%nat -> t_I_1k T k = ((n + 1) * k)%nat) by (intros; apply SN; auto).
  assert (i1 : forall k, (k < NK)%nat -> t_i_1k T k = (n * k)%nat).
  { intros k Hk. change (t_i_1k T k) with (t_forward_I_i T (start_node n NK k)). rewrite SN by auto.
    rewrite <- (Nat.add_0_r ((n + 1) * k)), FI by lia. lia. }
  assert (Ink : forall k, (k < NK)%nat -> t_i_nk T k = (n * k + n - 1)%nat).
  { intros k Hk. change (t_i_nk T k) with (t_backward_I_i T (end_node n NK k)). rewrite EN by auto.
    replace ((n + 1) * k + n)%nat with ((n + 1) * k + (n - 1) + 1)%nat by lia. rewrite BI by lia. lia. }
  assert (Nk : forall k, (k < NK)%nat -> t_nk T k = n).
  { intros k Hk. unfold T, generated_tables, make_tables; cbn [t_nk]. unfold bincount.
    rewrite group_block by auto. apply seq_length. }
  assert (FII : forall k m, (k < NK)%nat -> (m < n)%nat ->
      t_forward_I_I T ((n + 1) * k + m)%nat = ((n + 1) * k + m + 1)%nat).
  { intros k m Hk Hm. rewrite <- J1, <- J0 by auto. apply (scatter_at (n * NK) (fun I => I) j0 j1); auto. }
  assert (BII : forall k m, (k < NK)%nat -> (m < n)%nat ->
      t_backward_I_I T ((n + 1) * k + m + 1)%nat = ((n + 1) * k + m)%nat).
  { intros k m Hk Hm. rewrite <- J1, <- J0 by auto. apply (scatter_at (n * NK) (fun I => I) j1 j0); auto. }
  split; [|split; [|split; [|split; [|split]]]].
  - split.
    + intros k Hk. rewrite Nk by auto. exact Hn.
    + intros k k' Hkk Hk'. rewrite !Nk, !I1, !i1 by lia. split; nia.
  - intros k j Hk Hj. rewrite Nk in Hj |- * by auto. rewrite I1, i1 by auto.
    split; [|split; [|split; [|split]]].
    + unfold junction_k. apply (divmod_unique _ (n + 1) k j); lia.
    + unfold T, generated_tables, make_tables; cbn [t_is_start].
      destruct (Nat.eqb_spec j 0) as [->|Hj0].
      * rewrite Nat.add_0_r, <- SN by auto.
        apply (scatter_same NK (fun _ => false) (start_node n NK) true k Hk).
      * rewrite scatter_other; [reflexivity|]. intros k' Hk' E. rewrite SN in E by auto.
        rewrite <- (Nat.add_0_r ((n + 1) * k')) in E. apply block_inj in E; lia.
    + unfold T, generated_tables, make_tables; cbn [t_is_end].
      destruct (Nat.eqb_spec j n) as [->|Hj0].
      * rewrite <- EN by auto.
        apply (scatter_same NK (fun _ => false) (end_node n NK) true k Hk).
      * rewrite scatter_other; [reflexivity|]. intros k' Hk' E. rewrite EN in E by auto.
        apply block_inj in E; lia.
    + intros Hlt. apply FI; auto.
    + intros Hge. replace ((n + 1) * k + j)%nat with ((n + 1) * k + (j - 1) + 1)%nat by lia. rewrite BI by lia. lia.
  - split.
    + intros k m Hk Hm. rewrite i1 by auto. auto.
    + intros p Hp. destruct (split_link n NK p Hn Hp) as [k [m [Hk [Hm ->]]]]. exists k, m.
      rewrite i1 by auto. split; [auto|split; [auto|split; [auto|]]]. intros k' m' Hk' Hm' E.
      rewrite i1 in E by auto. apply block_inj in E; lia.
  - split.
    + intros k m Hk Hm. rewrite I1 by auto. nia.
    + intros p Hp. destruct (split_link (n + 1) NK p ltac:(lia) Hp) as [k [m [Hk [Hm ->]]]]. exists k, m.
      rewrite I1 by auto. split; [auto|split; [auto|split; [auto|]]]. intros k' m' Hk' Hm' E.
      rewrite I1 in E by auto. apply block_inj in E; lia.
  - intros k Hk. rewrite Nk, Ink, I1, i1 by auto. split; [reflexivity|split; [now apply EN|split; [|reflexivity]]].
    change (t_I_Nk T k) with (t_backward_I_I T (end_node n NK k)). rewrite EN by auto.
    replace ((n + 1) * k + n)%nat with ((n + 1) * k + (n - 1) + 1)%nat by lia. rewrite BII by lia. lia.
  - intros k j Hk Hj. rewrite I1, i1 by auto. split; [auto|split; [auto|]].
    change (t_link_start T) with (scatter NK (fun _ : nat => false) (t_i_1k T) (fun _ => true)).
    change (t_link_end T) with (scatter NK (fun _ : nat => false) (t_i_nk T) (fun _ => true)). split.
    + destruct (Nat.eqb_spec j 0) as [->|Hj0].
      * rewrite Nat.add_0_r, <- i1 by auto. apply (scatter_same NK (fun _ => false) (t_i_1k T) true k Hk).
      * rewrite scatter_other; [reflexivity|]. intros k' Hk' E. rewrite i1 in E by auto.
        rewrite <- (Nat.add_0_r (n * k')) in E. apply block_inj in E; lia.
    + destruct (Nat.eqb_spec j (n - 1)) as [->|Hj0].
      * replace (n * k + (n - 1))%nat with (n * k + n - 1)%nat by lia. rewrite <- Ink by auto.
        apply (scatter_same NK (fun _ => false) (t_i_nk T) true k Hk).
      * rewrite scatter_other; [reflexivity|]. intros k' Hk' E. rewrite Ink in E by auto.
        replace (n * k' + n - 1)%nat with (n * k' + (n - 1))%nat in E by lia. apply block_inj in E; lia.
Qed.

Lemma linspace_val L n j : (1 <= n)%nat -> (j <= n)%nat -> linspace L (n + 1) j = L * (INR j / INR n).
Proof.
  intros Hn Hj. unfold linspace. assert (0 < INR n) by (apply lt_0_INR; lia).
  replace (n + 1 - 1)%nat with n by lia.
  destruct (Nat.ltb_spec 1 (n + 1)); [|lia]. cbn [andb].
  destruct (Nat.eqb_spec j n) as [->|_]; field; lra.
Qed.

(** Equally long links that fill the superlink, with inverts on the straight line between the ends. *)
Theorem C38_generated_chain_is_straight n L z_u z_d dx_u dx_d :
  (1 <= n)%nat -> 0 < L -> 0 <= dx_u -> 0 <= dx_d ->
  let m := slope z_u z_d L dx_u dx_d in
  let z := chain_z n L m (b_0 z_u z_d L dx_u dx_d) in
  let dx := diff (chain_x n L) in
  (forall j, (j < n)%nat -> dx j = L / INR n) /\
  sum_n dx n = L /\
  (forall j, (j <= n)%nat -> z j = on_line z_u z_d (dx_u + L + dx_d) (dx_u + sum_n dx j)) /\
  z O = on_line z_u z_d (dx_u + L + dx_d) dx_u /\
  z n = on_line z_u z_d (dx_u + L + dx_d) (dx_u + L) /\
  b_1 z_u z_d L dx_u dx_d = z n.
Proof.
  intros Hn HL Hu Hd m z dx. assert (Hn' : 0 < INR n) by (apply lt_0_INR; lia).
  assert (X : forall j, (j <= n)%nat -> sum_n dx j = L * (INR j / INR n)).
  { intros j Hj. unfold dx. rewrite telescope. unfold chain_x. rewrite !linspace_val by lia. simpl INR. field. lra. }
  assert (Z : forall j, (j <= n)%nat -> z j = on_line z_u z_d (dx_u + L + dx_d) (dx_u + sum_n dx j)).
  { intros j Hj. rewrite X by auto. unfold z, chain_z, chain_x, on_line, b_0, m, slope.
    rewrite linspace_val by lia. field. split; lra. }
  split; [|split; [|split; [exact Z|split; [|split]]]].
  - intros j Hj. unfold dx, diff, chain_x. rewrite !linspace_val by lia. rewrite S_INR. field. lra.
  - rewrite X by lia. field. lra.
  - rewrite Z by lia. simpl sum_n. f_equal. lra.
  - rewrite Z by lia. rewrite X by lia. f_equal. field. lra.
  - rewrite Z by lia. rewrite X by lia. unfold b_1, on_line, slope. field. split; lra.
Qed.

(** The mobile junction never coincides with a fixed one. *)
Lemma mobile_distinct n L i : (2 <= n)%nat -> 0 < L -> (i <= n - 1)%nat ->
  mobile_xc n L <> L * (INR i / INR (n - 1)).
Proof.
  intros Hn HL Hi E. unfold mobile_xc in E.
  assert (P1 : 0 < INR (n - 1)) by (apply lt_0_INR; lia). assert (P2 : 0 < INR n) by (apply lt_0_INR; lia).
  destruct (Nat.odd (n + 1)) eqn:O.
  - assert (E' : INR (n - 1) = INR (2 * i)).
    { rewrite mult_INR. simpl (INR 2). apply (Rmult_eq_reg_l (L / 2 / INR (n - 1))).
      - transitivity (L / 2); [field; lra|]. etransitivity; [exact E | field; lra].
      - apply Rmult_integral_contrapositive_currified; [lra | apply Rinv_neq_0_compat; lra]. }
    apply INR_eq in E'. apply Nat.odd_spec in O. destruct O as [q Hq]. lia.
  - assert (E' : INR ((n + 1) * (n - 1)) = INR (2 * (n * i))).
    { rewrite !mult_INR, plus_INR. simpl (INR 2). simpl (INR 1).
      apply (Rmult_eq_reg_l (L / 2 / INR n / INR (n - 1))).
      - transitivity (L / 2 + L / INR n / 2); [field; lra|]. etransitivity; [exact E | field; lra].
      - repeat apply Rmult_integral_contrapositive_currified; try apply Rinv_neq_0_compat; lra. }
    apply INR_eq in E'. assert (Z : exists p, n = (p + 2)%nat) by (exists (n - 2)%nat; lia). destruct Z as [p ->].
    replace (p + 2 - 1)%nat with (p + 1)%nat in E' by lia.
    assert (C : (2 * i >= p + 2 \/ 2 * i <= p + 1)%nat) by lia. destruct C as [C|C]; nia.
Qed.
Lemma mobile_inside n L : (2 <= n)%nat -> 0 < L -> 0 < mobile_xc n L < L.
Proof.
  intros Hn HL. unfold mobile_xc. assert (P2 : 2 <= INR n) by (apply (le_INR 2); lia).
  destruct (Nat.odd (n + 1)) eqn:O; [lra|].
  assert (n <> 2)%nat by (intros ->; discriminate).
  assert (P3 : 3 <= INR n) by (replace 3 with (INR 3) by (simpl; lra); apply le_INR; lia).
  assert (0 < L / INR n) by (apply Rdiv_lt_0_compat; lra).
  assert (L / INR n <= L / 3) by (apply Rmult_le_compat_l; [lra|]; apply Rinv_le_contravar; lra). lra.
Qed.
Lemma raw_fixed n L i : (2 <= n)%nat -> (i < n)%nat -> mobile_raw_x n L i = L * (INR i / INR (n - 1)).
Proof.
  intros Hn Hi. unfold mobile_raw_x. rewrite upd_neq by lia.
  pose proof (linspace_val L (n - 1) i ltac:(lia) ltac:(lia)) as E. replace (n - 1 + 1)%nat with n in E by lia. exact E.
Qed.
Lemma raw_order n L i j : (2 <= n)%nat -> 0 < L -> (i < j)%nat -> (j < n)%nat ->
  mobile_raw_x n L i < mobile_raw_x n L j.
Proof.
  intros Hn HL Hij Hj. rewrite !raw_fixed by lia. assert (P1 : 0 < INR (n - 1)) by (apply lt_0_INR; lia).
  apply Rmult_lt_compat_l; [lra|]. apply Rmult_lt_compat_r; [apply Rinv_0_lt_compat; lra | apply lt_INR; lia].
Qed.

(** With a mobile element: n links of positive length that fill the superlink, inverts on the line; fewer than two
    internal links are rejected. *)
Theorem C38_mobile_chain_is_straight n L z_u z_d dx_u dx_d :
  0 < L -> 0 <= dx_u -> 0 <= dx_d ->
  let m := slope z_u z_d L dx_u dx_d in
  let b0 := b_0 z_u z_d L dx_u dx_d in
  ((n < 2)%nat -> mobile_x n L = None) /\
  ((2 <= n)%nat -> exists x z, mobile_x n L = Some x /\ mobile_z n L m b0 = Some z /\
     x O = 0 /\ x n = L /\
     (forall j, (j < n)%nat -> 0 < diff x j) /\ sum_n (diff x) n = L /\
     (forall j, (j <= n)%nat -> z j = on_line z_u z_d (dx_u + L + dx_d) (dx_u + x j)) /\
     exists p, (0 < p)%nat /\ (p < n)%nat /\ x p = mobile_xc n L).
Proof.
  intros HL Hu Hd m b0. split.
  - intros Hn. unfold mobile_x. destruct (Nat.ltb_spec 1 n); [lia | reflexivity].
  - intros Hn. set (f := mobile_raw_x n L).
    exists (take f (argsort (n + 1) f)), (take (fun j => f j * m + b0) (argsort (n + 1) f)).
    unfold mobile_x, mobile_z. destruct (Nat.ltb_spec 1 n); [|lia]. split; [reflexivity|split; [reflexivity|]].
    assert (Fn : f n = mobile_xc n L) by apply upd_eq.
    pose proof (mobile_inside n L Hn HL) as Hc.
    assert (F0 : f O = 0) by (unfold f; rewrite raw_fixed by lia; simpl INR; lra).
    assert (P1 : 0 < INR (n - 1)) by (apply lt_0_INR; lia).
    assert (Fl : f (n - 1)%nat = L) by (unfold f; rewrite raw_fixed by lia; field; lra).
    assert (First : nth 0 (argsort (n + 1) f) O = O).
    { apply argsort_first; [lia|]. intros q Hq Hq0. destruct (Nat.eq_dec q n) as [->|Hqn]; [rewrite F0, Fn; lra|].
      apply raw_order; auto; lia. }
    assert (Last : nth n (argsort (n + 1) f) O = (n - 1)%nat).
    { replace n with (n + 1 - 1)%nat at 1 by lia. apply argsort_last; [lia|]. intros q Hq Hq0.
      destruct (Nat.eq_dec q n) as [->|Hqn]; [rewrite Fl, Fn; lra|]. apply raw_order; auto; lia. }
    assert (Inj : forall p q, (p < n + 1)%nat -> (q < n + 1)%nat -> p <> q -> f p <> f q).
    { assert (W : forall p q, (p < q)%nat -> (q < n + 1)%nat -> f p <> f q).
      { intros p q Hpq Hq. destruct (Nat.eq_dec q n) as [->|Hqn].
        - rewrite Fn. unfold f. rewrite raw_fixed by lia. intros E.
          apply (mobile_distinct n L p Hn HL); [lia | auto].
        - pose proof (raw_order n L p q Hn HL Hpq ltac:(lia)). unfold f. lra. }
      intros p q Hp Hq Hne. destruct (Nat.lt_trichotomy p q) as [Hl|[Hl|Hl]]; [now apply W | lia |].
      intros E. apply (W q p Hl Hp). auto. }
    unfold take at 1 2. rewrite First, Last, F0, Fl. split; [reflexivity|split; [reflexivity|]].
    assert (D : forall j, (j < n)%nat -> 0 < diff (take f (argsort (n + 1) f)) j).
    { intros j Hj. unfold diff, take. pose proof (argsort_strict (n + 1) f Inj j (S j) ltac:(lia) ltac:(lia)). lra. }
    split; [exact D|split; [|split]].
    + rewrite telescope. unfold take. rewrite First, Last, F0, Fl. lra.
    + intros j Hj. unfold take, on_line, b0, b_0, m, slope. field. lra.
    + destruct (argsort_surj (n + 1) f n ltac:(lia)) as [p [Hp E]]. exists p.
      assert (p <> O) by (intros ->; rewrite First in E; lia).
      assert (p <> n) by (intros ->; rewrite Last in E; lia).
      split; [lia|split; [lia|]]. unfold take. rewrite E. exact Fn.
Qed.

(** Three superlinks of four internal links. *)
Example C38_example :
  link_j0 4 3 = [0;1;2;3; 5;6;7;8; 10;11;12;13]%nat /\ link_j1 4 3 = [1;2;3;4; 6;7;8;9; 11;12;13;14]%nat.
Proof. split; reflexivity. Qed.

(** ** C39 *)

Lemma orient_at NK z rows k : (k < NK)%nat -> orient NK z rows k = orient_row z (rows k).
Proof.
  intros Hk. unfold orient.
  assert (G : forall n, (n <= NK)%nat -> for_n n (fun k r => upd r k (orient_row z (r k))) rows k
                     = if Nat.ltb k n then orient_row z (rows k) else rows k).
  { induction n as [|n IH]; intros Hn; [reflexivity|]. cbn [for_n]. destruct (Nat.eq_dec k n) as [->|Hne].
    - rewrite upd_eq, IH by lia. destruct (Nat.ltb_spec n n); [lia|]. destruct (Nat.ltb_spec n (S n)); [reflexivity|lia].
    - rewrite upd_neq by auto. rewrite IH by lia.
      destruct (Nat.ltb_spec k n), (Nat.ltb_spec k (S n)); try lia; reflexivity. }
  rewrite G by lia. destruct (Nat.ltb_spec k NK); [reflexivity | lia].
Qed.

(** Superlinks whose two offsets agree (in particular without offsets) run downhill after construction, and connect
    the same two superjunctions as in the table. *)
Theorem C39_oriented_downhill_equal_offsets NK z rows k : (k < NK)%nat ->
  r_in (rows k) = r_out (rows k) ->
  z_inv_dk z (orient NK z rows) k <= z_inv_uk z (orient NK z rows) k /\
  ((J_uk (orient NK z rows) k = r_sj0 (rows k) /\ J_dk (orient NK z rows) k = r_sj1 (rows k)) \/
   (J_uk (orient NK z rows) k = r_sj1 (rows k) /\ J_dk (orient NK z rows) k = r_sj0 (rows k))).
Proof.
  intros Hk E. unfold z_inv_dk, z_inv_uk, J_uk, J_dk. rewrite !orient_at by auto. unfold orient_row.
  dR; simpl; split; auto; lra.
Qed.

(** For any offsets: the superlink runs downhill exactly when the table already has it downhill, or when the inverts
    with exchanged offsets do. *)
Theorem C39_downhill_iff NK z rows k : (k < NK)%nat ->
  let r := rows k in
  (z_inv_dk z (orient NK z rows) k <= z_inv_uk z (orient NK z rows) k <->
   z (r_sj1 r) + r_out r <= z (r_sj0 r) + r_in r \/ z (r_sj0 r) + r_out r <= z (r_sj1 r) + r_in r).
Proof.
  intros Hk r. unfold z_inv_dk, z_inv_uk, J_uk, J_dk. rewrite !orient_at by auto. fold r. unfold orient_row.
  dR; simpl; split; intros; try lra.
Qed.

(** Exchanging the ends keeps the offsets in place, so each moves to the other end: a pipe with unequal offsets can be
    left running uphill, and its end at a superjunction is not where the table puts it. *)
Theorem C39_unequal_offsets_refuted :
  exists z rows, let r := rows O in
    z_inv_uk z (orient 1 z rows) O < z_inv_dk z (orient 1 z rows) O /\
    J_dk (orient 1 z rows) O = r_sj0 r /\ z_inv_dk z (orient 1 z rows) O <> z (r_sj0 r) + r_in r.
Proof.
  exists (fun _ => 0), (fun _ => mkRow 0 1 0 1 100). unfold z_inv_uk, z_inv_dk, J_uk, J_dk.
  rewrite !orient_at by lia. unfold orient_row. simpl. dR; simpl; repeat split; lra.
Qed.

Example C39_example : exists z rows, let r := rows O in
  r_in r = r_out r /\ z (r_sj0 r) < z (r_sj1 r) /\ J_uk (orient 1 z rows) O = r_sj1 r.
Proof.
  exists (fun j => INR j), (fun _ => mkRow 0 1 0.5 0.5 100). unfold J_uk. rewrite !orient_at by lia.
  unfold orient_row. simpl. split; [reflexivity|]. dR; simpl; split; auto; lra.
Qed.
