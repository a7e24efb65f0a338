(** Property C67, third part: depths and flows inside the superlinks, with and without numba. *)
From Verif Require Import Prelude M_Coeffs M_Recurrence M_Layout M_SuperLinkPy S_Superlink S_Layout L_Forward L_Backward
  L_Pivots L_Internals P_Layout P_SuperLinkPy P_SuperLinkPyCases.
From Verif Require Import M_FallbackInternals.

Lemma py_assign_cases {X : Type} (ix : list X) key val a x :
  (exists y, In y ix /\ key y = x /\ py_assign ix key val a x = val y) \/
  ((forall y, In y ix -> key y <> x) /\ py_assign ix key val a x = a x).
Proof.
  unfold py_assign. revert a. induction ix as [|I ix IH]; intros a; simpl.
  - right. split; [intros ? []|reflexivity].
  - destruct (IH (upd a (key I) (val I))) as [(I' & H1 & H2 & H3)|[H1 H2]].
    + left. exists I'. auto.
    + destruct (Nat.eq_dec (key I) x) as [Ex|N].
      * left. exists I. split; auto. split; auto. rewrite H2. subst x. apply upd_eq.
      * right. split; [intros I' [<-|H']; auto|]. rewrite H2. apply upd_neq; auto.
Qed.

(** Every assignment to x gives v, and there is one. *)
Lemma py_assign_hit {X : Type} (ix : list X) key val a x v :
  (exists y, In y ix /\ key y = x) -> (forall y, In y ix -> key y = x -> val y = v) -> py_assign ix key val a x = v.
Proof.
  intros (y & Hy & Ey) H. destruct (py_assign_cases ix key val a x) as [(z & Hz & Ez & ->)|[N _]]; auto.
  exfalso. eapply N; eauto.
Qed.
Lemma py_assign_miss {X : Type} (ix : list X) key val a x :
  (forall y, In y ix -> key y <> x) -> py_assign ix key val a x = a x.
Proof. intros H. destruct (py_assign_cases ix key val a x) as [(z & Hz & Ez & _)|[_ ->]]; auto. exfalso. eapply H; eauto. Qed.
(** Every assignment to x gives the value that is there already. *)
Lemma py_assign_same {X : Type} (ix : list X) key val a x v :
  a x = v -> (forall y, In y ix -> key y = x -> val y = v) -> py_assign ix key val a x = v.
Proof. intros Ha H. destruct (py_assign_cases ix key val a x) as [(z & Hz & Ez & ->)|[_ ->]]; auto. Qed.

Section Agree.
  Variables (NK : nat) (T : tables).
  Hypothesis HT : numbered NK T.
  Variables (f : fwd) (w : bwd) (h_uk h_dk : arr) (lo : R) (hik : arr) (h Q : arr).
  Notation nk := (t_nk T).
  Notation i1 := (t_i_1k T).
  Notation I1 := (t_I_1k T).
  Hypothesis HE : forall k, (k < NK)%nat -> internals_eqs f w (h_uk k) (h_dk k) (i1 k) (I1 k) (nk k) lo (hik k) true h Q.
  Hypothesis below : forall k j, (k < NK)%nat -> (1 <= j)%nat -> (j < nk k)%nat -> h (I1 k + j)%nat < hik k.

  Lemma nk1 k : (k < NK)%nat -> (1 <= nk k)%nat.
  Proof. intros Hk. destruct (nb_layout _ _ HT) as [HL _]. auto. Qed.

  Record agree_i (m : nat) (s : arr * arr) : Prop := mkAgree {
    ai_first : forall k, (k < NK)%nat -> fst s (I1 k) = h_uk k;
    ai_last : forall k, (k < NK)%nat -> fst s (I1 k + nk k)%nat = h_dk k;
    ai_h : forall k j, (k < NK)%nat -> (1 <= j)%nat -> (j < nk k)%nat -> (nk k <= j + m)%nat ->
       fst s (I1 k + j)%nat = h (I1 k + j)%nat;
    ai_Q : forall k j, (k < NK)%nat -> (1 <= j)%nat -> (j < nk k)%nat -> (nk k <= j + m + 1)%nat ->
       snd s (i1 k + j)%nat = Q (i1 k + j)%nat }.

  Notation ends_ := (py_internals_ends f w T NK h_uk h_dk).

  Lemma ends_h_inner s k j : (k < NK)%nat -> (1 <= j)%nat -> (j < nk k)%nat -> fst (ends_ s) (I1 k + j)%nat = fst s (I1 k + j)%nat.
  Proof.
    intros Hk H1 H2. unfold py_internals_ends. cbn [fst]. rewrite !py_assign_miss; auto.
    - intros k' Hk' Ee. apply in_seq in Hk'. pose proof (nk1 k' ltac:(lia)).
      destruct (own_junction NK T HT k' k 0 j); auto; lia.
    - intros k' Hk' Ee. apply in_seq in Hk'. destruct (nb_ends _ _ HT k' ltac:(lia)) as (X & _). rewrite X in Ee.
      destruct (own_junction NK T HT k' k (nk k') j) as [-> X']; auto; lia.
  Qed.
  Lemma ends_h_first s k : (k < NK)%nat -> fst (ends_ s) (I1 k) = h_uk k.
  Proof.
    intros Hk. unfold py_internals_ends. cbn [fst]. pose proof (nk1 k Hk). rewrite py_assign_miss.
    - apply py_assign_hit; [exists k; split; auto; apply in_seq; lia|].
      intros k' Hk' Ee. apply in_seq in Hk'. destruct (own_junction NK T HT k' k 0 0) as [-> _]; auto; lia.
    - intros k' Hk' Ee. apply in_seq in Hk'. destruct (nb_ends _ _ HT k' ltac:(lia)) as (X & _). rewrite X in Ee.
      pose proof (nk1 k' ltac:(lia)). destruct (own_junction NK T HT k' k (nk k') 0); auto; lia.
  Qed.
  Lemma ends_h_last s k : (k < NK)%nat -> fst (ends_ s) (I1 k + nk k)%nat = h_dk k.
  Proof.
    intros Hk. unfold py_internals_ends. cbn [fst]. destruct (nb_ends _ _ HT k Hk) as (X & _).
    apply py_assign_hit; [exists k; split; auto; apply in_seq; lia|].
    intros k' Hk' Ee. apply in_seq in Hk'. destruct (nb_ends _ _ HT k' ltac:(lia)) as (X' & _). rewrite X' in Ee.
    destruct (own_junction NK T HT k' k (nk k') (nk k)) as [-> _]; auto; lia.
  Qed.
  Lemma ends_Q_last s k : (k < NK)%nat ->
    snd (ends_ s) (i1 k + (nk k - 1))%nat = Q_i_f (h_dk k) (h_uk k) (fU f (I1 k + (nk k - 1))%nat) (fV f (I1 k + (nk k - 1))%nat) (fW f (I1 k + (nk k - 1))%nat).
  Proof.
    intros Hk. pose proof (nk1 k Hk). unfold py_internals_ends. cbn [snd]. destruct (nb_ends _ _ HT k Hk) as (_ & X & Y).
    apply py_assign_hit; [exists k; split; [apply in_seq; lia|lia]|].
    intros k' Hk' Ee. apply in_seq in Hk'. destruct (nb_ends _ _ HT k' ltac:(lia)) as (_ & X' & Y'). rewrite Y' in Ee.
    pose proof (nk1 k' ltac:(lia)).
    destruct (own_link NK T HT k' k (nk k' - 1) (nk k - 1)); auto; try lia. subst k'. rewrite X.
    replace (I1 k + nk k - 1)%nat with (I1 k + (nk k - 1))%nat by lia. unfold Q_i_f. ring.
  Qed.
  Lemma ends_Q_inner s k j : (k < NK)%nat -> (1 <= j)%nat -> (j + 1 < nk k)%nat -> snd (ends_ s) (i1 k + j)%nat = snd s (i1 k + j)%nat.
  Proof.
    intros Hk H1 H2. unfold py_internals_ends. cbn [snd]. rewrite !py_assign_miss; auto.
    - intros k' Hk' Ee. apply in_seq in Hk'. pose proof (nk1 k' ltac:(lia)).
      destruct (own_link NK T HT k' k 0 j); auto; lia.
    - intros k' Hk' Ee. apply in_seq in Hk'. destruct (nb_ends _ _ HT k' ltac:(lia)) as (_ & _ & Y). rewrite Y in Ee.
      pose proof (nk1 k' ltac:(lia)). destruct (own_link NK T HT k' k (nk k' - 1) j); auto; try lia. subst k'. lia.
  Qed.
  Lemma ends_Q_first s k : (k < NK)%nat -> (2 <= nk k)%nat -> snd (ends_ s) (i1 k) = Q (i1 k).
  Proof.
    intros Hk H2. unfold py_internals_ends. cbn [snd]. rewrite py_assign_miss.
    - apply py_assign_hit; [exists k; split; auto; apply in_seq; lia|].
      intros k' Hk' Ee. apply in_seq in Hk'. pose proof (nk1 k' ltac:(lia)).
      destruct (own_link NK T HT k' k 0 0); auto; try lia. subst k'.
      rewrite (ie_Q0 _ _ _ _ _ _ _ _ _ _ _ _ (HE k Hk)). unfold Q_i_b. ring.
    - intros k' Hk' Ee. apply in_seq in Hk'. destruct (nb_ends _ _ HT k' ltac:(lia)) as (_ & _ & Y). rewrite Y in Ee.
      pose proof (nk1 k' ltac:(lia)). destruct (own_link NK T HT k' k (nk k' - 1) 0); auto; try lia. subst k'. lia.
  Qed.

  Lemma agree_ends m s : agree_i m s \/ m = 0%nat -> agree_i m (ends_ s).
  Proof.
    intros Hs. constructor.
    - apply ends_h_first.
    - apply ends_h_last.
    - intros k j Hk H1 H2 H3. rewrite ends_h_inner by auto. destruct Hs as [Hs| ->]; [apply ai_h with m; auto|lia].
    - intros k j Hk H1 H2 H3. destruct (Nat.eq_dec j (nk k - 1)) as [->|N].
      + rewrite ends_Q_last by auto. rewrite (ie_Q _ _ _ _ _ _ _ _ _ _ _ _ (HE k Hk)) by lia.
        replace (nk k - 1 + 1)%nat with (nk k) by lia. rewrite (ie_last _ _ _ _ _ _ _ _ _ _ _ _ (HE k Hk)). reflexivity.
      + rewrite ends_Q_inner by (auto; lia). destruct Hs as [Hs| ->]; [apply ai_Q with m; auto|lia].
  Qed.

  (** The list at the start of round m (counted from 1). *)
  Definition frontier_i (m : nat) (ts : list triple) : Prop := forall t, In t ts <->
    exists k j, (k < NK)%nat /\ (1 <= j)%nat /\ (j + m = nk k)%nat /\ t = ((I1 k + j)%nat, I1 k, (I1 k + nk k)%nat).

  Lemma start_frontier : frontier_i 1 (py_internals_start T NK).
  Proof.
    intros t. unfold py_internals_start. rewrite in_map_iff. split.
    - intros (k & <- & Hk). apply filter_In in Hk as [Hk Hn]. apply in_seq in Hk.
      destruct (nb_ends _ _ HT k ltac:(lia)) as (X & Y & _). pose proof (nk1 k ltac:(lia)). rewrite X, Y in *.
      destruct (Nat.eqb_spec (I1 k) (I1 k + nk k - 1)); [discriminate|].
      exists k, (nk k - 1)%nat. repeat split; try lia. repeat (f_equal; try lia).
    - intros (k & j & Hk & H1 & H2 & ->). exists k. destruct (nb_ends _ _ HT k Hk) as (X & Y & _). rewrite X, Y. split.
      + repeat (f_equal; try lia).
      + apply filter_In. split; [apply in_seq; lia|]. destruct (Nat.eqb_spec (I1 k) (t_I_Nk T k)); auto. lia.
  Qed.

  Lemma keep_frontier m ts : frontier_i m ts -> frontier_i (m + 1) (py_internals_keep T ts).
  Proof.
    intros Hts t. unfold py_internals_keep. rewrite in_map_iff.
    assert (B : forall k j, (k < NK)%nat -> (1 <= j)%nat -> (j <= nk k)%nat -> t_backward_I_I T (I1 k + j)%nat = (I1 k + (j - 1))%nat).
    { intros k j Hk H1 H2. destruct (nb_next _ _ HT k (j - 1)%nat Hk ltac:(lia)) as (_ & X & _).
      replace (I1 k + (j - 1) + 1)%nat with (I1 k + j)%nat in X by lia. exact X. }
    split.
    - intros (t0 & <- & Ht). apply filter_In in Ht as [Ht Hn]. apply Hts in Ht as (k & j & Hk & H1 & H2 & ->). cbn [fst snd] in *.
      rewrite B in * by (auto; lia). destruct (Nat.eqb_spec (I1 k + (j - 1)) (I1 k)); [discriminate|].
      exists k, (j - 1)%nat. repeat split; auto; lia.
    - intros (k & j & Hk & H1 & H2 & ->). exists ((I1 k + (j + 1))%nat, I1 k, (I1 k + nk k)%nat). cbn [fst snd].
      rewrite B by (auto; lia). split; [repeat (f_equal; try lia)|].
      apply filter_In. split; [apply Hts; exists k, (j + 1)%nat; repeat split; auto; lia|]. cbn [fst snd].
      rewrite B by (auto; lia). destruct (Nat.eqb_spec (I1 k + (j + 1 - 1)) (I1 k)); auto. lia.
  Qed.

  Lemma round_agrees m ts s : frontier_i (m + 1) ts -> agree_i m s -> agree_i (m + 1) (py_internals_round f w T lo ts s).
  Proof.
    intros Hts Hs. destruct s as [h0 Q0]. unfold py_internals_round. cbv zeta.
    set (h1 := py_assign ts (fun t : triple => fst (fst t)) _ h0).
    set (h2 := py_assign (filter _ ts) _ _ h1).
    set (Q1 := py_assign ts _ _ Q0).
    assert (Own : forall t k j, In t ts -> (k < NK)%nat -> (j <= nk k)%nat -> fst (fst t) = (I1 k + j)%nat ->
       (1 <= j)%nat /\ (j + (m + 1) = nk k)%nat /\ t = ((I1 k + j)%nat, I1 k, (I1 k + nk k)%nat)).
    { intros t k j Ht Hk Hj Ee. apply Hts in Ht as (k' & j' & Hk' & H1 & H2 & ->). cbn [fst] in Ee.
      destruct (own_junction NK T HT k' k j' j) as [-> ->]; auto; lia. }
    assert (K : forall k j, (k < NK)%nat -> (j <= nk k)%nat -> (j = 0%nat \/ (j + (m + 1) <> nk k)%nat) ->
       h2 (I1 k + j)%nat = h0 (I1 k + j)%nat).
    { intros k j Hk Hj N. unfold h2. rewrite py_assign_miss.
      - unfold h1. apply py_assign_miss. intros t Ht Ee. destruct (Own t k j Ht Hk Hj Ee). lia.
      - intros t Ht Ee. apply filter_In in Ht as [Ht _]. destruct (Own t k j Ht Hk Hj Ee). lia. }
    assert (Nw : forall k j, (k < NK)%nat -> (1 <= j)%nat -> (j + (m + 1) = nk k)%nat -> h2 (I1 k + j)%nat = h (I1 k + j)%nat).
    { intros k j Hk H1 Ej.
      assert (Ht : In ((I1 k + j)%nat, I1 k, (I1 k + nk k)%nat) ts) by (apply Hts; exists k, j; auto).
      set (v := h_i_b (Q (i1 k + j)%nat) (h_dk k) (bX w (I1 k + j)%nat) (bY w (I1 k + j)%nat) (bZ w (I1 k + j)%nat)).
      assert (E1 : h1 (I1 k + j)%nat = v).
      { unfold h1. apply py_assign_hit; [eexists; split; [exact Ht|reflexivity]|].
        intros t Ht' Ee. destruct (Own t k j Ht' Hk ltac:(lia) Ee) as (_ & _ & ->). cbn [fst snd].
        destruct (nb_next _ _ HT k j Hk ltac:(lia)) as (_ & _ & ->).
        pose proof (ai_Q _ _ Hs k j Hk H1 ltac:(lia) ltac:(lia)) as A1. pose proof (ai_last _ _ Hs k Hk) as A2. cbn [fst snd] in A1, A2.
        rewrite A1, A2. reflexivity. }
      assert (EL : h (I1 k + j)%nat = if Rltb v lo then lo else v).
      { pose proof (below k j Hk H1 ltac:(lia)) as B. pose proof (ie_h _ _ _ _ _ _ _ _ _ _ _ _ (HE k Hk) j H1 ltac:(lia)) as Eh.
        fold v in Eh. unfold limit_depth in Eh. rewrite Eh in *. destruct (Rltb_spec (hik k) (if Rltb v lo then lo else v)); auto; lra. }
      rewrite EL. unfold h2. destruct (Rltb v lo) eqn:EB.
      - apply py_assign_hit; [|auto]. eexists. split; [apply filter_In; split; [exact Ht|]|reflexivity]. cbn [fst].
        rewrite E1. exact EB.
      - rewrite py_assign_miss; auto. intros t Ht' Ee. apply filter_In in Ht' as [Ht' Hb]. rewrite Ee, E1 in Hb. congruence. }
    constructor; cbn [fst snd].
    - intros k Hk. rewrite <- (Nat.add_0_r (I1 k)), K by (auto; lia). rewrite Nat.add_0_r. apply (ai_first _ _ Hs); auto.
    - intros k Hk. rewrite K by (auto; lia). apply (ai_last _ _ Hs); auto.
    - intros k j Hk H1 H2 H3. destruct (Nat.eq_dec (j + (m + 1)) (nk k)); [auto|].
      rewrite K by (auto; lia). apply (ai_h _ _ Hs); auto; lia.
    - intros k j Hk H1 H2 H3.
      assert (Link : forall t, In t ts -> exists k' j', (k' < NK)%nat /\ (1 <= j')%nat /\ (j' + (m + 1) = nk k')%nat /\
          t = ((I1 k' + j')%nat, I1 k', (I1 k' + nk k')%nat) /\ t_backward_I_I T (I1 k' + j')%nat = (I1 k' + (j' - 1))%nat /\
          t_forward_I_i T (I1 k' + (j' - 1))%nat = (i1 k' + (j' - 1))%nat).
      { intros t Ht. apply Hts in Ht as (k' & j' & Hk' & A1 & A2 & ->). exists k', j'.
        destruct (nb_next _ _ HT k' (j' - 1)%nat Hk' ltac:(lia)) as (_ & X & Y).
        replace (I1 k' + (j' - 1) + 1)%nat with (I1 k' + j')%nat in X by lia. repeat split; auto. }
      assert (LV : forall t, In t ts -> t_forward_I_i T (t_backward_I_I T (fst (fst t))) = (i1 k + j)%nat ->
          (j + 1 + (m + 1) = nk k)%nat /\ t = ((I1 k + (j + 1))%nat, I1 k, (I1 k + nk k)%nat) /\ t_backward_I_I T (fst (fst t)) = (I1 k + j)%nat).
      { intros t Ht Ee. destruct (Link t Ht) as (k' & j' & Hk' & A1 & A2 & -> & A3 & A4). cbn [fst] in *. rewrite A3, A4 in Ee.
        destruct (own_link NK T HT k' k (j' - 1) j) as [-> Ej]; auto; try lia. rewrite A3. subst j.
        split; [lia|]. split; [repeat (f_equal; try lia)|auto]. }
      assert (V : forall t, In t ts -> t_forward_I_i T (t_backward_I_I T (fst (fst t))) = (i1 k + j)%nat ->
          fU f (t_backward_I_I T (fst (fst t))) * h2 (fst (fst t)) + fV f (t_backward_I_I T (fst (fst t))) +
          fW f (t_backward_I_I T (fst (fst t))) * h2 (snd (fst t)) = Q (i1 k + j)%nat).
      { intros t Ht Ee. destruct (LV t Ht Ee) as (Em & -> & ->). cbn [fst snd].
        rewrite Nw by (auto; lia). rewrite <- (Nat.add_0_r (I1 k)) at 5. rewrite K by (auto; lia). rewrite Nat.add_0_r.
        pose proof (ai_first _ _ Hs k Hk) as A1. cbn [fst] in A1. rewrite A1.
        rewrite (ie_Q _ _ _ _ _ _ _ _ _ _ _ _ (HE k Hk) j) by lia. reflexivity. }
      unfold Q1. destruct (Nat.eq_dec (j + 1 + (m + 1)) (nk k)) as [Ej|N].
      + apply py_assign_hit; [|exact V]. exists ((I1 k + (j + 1))%nat, I1 k, (I1 k + nk k)%nat). cbn [fst snd]. split.
        * apply Hts. exists k, (j + 1)%nat. repeat split; auto; lia.
        * destruct (nb_next _ _ HT k j Hk ltac:(lia)) as (_ & X & Y). rewrite Nat.add_assoc, X. exact Y.
      + apply py_assign_same; [|exact V]. apply (ai_Q _ _ Hs); auto; lia.
  Qed.

  Lemma loop_agrees fuel : forall m ts s, frontier_i (m + 1) ts -> agree_i m s ->
    (forall k, (k < NK)%nat -> (nk k <= m + 1 + fuel)%nat) ->
    exists s' M, py_internals_loop f w T lo fuel ts s = Some s' /\ agree_i M s' /\ forall k, (k < NK)%nat -> (nk k <= M + 1)%nat.
  Proof.
    induction fuel as [|fuel IH]; intros m ts s Hts Hs Hf; destruct ts as [|t ts].
    - exists s, m. split; auto. split; auto. intros k Hk. specialize (Hf k Hk). lia.
    - exfalso. destruct (proj1 (Hts t) (or_introl eq_refl)) as (k & j & Hk & H1 & H2 & _). specialize (Hf k Hk). lia.
    - exists s, m. split; auto. split; auto. intros k Hk. destruct (Nat.le_gt_cases (nk k) (m + 1)); auto. exfalso.
      apply (proj2 (Hts ((I1 k + (nk k - (m + 1)))%nat, I1 k, (I1 k + nk k)%nat))).
      exists k, (nk k - (m + 1))%nat. repeat split; auto; lia.
    - cbn [py_internals_loop]. apply (IH (m + 1)%nat).
      + apply keep_frontier; auto.
      + apply round_agrees; auto.
      + intros k Hk. specialize (Hf k Hk). lia.
  Qed.

  Hypothesis single : forall k, (k < NK)%nat -> nk k = 1%nat -> Q (i1 k) = Q_i_f (h_dk k) (h_uk k) (fU f (I1 k)) (fV f (I1 k)) (fW f (I1 k)).

  Lemma internals_agree fuel s : (forall k, (k < NK)%nat -> (nk k <= fuel + 1)%nat) ->
    exists s', py_solve_internals f w T NK h_uk h_dk lo fuel s = Some s' /\
    (forall k j, (k < NK)%nat -> (j <= nk k)%nat -> fst s' (I1 k + j)%nat = if Rltb (h (I1 k + j)%nat) lo then lo else h (I1 k + j)%nat) /\
    (forall k j, (k < NK)%nat -> (j < nk k)%nat -> snd s' (i1 k + j)%nat = Q (i1 k + j)%nat).
  Proof.
    intros Hf. unfold py_solve_internals.
    destruct (loop_agrees fuel 0 (py_internals_start T NK) (ends_ s)) as (s1 & M & -> & A & HM).
    { apply start_frontier. } { apply agree_ends; auto. } { intros k Hk; specialize (Hf k Hk); lia. }
    cbn [bind]. pose proof (agree_ends M s1 (or_introl A)) as A'.
    pose proof (ends_Q_first s1) as F1. pose proof (ends_Q_last s1) as F2.
    destruct (ends_ s1) as [h1 Q1]. eexists. split; [reflexivity|]. cbn [fst snd] in *. split.
    - intros k j Hk Hj. assert (h1 (I1 k + j)%nat = h (I1 k + j)%nat) as ->; [|reflexivity].
      destruct (Nat.eq_dec j 0) as [->|]; [|destruct (Nat.eq_dec j (nk k)) as [->|]].
      + rewrite Nat.add_0_r. rewrite (ie_first _ _ _ _ _ _ _ _ _ _ _ _ (HE k Hk)). apply (ai_first _ _ A'); auto.
      + rewrite (ie_last _ _ _ _ _ _ _ _ _ _ _ _ (HE k Hk)). apply (ai_last _ _ A'); auto.
      + apply (ai_h _ _ A'); auto; try lia. specialize (HM k Hk). pose proof (nk1 k Hk). lia.
    - intros k j Hk Hj. destruct (Nat.eq_dec j 0) as [->|].
      + rewrite Nat.add_0_r. destruct (Nat.le_gt_cases 2 (nk k)); [auto|].
        assert (E1 : nk k = 1%nat) by (pose proof (nk1 k Hk); lia). rewrite single by auto.
        specialize (F2 k Hk). rewrite E1 in F2. cbn [Nat.sub] in F2. rewrite !Nat.add_0_r in F2. exact F2.
      + apply (ai_Q _ _ A'); auto; try lia. specialize (HM k Hk). lia.
  Qed.
End Agree.

(** From the same coefficients of links and junctions and the same depths at the ends of superlinks, both classes, each with
    its own sweeps, compute the same depth at every junction and the same flow in every link of every superlink, as long as
    the depths stay below the compiled class's upper limit; the loops of the vectorised one end. *)
Theorem C67_internals_agree :
  forall NK T a b c P A E D sf f sb w h_uk h_dk min_depth max_depth_k s h Q, numbered NK T ->
  numba_forward_recurrence sf a b c P A E D NK (t_nk T) (t_I_1k T) (t_i_1k T) = Some f ->
  numba_backward_recurrence sb a b c P A E D NK (t_nk T) (t_I_Nk T) (t_i_nk T) = Some w ->
  solve_internals true s h_uk h_dk f w (t_i_1k T) (t_I_1k T) (t_nk T) NK min_depth max_depth_k = (h, Q) ->
  (forall k j, (k < NK)%nat -> (1 <= j)%nat -> (j < t_nk T k)%nat -> h (t_I_1k T k + j)%nat < max_depth_k k) ->
  exists enough, forall fuel sf' sb' s0, (enough <= fuel)%nat ->
  exists f' w' h' Q',
  py_forward_recurrence a b c P A E D T NK false fuel sf' = Some f' /\
  py_backward_recurrence a b c P A E D T NK false fuel sb' = Some w' /\
  py_solve_internals f' w' T NK h_uk h_dk min_depth fuel s0 = Some (h', Q') /\
  (forall k j, (k < NK)%nat -> (j <= t_nk T k)%nat -> h' (t_I_1k T k + j)%nat = h (t_I_1k T k + j)%nat) /\
  (forall k j, (k < NK)%nat -> (j < t_nk T k)%nat -> Q' (t_i_1k T k + j)%nat = Q (t_i_1k T k + j)%nat).
Proof.
  intros NK T a b c P A E D sf f sb w h_uk h_dk lo hik s h Q HT Ef Eb Es Hb.
  assert (Bound : exists m, forall k, (k < NK)%nat -> (t_nk T k <= m)%nat).
  { clear. induction NK as [|n [m IH]]; [exists 0%nat; intros; lia|]. exists (m + t_nk T n)%nat. intros k Hk.
    destruct (Nat.eq_dec k n) as [->|]; [lia|]. specialize (IH k ltac:(lia)). lia. }
  destruct Bound as [m Hm].
  destruct (C67_sweeps_agree NK T a b c P A E D sf f sb w HT Ef Eb) as [m' Hs].
  exists (m + m')%nat. intros fuel sf' sb' s0 Hfuel.
  destruct (Hs fuel sf' sb' ltac:(lia)) as (f' & w' & EF & EB & AG). exists f', w'. cbv zeta in AG.
  assert (HF : forall k, (k < NK)%nat -> fwd_eqs a b c P A E D (t_i_1k T k) (t_I_1k T k) (t_nk T k) f)
    by (intros k Hk; exact (forward_recurrence_ok _ _ _ _ _ _ _ sf _ _ _ _ f (nb_layout _ _ HT) Ef k Hk)).
  assert (HB : forall k, (k < NK)%nat -> bwd_eqs a b c P A E D (t_i_1k T k) (t_I_1k T k) (t_nk T k) w).
  { intros k Hk. eapply backward_recurrence_ok; [apply (nb_layout _ _ HT)| |exact Eb|auto].
    intros k0 Hk0. destruct (nb_ends _ _ HT k0 Hk0) as (_ & X & Y). auto. }
  unfold solve_internals in Es.
  destruct (numba_solve_internals s h_uk h_dk f w (t_i_1k T) (t_I_1k T) (t_nk T) NK lo hik true) as [h1 Q1] eqn:EN.
  inversion Es; subst h Q; clear Es.
  pose proof (numba_solve_internals_eqs _ _ _ _ _ _ _ _ _ _ _ _ _ _ (nb_layout _ _ HT) EN) as HE.
  assert (N1 : forall k, (k < NK)%nat -> (1 <= t_nk T k)%nat) by (intros k Hk; destruct (nb_layout _ _ HT) as [HL _]; auto).
  assert (HE' : forall k, (k < NK)%nat -> internals_eqs f' w' (h_uk k) (h_dk k) (t_i_1k T k) (t_I_1k T k) (t_nk T k) lo (hik k) true h1 Q1).
  { intros k Hk. destruct (HE k Hk) as [K1 K2 K3 K4 K5]. constructor; auto.
    - intros j H1 H2. destruct (AG k j Hk H2) as ((_ & -> & -> & ->) & _). auto.
    - intros j H1 H2. destruct (AG k j Hk H2) as (_ & (_ & -> & -> & ->)). auto.
    - specialize (N1 k Hk). destruct (AG k 0%nat Hk ltac:(lia)) as (_ & (_ & X & Y & Z)). rewrite !Nat.add_0_r in X, Y, Z.
      rewrite X, Y, Z. exact K5. }
  destruct (internals_agree NK T HT f' w' h_uk h_dk lo hik h1 Q1 HE') with (fuel := fuel) (s := s0) as ([h' Q'] & E1 & E2 & E3).
  - intros k j Hk H1 H2. specialize (Hb k j Hk H1 H2). cbv beta in Hb. destruct (Rltb_spec (h1 (t_I_1k T k + j)%nat) lo); lra.
  - intros k Hk H1. rewrite (ie_Q0 _ _ _ _ _ _ _ _ _ _ _ _ (HE k Hk)).
    destruct (AG k 0%nat Hk ltac:(lia)) as ((_ & X & Y & Z) & _). rewrite !Nat.add_0_r in X, Y, Z. rewrite X, Y, Z. clear X Y Z.
    pose proof (HF k Hk) as F. pose proof (HB k Hk) as B. rewrite H1 in *.
    pose proof (be_O0 _ _ _ _ _ _ _ _ _ _ _ _ B) as B1. pose proof (be_X0 _ _ _ _ _ _ _ _ _ _ _ _ B) as B2.
    pose proof (be_Y0 _ _ _ _ _ _ _ _ _ _ _ _ B) as B3. pose proof (be_Z0 _ _ _ _ _ _ _ _ _ _ _ _ B) as B4.
    rewrite !Nat.add_sub in *. rewrite B1 in *. rewrite B2, B3, B4.
    rewrite (fe_U0 _ _ _ _ _ _ _ _ _ _ _ F), (fe_V0 _ _ _ _ _ _ _ _ _ _ _ F), (fe_W0 _ _ _ _ _ _ _ _ _ _ _ F), (fe_T0 _ _ _ _ _ _ _ _ _ _ _ F).
    unfold Q_i_b, Q_i_f, X_Nk, Y_Nk, Z_Nk, U_1k, V_1k, W_1k, O_nk, T_1k, safe_divide. destruct (Reqb _ 0); [ring|].
    unfold Rdiv. ring.
  - intros k Hk. specialize (Hm k Hk). lia.
  - exists h', Q'. auto 6.
Qed.

(** ** A full pipe *)

(** One superlink of two links; g (h_I - h_(I+1)) flows in each link, [2 + 2 g] m3/s enter the junction between them, which
    stores 1 m2 per metre of depth, and the depth at both ends is 1. *)
Definition full : tables := generated_tables 2 1.
Definition full_D : arr := fun I => if Nat.eqb I 1 then 2 + 2 * g else 0.
Definition zero_fwd : fwd := mkFwd (fun _ => 0) (fun _ => 0) (fun _ => 0) (fun _ => 0).
Definition zero_bwd : bwd := mkBwd (fun _ => 0) (fun _ => 0) (fun _ => 0) (fun _ => 0).
Definition full_sweeps (f : fwd) (w : bwd) : Prop :=
  numba_forward_recurrence zero_fwd (fun _ => 0) (fun _ => 1) (fun _ => 0) (fun _ => 0) (fun _ => 1) (fun _ => 1) full_D
     1 (t_nk full) (t_I_1k full) (t_i_1k full) = Some f /\
  numba_backward_recurrence zero_bwd (fun _ => 0) (fun _ => 1) (fun _ => 0) (fun _ => 0) (fun _ => 1) (fun _ => 1) full_D
     1 (t_nk full) (t_I_Nk full) (t_i_nk full) = Some w.

Lemma full_numbered : numbered 1 full.
Proof. apply generated_numbered. lia. Qed.

Lemma full_sweeps_exist : exists f w, full_sweeps f w.
Proof.
  pose proof full_numbered as HT.
  assert (W : forall i1 I1 n, wet_superlink (fun _ => 0) (fun _ => 1) (fun _ => 0) (fun _ => 1) (fun _ => 1) i1 I1 n)
    by (split; intros; repeat split; lra).
  edestruct forward_total as [f Ef]; [apply (nb_layout _ _ HT)|intros; apply W|].
  edestruct backward_total as [w Ew]; [apply (nb_layout _ _ HT)| |intros; apply W|].
  { intros k Hk. destruct (nb_ends _ _ HT k Hk) as (_ & X & Y). split; [exact Y|exact X]. }
  exists f, w. split; [exact Ef|exact Ew].
Qed.

Lemma full_depth f w hi s h Q : full_sweeps f w ->
  solve_internals true s (fun _ => 1) (fun _ => 1) f w (t_i_1k full) (t_I_1k full) (t_nk full) 1 (1 / 100) (fun _ => hi) = (h, Q) ->
  1 <= hi -> h 1%nat = if Rltb hi 2 then hi else 2.
Proof.
  intros [Ef Eb] Es Hhi. pose proof full_numbered as HT.
  pose proof (forward_recurrence_ok _ _ _ _ _ _ _ _ _ _ _ _ f (nb_layout _ _ HT) Ef 0%nat ltac:(lia)) as F.
  assert (B : bwd_eqs (fun _ => 0) (fun _ => 1) (fun _ => 0) (fun _ => 0) (fun _ => 1) (fun _ => 1) full_D (t_i_1k full 0%nat) (t_I_1k full 0%nat) (t_nk full 0%nat) w).
  { eapply backward_recurrence_ok; [apply (nb_layout _ _ HT)| |exact Eb|lia].
    intros k0 Hk0. destruct (nb_ends _ _ HT k0 Hk0) as (_ & X & Y). auto. }
  unfold solve_internals in Es.
  destruct (numba_solve_internals s (fun _ => 1) (fun _ => 1) f w (t_i_1k full) (t_I_1k full) (t_nk full) 1 (1 / 100) (fun _ => hi) true) as [h1 Q1] eqn:EN.
  inversion Es; subst h Q; clear Es.
  pose proof (numba_solve_internals_eqs _ _ _ _ _ _ _ _ _ _ _ _ _ _ (nb_layout _ _ HT) EN 0%nat ltac:(lia)) as HE.
  change (t_i_1k full 0%nat) with 0%nat in *. change (t_I_1k full 0%nat) with 0%nat in *. change (t_nk full 0%nat) with 2%nat in *.
  pose proof (fe_T0 _ _ _ _ _ _ _ _ _ _ _ F) as T0. pose proof (fe_U0 _ _ _ _ _ _ _ _ _ _ _ F) as U0.
  pose proof (fe_V0 _ _ _ _ _ _ _ _ _ _ _ F) as V0. pose proof (fe_W0 _ _ _ _ _ _ _ _ _ _ _ F) as W0.
  pose proof (fe_T _ _ _ _ _ _ _ _ _ _ _ F 0%nat ltac:(lia)) as T1. pose proof (fe_U _ _ _ _ _ _ _ _ _ _ _ F 0%nat ltac:(lia)) as U1.
  pose proof (fe_V _ _ _ _ _ _ _ _ _ _ _ F 0%nat ltac:(lia)) as V1. pose proof (fe_W _ _ _ _ _ _ _ _ _ _ _ F 0%nat ltac:(lia)) as W1.
  pose proof (be_O0 _ _ _ _ _ _ _ _ _ _ _ _ B) as O1. pose proof (be_X0 _ _ _ _ _ _ _ _ _ _ _ _ B) as X1.
  pose proof (be_Y0 _ _ _ _ _ _ _ _ _ _ _ _ B) as Y1. pose proof (be_Z0 _ _ _ _ _ _ _ _ _ _ _ _ B) as Z1.
  pose proof (ie_Q _ _ _ _ _ _ _ _ _ _ _ _ HE 1%nat ltac:(lia) ltac:(lia)) as EQ.
  pose proof (ie_h _ _ _ _ _ _ _ _ _ _ _ _ HE 1%nat ltac:(lia) ltac:(lia)) as Eh.
  pose proof (ie_last _ _ _ _ _ _ _ _ _ _ _ _ HE) as EL.
  cbn [Nat.add Nat.sub] in *.
  assert (G : 0 < g) by (unfold g; lra).
  unfold T_1k in T0. assert (T0' : fT f 0%nat = 1) by (rewrite T0; ring). clear T0.
  unfold U_1k in U0. rewrite T0', safe_divide_nz in U0 by lra. assert (U0' : fU f 0%nat = - g) by (rewrite U0; field). clear U0.
  unfold V_1k in V0. rewrite T0', safe_divide_nz in V0 by lra. assert (V0' : fV f 0%nat = 0) by (rewrite V0; field). clear V0.
  unfold W_1k in W0. rewrite T0', safe_divide_nz in W0 by lra. assert (W0' : fW f 0%nat = g) by (rewrite W0; field). clear W0.
  assert (T1' : fT f 1%nat = (1 + 2 * g) / (1 + g)).
  { rewrite T1, U0'. unfold T_ik. rewrite ?safe_divide_nz by lra. field. lra. }
  assert (NZ : (1 + 2 * g) / (1 + g) <> 0) by (apply Rgt_not_eq, Rdiv_lt_0_compat; lra).
  assert (U1' : fU f 1%nat = - g * (1 + g) / (1 + 2 * g)).
  { rewrite U1, T1'. unfold U_Ik. rewrite safe_divide_nz by auto. field. lra. }
  assert (V1' : fV f 1%nat = g * (2 + 2 * g) / (1 + 2 * g)).
  { rewrite T1', U0', V0' in V1. unfold V_Ik, div in V1. cbn [full_D Nat.eqb] in V1.
    destruct (Reqb_spec (- g - 1) 0) as [|_]; [lra|]. cbn [bind] in V1. injection V1 as V1. rewrite V1.
    rewrite ?safe_divide_nz by auto. field. lra. }
  assert (W1' : fW f 1%nat = g * g / (1 + 2 * g)).
  { rewrite W1, T1', U0', W0'. unfold W_Ik. rewrite safe_divide_nz.
    - field. lra.
    - apply Rmult_integral_contrapositive_currified; [lra|auto]. }
  unfold O_nk in O1. assert (O1' : bO w 1%nat = 1) by (rewrite O1; ring). clear O1.
  unfold X_Nk in X1. rewrite O1', safe_divide_nz in X1 by lra. assert (X1' : bX w 1%nat = g) by (rewrite X1; field). clear X1.
  unfold Y_Nk in Y1. rewrite O1', safe_divide_nz in Y1 by lra. assert (Y1' : bY w 1%nat = 0) by (rewrite Y1; field). clear Y1.
  unfold Z_Nk in Z1. rewrite O1', safe_divide_nz in Z1 by lra. assert (Z1' : bZ w 1%nat = - g) by (rewrite Z1; field). clear Z1.
  assert (Q1' : Q1 1%nat = g).
  { rewrite EQ, EL, U1', V1', W1'. unfold Q_i_f. field. lra. }
  assert (H1 : h_i_b (Q1 1%nat) 1 (bX w 1%nat) (bY w 1%nat) (bZ w 1%nat) = 2).
  { rewrite Q1', X1', Y1', Z1'. unfold h_i_b. rewrite safe_divide_nz by lra. field. lra. }
  rewrite H1 in Eh. unfold limit_depth in Eh. destruct (Rltb_spec 2 (1 / 100)); [lra|]. rewrite Eh.
  destruct (Rltb_spec hi 2); [destruct (Rltb_spec hi (1 / 100)); lra|]. destruct (Rltb_spec 2 (1 / 100)); lra.
Qed.

(** The class without numba does not know the upper limit: in a pipe whose depth is limited to 1.5 the junction that the
    compiled class keeps at 1.5 gets the depth 2. *)
Theorem C67_depth_limits_refuted :
  exists f w, full_sweeps f w /\ forall s h Q,
  solve_internals true s (fun _ => 1) (fun _ => 1) f w (t_i_1k full) (t_I_1k full) (t_nk full) 1 (1 / 100) (fun _ => 3 / 2) = (h, Q) ->
  h 1%nat = 3 / 2 /\
  exists enough, forall fuel sf' sb' s0, (enough <= fuel)%nat ->
  exists f' w' h' Q',
  py_forward_recurrence (fun _ => 0) (fun _ => 1) (fun _ => 0) (fun _ => 0) (fun _ => 1) (fun _ => 1) full_D full 1 false fuel sf' = Some f' /\
  py_backward_recurrence (fun _ => 0) (fun _ => 1) (fun _ => 0) (fun _ => 0) (fun _ => 1) (fun _ => 1) full_D full 1 false fuel sb' = Some w' /\
  py_solve_internals f' w' full 1 (fun _ => 1) (fun _ => 1) (1 / 100) fuel s0 = Some (h', Q') /\ h' 1%nat = 2.
Proof.
  destruct full_sweeps_exist as (f & w & Hs). exists f, w. split; [exact Hs|]. intros s h Q E. split.
  - rewrite (full_depth f w (3 / 2) s h Q Hs E) by lra. destruct (Rltb_spec (3 / 2) 2); lra.
  - destruct (solve_internals true s (fun _ => 1) (fun _ => 1) f w (t_i_1k full) (t_I_1k full) (t_nk full) 1 (1 / 100) (fun _ => 3)) as [h3 Q3] eqn:E3.
    pose proof (full_depth f w 3 s h3 Q3 Hs E3 ltac:(lra)) as D3. destruct (Rltb_spec 3 2) as [|_]; [lra|].
    destruct Hs as [Ef Eb].
    destruct (C67_internals_agree _ _ _ _ _ _ _ _ _ _ _ _ _ _ _ _ _ _ _ _ full_numbered Ef Eb E3) as [m Hm].
    { intros k j Hk H1 H2. assert (k = 0%nat) as -> by lia. change (t_nk full 0%nat) with 2%nat in H2.
      change (t_I_1k full 0%nat) with 0%nat. assert (j = 1%nat) as -> by lia. cbn [Nat.add]. rewrite D3. lra. }
    exists m. intros fuel sf' sb' s0 Hf. destruct (Hm fuel sf' sb' s0 Hf) as (f' & w' & h' & Q' & EF & EB & EP & Eh & _).
    exists f', w', h', Q'. split; [exact EF|]. split; [exact EB|]. split; [exact EP|].
    rewrite <- D3. apply (Eh 0%nat 1%nat); [lia|]. change (t_nk full 0%nat) with 2%nat. lia.
Qed.

(** The hypotheses of [C67_internals_agree] hold in the same pipe with a limit of 3 m. *)
Example C67_internals_example :
  exists f w, full_sweeps f w /\ numbered 1 full /\ forall s h Q,
  solve_internals true s (fun _ => 1) (fun _ => 1) f w (t_i_1k full) (t_I_1k full) (t_nk full) 1 (1 / 100) (fun _ => 3) = (h, Q) ->
  (forall k j, (k < 1)%nat -> (1 <= j)%nat -> (j < t_nk full k)%nat -> h (t_I_1k full k + j)%nat < 3) /\ h 1%nat = 2.
Proof.
  destruct full_sweeps_exist as (f & w & Hs). exists f, w. split; [exact Hs|]. split; [exact full_numbered|]. intros s h Q E.
  pose proof (full_depth f w 3 s h Q Hs E ltac:(lra)) as D3. destruct (Rltb_spec 3 2) as [|_]; [lra|]. split; [|exact D3].
  intros k j Hk H1 H2. assert (k = 0%nat) as -> by lia. change (t_nk full 0%nat) with 2%nat in H2.
  change (t_I_1k full 0%nat) with 0%nat. assert (j = 1%nat) as -> by lia. cbn [Nat.add]. rewrite D3. lra.
Qed.
