(** Chains of pieces and junctions with coefficients of definite sign: the sweeps of the water-quality solver are
    exact, its pivots positive, and the chain's equations have a solution. *)
From Verif Require Import Prelude M_Coeffs M_Recurrence M_Quality L_Forward.

(** Rows of pieces: a l + b x + c r = g;  rows of junctions: ka x + la y + mu x' = et. *)
Definition link_signs (a b c : R) : Prop := a <= 0 /\ c <= 0 /\ 0 < a + b + c.
Definition node_signs (ka la mu : R) : Prop := ka <= 0 /\ mu <= 0 /\ 0 <= ka + la + mu /\ 0 < la.

Lemma den_pos ka la mu U : node_signs ka la mu -> 0 <= U < 1 -> 0 < la + ka * U /\ 0 <= la + ka * U + mu.
Proof.
  intros (H1 & H2 & H3 & H4) HU.
  assert (ka <= ka * U) by nra.
  split; [|nra]. destruct (Req_dec ka 0) as [->|]; [lra|]. assert (ka < ka * U) by nra. lra.
Qed.

Section Sweep.
  Variables a b c g ka la mu et : arr.
  Variables (n : nat) (T U V W : arr).

  (** The relations one sweep establishes between its arrays. *)
  Record sweep : Prop := mkSweep {
    sw_U0 : U 0%nat = safe_divide (- c 0%nat) (b 0%nat);
    sw_V0 : V 0%nat = safe_divide (g 0%nat) (b 0%nat);
    sw_W0 : W 0%nat = safe_divide (- a 0%nat) (b 0%nat);
    sw_T : forall j, (S j < n)%nat -> T (S j) = q_T (b (S j)) (a (S j)) (mu (S j)) (la (S j)) (ka (S j)) (U j);
    sw_U : forall j, (S j < n)%nat -> U (S j) = q_U (c (S j)) (T (S j));
    sw_V : forall j, (S j < n)%nat ->
      V (S j) = q_V (g (S j)) (T (S j)) (a (S j)) (et (S j)) (ka (S j)) (V j) (la (S j)) (U j);
    sw_W : forall j, (S j < n)%nat -> W (S j) = q_W (a (S j)) (ka (S j)) (W j) (T (S j)) (la (S j)) (U j) }.

  Hypothesis HL : forall j, (j < n)%nat -> link_signs (a j) (b j) (c j).
  Hypothesis HN : forall j, (S j < n)%nat -> node_signs (ka (S j)) (la (S j)) (mu (S j)).
  Hypothesis HS : sweep.

  Definition sweep_pivot (j : nat) : Prop := 0 < T (S j) /\ 0 < la (S j) + ka (S j) * U j.

  Lemma step_pos ai bi ci k l m u :
    link_signs ai bi ci -> node_signs k l m -> 0 <= u < 1 ->
    0 < l + k * u /\ 0 < bi + - ai * m / (l + k * u).
  Proof.
    intros (A1 & A2 & A3) Hn Hu. destruct (den_pos _ _ _ _ Hn Hu) as [Hd Hm]. destruct Hn as (K1 & K2 & K3 & K4).
    split; auto.
    apply Rmult_lt_reg_r with (l + k * u); auto.
    replace ((bi + - ai * m / (l + k * u)) * (l + k * u)) with (bi * (l + k * u) + - ai * m) by (field; lra).
    assert (0 <= - ai * (l + k * u + m)) by (apply Rmult_le_pos; lra).
    assert (0 < (ai + bi + ci) * (l + k * u)) by (apply Rmult_lt_0_compat; lra).
    assert (0 <= - ci * (l + k * u)) by (apply Rmult_le_pos; lra). nra.
  Qed.

  Lemma sweep_bounds : (1 <= n)%nat -> forall j, (j < n)%nat ->
    0 <= U j /\ 0 <= W j /\ U j + W j < 1 /\ ((S j < n)%nat -> sweep_pivot j).
  Proof.
    intros Hn. destruct HS as [U0 V0 W0 HT HU HV HW].
    assert (Piv : forall j, (S j < n)%nat -> 0 <= U j < 1 -> sweep_pivot j).
    { intros j Hj Hu. unfold sweep_pivot. rewrite HT by auto. unfold q_T.
      destruct (step_pos _ _ _ _ _ _ (U j) (HL (S j) Hj) (HN j Hj) Hu) as [Hd Hp].
      rewrite safe_divide_nz by lra. auto. }
    induction j as [|j IH]; intros Hj.
    - destruct (HL 0%nat Hj) as (A1 & A2 & A3).
      assert (B : 0 < b 0%nat) by lra.
      assert (0 <= U 0%nat) by (rewrite U0, safe_divide_nz by lra; apply Rmult_le_pos; [lra|left; now apply Rinv_0_lt_compat]).
      assert (0 <= W 0%nat) by (rewrite W0, safe_divide_nz by lra; apply Rmult_le_pos; [lra|left; now apply Rinv_0_lt_compat]).
      assert (U 0%nat + W 0%nat < 1).
      { rewrite U0, W0, !safe_divide_nz by lra. apply Rmult_lt_reg_r with (b 0%nat); auto.
        replace ((- c 0%nat / b 0%nat + - a 0%nat / b 0%nat) * b 0%nat) with (- c 0%nat - a 0%nat) by (field; lra). lra. }
      split; [|split; [|split]]; auto. intros Hj2. apply Piv; auto; lra.
    - destruct (IH ltac:(lia)) as (I1 & I2 & I3 & I4). destruct (I4 Hj) as [P1 P2].
      destruct (HL (S j) Hj) as (A1 & A2 & A3). pose proof (HN j Hj) as Hnode.
      destruct (den_pos _ _ _ (U j) Hnode ltac:(lra)) as [D1 D2]. destruct Hnode as (K1 & K2 & K3 & K4).
      assert (TD : T (S j) * (la (S j) + ka (S j) * U j) = b (S j) * (la (S j) + ka (S j) * U j) - a (S j) * mu (S j)).
      { rewrite HT by auto. unfold q_T. rewrite safe_divide_nz by lra. field. lra. }
      assert (PP : 0 < T (S j) * (la (S j) + ka (S j) * U j)) by now apply Rmult_lt_0_compat.
      assert (EU : U (S j) = - c (S j) / T (S j)) by (rewrite HU by auto; unfold q_U; apply safe_divide_nz; lra).
      assert (EW : W (S j) = a (S j) * ka (S j) * W j / (T (S j) * (la (S j) + ka (S j) * U j)))
        by (rewrite HW by auto; unfold q_W; apply safe_divide_nz; lra).
      assert (0 <= U (S j)) by (rewrite EU; apply Rmult_le_pos; [lra|left; now apply Rinv_0_lt_compat]).
      assert (0 <= a (S j) * ka (S j)) by nra.
      assert (0 <= W (S j)).
      { rewrite EW. apply Rmult_le_pos; [|left; now apply Rinv_0_lt_compat]. apply Rmult_le_pos; auto. }
      assert (U (S j) + W (S j) < 1).
      { rewrite EU, EW. set (d := la (S j) + ka (S j) * U j) in *.
        apply Rmult_lt_reg_r with (T (S j) * d); auto.
        replace ((- c (S j) / T (S j) + a (S j) * ka (S j) * W j / (T (S j) * d)) * (T (S j) * d))
          with (- c (S j) * d + a (S j) * ka (S j) * W j) by (field; lra).
        rewrite Rmult_1_l, TD.
        assert (0 < (a (S j) + b (S j) + c (S j)) * d) by (apply Rmult_lt_0_compat; lra).
        assert (E : 0 <= - a (S j) * (d + ka (S j) * W j + mu (S j))).
        { apply Rmult_le_pos; [lra|]. unfold d.
          assert (ka (S j) <= ka (S j) * (U j + W j)) by nra. lra. }
        lra. }
      split; [|split; [|split]]; auto. intros Hj2. apply Piv; auto; lra.
  Qed.

  (** Exactness: whatever satisfies the rows satisfies the relations. *)
  Lemma sweep_exact x y :
    (1 <= n)%nat ->
    (forall j, (j < n)%nat -> a j * y j + b j * x j + c j * y (S j) = g j) ->
    (forall j, (S j < n)%nat -> ka (S j) * x j + la (S j) * y (S j) + mu (S j) * x (S j) = et (S j)) ->
    forall j, (j < n)%nat -> x j = U j * y (S j) + V j + W j * y 0%nat.
  Proof.
    intros Hn HA HB. destruct HS as [U0 V0 W0 HT HU HV HW].
    induction j as [|j IH]; intros Hj.
    - destruct (HL 0%nat Hj) as (A1 & A2 & A3). rewrite U0, V0, W0, !safe_divide_nz by lra.
      pose proof (HA 0%nat Hj) as E.
      apply Rmult_eq_reg_l with (b 0%nat); [|lra]. replace (b 0%nat * x 0%nat) with (g 0%nat - a 0%nat * y 0%nat - c 0%nat * y 1%nat) by lra.
      field. lra.
    - specialize (IH ltac:(lia)). pose proof (HA (S j) Hj) as EA. pose proof (HB j Hj) as EB.
      destruct (sweep_bounds Hn j ltac:(lia)) as (I1 & I2 & I3 & I4). destruct (I4 Hj) as [P1 P2].
      assert (PP : 0 < T (S j) * (la (S j) + ka (S j) * U j)) by now apply Rmult_lt_0_compat.
      rewrite (HV j Hj), (HW j Hj), (HU j Hj). unfold q_V, q_W, q_U. rewrite !safe_divide_nz by lra.
      pose proof (HT j Hj) as ET. unfold q_T in ET. rewrite safe_divide_nz in ET by lra.
      set (d := la (S j) + ka (S j) * U j) in *.
      assert (TD : T (S j) * d = b (S j) * d - a (S j) * mu (S j)) by (rewrite ET; field; lra).
      assert (ED : d * y (S j) = et (S j) - mu (S j) * x (S j) - ka (S j) * (V j + W j * y 0%nat)).
      { unfold d. rewrite IH in EB. lra. }
      assert (EX : T (S j) * d * x (S j)
                   = - c (S j) * d * y (S (S j)) + g (S j) * d - a (S j) * (et (S j) - ka (S j) * V j)
                     + a (S j) * ka (S j) * W j * y 0%nat).
      { rewrite TD.
        assert (EA' : a (S j) * (d * y (S j)) + b (S j) * x (S j) * d + c (S j) * y (S (S j)) * d = g (S j) * d)
          by (rewrite <- EA; ring).
        rewrite ED in EA'. lra. }
      apply Rmult_eq_reg_l with (T (S j) * d); [|lra]. rewrite EX. field. lra.
  Qed.
End Sweep.

(** Forward sweep of the code. *)
Section Forward.
  Variables (al be ch ga : arr) (nd : nat -> wq_node).
  Definition q_fwd_eqs (i1 I1 n : nat) (s : fwd) : Prop :=
    sweep (fun j => al (i1 + j)%nat) (fun j => be (i1 + j)%nat) (fun j => ch (i1 + j)%nat) (fun j => ga (i1 + j)%nat)
          (fun j => o_ka (nd (I1 + j)%nat)) (fun j => o_la (nd (I1 + j)%nat)) (fun j => o_mu (nd (I1 + j)%nat))
          (fun j => o_et (nd (I1 + j)%nat)) n
          (fun j => fT s (i1 + j)%nat) (fun j => fU s (I1 + j)%nat) (fun j => fV s (I1 + j)%nat) (fun j => fW s (I1 + j)%nat).

  Lemma q_forward_ok i1 I1 n s :
    (1 <= n)%nat ->
    let s' := q_forward_superlink al be ch ga nd i1 I1 n s in
    q_fwd_eqs i1 I1 n s' /\
    (forall i, (i < i1 \/ i1 + n <= i)%nat -> fT s' i = fT s i) /\
    (forall I, (I < I1 \/ I1 + n <= I)%nat -> fU s' I = fU s I /\ fV s' I = fV s I /\ fW s' I = fW s I).
  Proof.
    intros Hn. cbv zeta. unfold q_forward_superlink.
    set (Inv := fun m s' => q_fwd_eqs i1 I1 (S m) s' /\
      (forall i, (i < i1 \/ i1 + S m <= i)%nat -> fT s' i = fT s i) /\
      (forall I, (I < I1 \/ I1 + S m <= I)%nat -> fU s' I = fU s I /\ fV s' I = fV s I /\ fW s' I = fW s I)).
    match goal with |- context [for_n ?m ?f ?x] => set (s' := for_n m f x) end.
    assert (HI : Inv (n - 1)%nat s').
    { unfold s'. apply (for_n_inv Inv).
      - unfold Inv, q_forward_first, q_fwd_eqs. split; [|split; simpl; intros].
        + constructor; cbn -[Nat.add]; try (intros; lia); rewrite !Nat.add_0_r, upd_eq; reflexivity.
        + rewrite upd_neq; auto; lia.
        + rewrite !upd_neq; auto; lia.
      - clear s'. intros m s1 Hm (HE & HS1 & HS2). unfold q_forward_next.
        replace (i1 + 1 + m)%nat with (i1 + S m)%nat by lia.
        replace (I1 + 1 + m)%nat with (I1 + S m)%nat by lia.
        replace (I1 + S m - 1)%nat with (I1 + m)%nat by lia.
        split; [|split; cbn -[Nat.add]; intros].
        + destruct HE as [U0 V0 W0 HTs HUs HVs HWs]. cbv beta in *.
          constructor; cbn -[Nat.add].
          * rewrite upd_neq by lia; auto.
          * rewrite upd_neq by lia; auto.
          * rewrite upd_neq by lia; auto.
          * intros j Hj. destruct (Nat.eq_dec j m) as [->|].
            -- rewrite upd_eq, upd_neq by lia. reflexivity.
            -- rewrite !upd_neq by lia. apply HTs; lia.
          * intros j Hj. destruct (Nat.eq_dec j m) as [->|].
            -- rewrite !upd_eq. reflexivity.
            -- rewrite !upd_neq by lia. apply HUs; lia.
          * intros j Hj. destruct (Nat.eq_dec j m) as [->|].
            -- rewrite !upd_eq, !upd_neq by lia. reflexivity.
            -- rewrite !upd_neq by lia. apply HVs; lia.
          * intros j Hj. destruct (Nat.eq_dec j m) as [->|].
            -- rewrite !upd_eq, !upd_neq by lia. reflexivity.
            -- rewrite !upd_neq by lia. apply HWs; lia.
        + rewrite upd_neq by lia. apply HS1; lia.
        + rewrite !upd_neq by lia. apply HS2; lia. }
    unfold Inv in HI. replace (S (n - 1))%nat with n in HI by lia. exact HI.
  Qed.
End Forward.

Lemma sweep_ext a b c g ka la mu et n T U V W T' U' V' W' :
  (1 <= n)%nat ->
  (forall j, (j < n)%nat -> T' j = T j /\ U' j = U j /\ V' j = V j /\ W' j = W j) ->
  sweep a b c g ka la mu et n T U V W -> sweep a b c g ka la mu et n T' U' V' W'.
Proof.
  intros Hn H [U0 V0 W0 HT HU HV HW].
  assert (EU : forall j, (j < n)%nat -> U' j = U j) by (intros; apply H; auto).
  assert (EV : forall j, (j < n)%nat -> V' j = V j) by (intros; apply H; auto).
  assert (EW : forall j, (j < n)%nat -> W' j = W j) by (intros; apply H; auto).
  assert (ET : forall j, (j < n)%nat -> T' j = T j) by (intros; apply H; auto).
  constructor.
  - rewrite EU by lia; auto.
  - rewrite EV by lia; auto.
  - rewrite EW by lia; auto.
  - intros j Hj. rewrite ET, EU by lia; auto.
  - intros j Hj. rewrite EU, ET by lia; auto.
  - intros j Hj. rewrite !EV, EU, ET by lia; auto.
  - intros j Hj. rewrite !EW, EU, ET by lia; auto.
Qed.

(** Backward sweep of the code: the forward sweep of the reversed chain. *)
Section Backward.
  Variables (al be ch ga : arr) (nd : nat -> wq_node).
  Definition q_bwd_eqs_upto (i1 I1 n m : nat) (s : bwd) : Prop :=
    sweep (fun j => ch (i1 + n - 1 - j)%nat) (fun j => be (i1 + n - 1 - j)%nat) (fun j => al (i1 + n - 1 - j)%nat)
          (fun j => ga (i1 + n - 1 - j)%nat)
          (fun j => o_mu (nd (I1 + n - j)%nat)) (fun j => o_la (nd (I1 + n - j)%nat)) (fun j => o_ka (nd (I1 + n - j)%nat))
          (fun j => o_et (nd (I1 + n - j)%nat)) m
          (fun j => bO s (i1 + n - 1 - j)%nat) (fun j => bX s (I1 + n - 1 - j)%nat) (fun j => bY s (I1 + n - 1 - j)%nat)
          (fun j => bZ s (I1 + n - 1 - j)%nat).
  Definition q_bwd_eqs (i1 I1 n : nat) (s : bwd) : Prop := q_bwd_eqs_upto i1 I1 n n s.

  Lemma q_backward_ok i1 I1 n s :
    (1 <= n)%nat ->
    let s' := q_backward_superlink al be ch ga nd (i1 + n - 1) (I1 + n - 1) n s in
    q_bwd_eqs i1 I1 n s' /\
    (forall i, (i < i1 \/ i1 + n <= i)%nat -> bO s' i = bO s i) /\
    (forall I, (I < I1 \/ I1 + n <= I)%nat -> bX s' I = bX s I /\ bY s' I = bY s I /\ bZ s' I = bZ s I).
  Proof.
    intros Hn. cbv zeta. unfold q_backward_superlink.
    set (Inv := fun m s' => (m <= n - 1)%nat -> q_bwd_eqs_upto i1 I1 n (S m) s' /\
      (forall i, (i < i1 + n - 1 - m \/ i1 + n <= i)%nat -> bO s' i = bO s i) /\
      (forall I, (I < I1 + n - 1 - m \/ I1 + n <= I)%nat -> bX s' I = bX s I /\ bY s' I = bY s I /\ bZ s' I = bZ s I)).
    match goal with |- context [for_n ?m ?f ?x] => set (s' := for_n m f x) end.
    assert (HI : Inv (n - 1)%nat s').
    { unfold s'. apply (for_n_inv Inv).
      - intros _. unfold q_backward_first, q_bwd_eqs_upto. split; [|split; simpl; intros].
        + constructor; cbn -[Nat.add Nat.sub]; try (intros; lia); rewrite !Nat.sub_0_r, upd_eq; reflexivity.
        + rewrite upd_neq; auto; lia.
        + rewrite !upd_neq; auto; lia.
      - clear s'. intros m s1 Hm HI Hm'. destruct (HI ltac:(lia)) as (HE & HS1 & HS2). clear HI. unfold q_backward_next.
        replace (i1 + n - 1 - 1 - m)%nat with (i1 + n - 1 - S m)%nat by lia.
        replace (I1 + n - 1 - 1 - m)%nat with (I1 + n - 1 - S m)%nat by lia.
        replace (I1 + n - 1 - S m + 1)%nat with (I1 + n - S m)%nat by lia.
        split; [|split; cbn -[Nat.add Nat.sub]; intros].
        + destruct HE as [U0 V0 W0 HTs HUs HVs HWs]. cbv beta in *.
          assert (EI : forall j, (j = m)%nat -> (I1 + n - 1 - j = I1 + n - S m)%nat) by (intros; lia).
          constructor; cbn -[Nat.add Nat.sub].
          * rewrite upd_neq by lia; auto.
          * rewrite upd_neq by lia; auto.
          * rewrite upd_neq by lia; auto.
          * intros j Hj. destruct (Nat.eq_dec j m) as [->|].
            -- rewrite upd_eq, upd_neq by lia. rewrite (EI m eq_refl). reflexivity.
            -- rewrite !upd_neq by lia. apply HTs; lia.
          * intros j Hj. destruct (Nat.eq_dec j m) as [->|].
            -- rewrite !upd_eq. reflexivity.
            -- rewrite !upd_neq by lia. apply HUs; lia.
          * intros j Hj. destruct (Nat.eq_dec j m) as [->|].
            -- rewrite !upd_eq, !upd_neq by lia. rewrite (EI m eq_refl). reflexivity.
            -- rewrite !upd_neq by lia. apply HVs; lia.
          * intros j Hj. destruct (Nat.eq_dec j m) as [->|].
            -- rewrite !upd_eq, !upd_neq by lia. rewrite (EI m eq_refl). reflexivity.
            -- rewrite !upd_neq by lia. apply HWs; lia.
        + rewrite upd_neq by lia. apply HS1; lia.
        + rewrite !upd_neq by lia. apply HS2; lia. }
    destruct (HI ltac:(lia)) as (H1 & H2 & H3). replace (S (n - 1))%nat with n in H1 by lia. split; [exact H1|].
    split; intros; [apply H2|apply H3]; lia.
  Qed.
End Backward.

(** All superlinks. *)
From Verif Require Import S_Superlink.
Section All.
  Variables (al be ch ga : arr) (nd : nat -> wq_node) (NK : nat) (nk I_1k i_1k : nat -> nat).
  Hypothesis HL : layout NK nk i_1k I_1k.

  Lemma q_forward_all s k : (k < NK)%nat ->
    q_fwd_eqs al be ch ga nd (i_1k k) (I_1k k) (nk k) (q_forward_recurrence s al be ch ga nd NK nk I_1k i_1k).
  Proof.
    destruct HL as [Hn Hl]. unfold q_forward_recurrence. revert k.
    pose (Inv := fun m (s' : fwd) => forall k, (k < m)%nat -> q_fwd_eqs al be ch ga nd (i_1k k) (I_1k k) (nk k) s').
    apply (for_n_inv Inv); [intros k Hk; lia|].
    intros m s1 Hm HI k Hk.
    destruct (q_forward_ok al be ch ga nd (i_1k m) (I_1k m) (nk m) s1 (Hn m Hm)) as (HE & HS1 & HS2).
    destruct (Nat.eq_dec k m) as [->|]; auto.
    destruct (Hl k m) as [L1 L2]; [lia|lia|].
    refine (sweep_ext _ _ _ _ _ _ _ _ _ _ _ _ _ _ _ _ _ _ _ (HI k _)); [apply Hn; lia| |lia].
    intros j Hj. split; [apply HS1; lia|apply HS2; lia].
  Qed.

  Lemma q_backward_all s k : (k < NK)%nat ->
    q_bwd_eqs al be ch ga nd (i_1k k) (I_1k k) (nk k)
      (q_backward_recurrence s al be ch ga nd NK nk (fun k => I_1k k + nk k - 1)%nat (fun k => i_1k k + nk k - 1)%nat).
  Proof.
    destruct HL as [Hn Hl]. unfold q_backward_recurrence. revert k.
    pose (Inv := fun m (s' : bwd) => forall k, (k < m)%nat -> q_bwd_eqs al be ch ga nd (i_1k k) (I_1k k) (nk k) s').
    apply (for_n_inv Inv); [intros k Hk; lia|].
    intros m s1 Hm HI k Hk.
    destruct (q_backward_ok al be ch ga nd (i_1k m) (I_1k m) (nk m) s1 (Hn m Hm)) as (HE & HS1 & HS2).
    destruct (Nat.eq_dec k m) as [->|]; auto.
    destruct (Hl k m) as [L1 L2]; [lia|lia|].
    refine (sweep_ext _ _ _ _ _ _ _ _ _ _ _ _ _ _ _ _ _ _ _ (HI k _)); [apply Hn; lia| |lia].
    intros j Hj. split; [apply HS1; lia|apply HS2; lia].
  Qed.
End All.

(** ** Existence of a solution of the chain's equations *)

(** Tridiagonal rows a x_(j-1) + b x_j + c x_(j+1) = d, j = 1 .. m. *)
Lemma tri_solvable (a b c d : arr) (left : R) (strict : nat -> bool) m :
  (forall j, (j < m)%nat -> a j <= 0 /\ c j <= 0 /\ 0 <= a j + b j + c j /\ 0 < b j) ->
  (forall j, (j < m)%nat -> strict j = true -> 0 < a j + b j + c j) ->
  (forall j, (S j < m)%nat -> strict j = true \/ strict (S j) = true) ->
  (forall j, j = 0%nat -> strict j = true) ->
  exists p q, 0 <= p <= 1 /\ (p < 1 \/ (exists m', m = S m' /\ strict m' = false)) /\
    forall r, exists x, x 0%nat = left /\ x (S m) = r /\ x m = p * r + q /\
      forall j, (j < m)%nat -> a j * x j + b j * x (S j) + c j * x (S (S j)) = d j.
Proof.
  intros H1 H2 H3 H0. induction m as [|m IH].
  - exists 0, left. split; [lra|]. split; [left; lra|]. intros r. exists (fun j => if Nat.eqb j 0 then left else r).
    repeat split; simpl; try lra; intros; lia.
  - destruct IH as (p & q & Hp & Hs & Hx).
    { intros; apply H1; lia. } { intros; apply H2; auto; lia. } { intros; apply H3; lia. }
    destruct (H1 m ltac:(lia)) as (A1 & A2 & A3 & A4).
    assert (PV : 0 < b m + a m * p /\ (strict m = true -> - c m < b m + a m * p)).
    { assert (a m <= a m * p) by nra. split.
      - destruct (strict m) eqn:E.
        + pose proof (H2 m ltac:(lia) E). lra.
        + assert (p < 1).
          { destruct Hs as [|(m' & -> & E')]; auto. destruct (H3 m' ltac:(lia)); congruence. }
          destruct (Req_dec (a m) 0) as [Z|Z]; [rewrite Z; lra|]. assert (a m < a m * p) by nra. lra.
      - intros E. pose proof (H2 m ltac:(lia) E). lra. }
    destruct PV as [PV PS].
    exists (- c m / (b m + a m * p)), ((d m - a m * q) / (b m + a m * p)).
    assert (PL : - c m <= b m + a m * p) by (assert (a m <= a m * p) by nra; lra).
    split; [split|split].
    + apply Rmult_le_pos; [lra|left; now apply Rinv_0_lt_compat].
    + apply Rmult_le_reg_r with (b m + a m * p); auto.
      replace (- c m / (b m + a m * p) * (b m + a m * p)) with (- c m) by (field; lra). lra.
    + destruct (strict m) eqn:E; [left|right; exists m; auto].
      apply Rmult_lt_reg_r with (b m + a m * p); auto.
      replace (- c m / (b m + a m * p) * (b m + a m * p)) with (- c m) by (field; lra). specialize (PS eq_refl). lra.
    + intros r. set (y := (d m - a m * q - c m * r) / (b m + a m * p)).
      destruct (Hx y) as (x & X0 & X1 & X2 & X3).
      exists (upd x (S (S m)) r). rewrite upd_eq, !upd_neq by lia.
      split; auto. split; auto. split; [rewrite X1; unfold y; field; lra|].
      intros j Hj. destruct (Nat.eq_dec j m) as [->|].
      * rewrite upd_eq, !upd_neq by lia. rewrite X2, X1. unfold y. field. lra.
      * rewrite !upd_neq by lia. apply X3. lia.
Qed.

(** A chain of n + 2 pieces and n + 1 junctions between given end values. *)
Section ChainSolvable.
  Variables (pa pb pc pg ka la mu et : arr) (n : nat) (lft rgt : R).
  Hypothesis HP : forall j, (j <= n + 1)%nat -> link_signs (pa j) (pb j) (pc j).
  Hypothesis HN : forall j, (j <= n)%nat -> node_signs (ka j) (la j) (mu j).

  Definition piece_row (L Nd : arr) (j : nat) : Prop :=
    pa j * (match j with O => lft | S j => Nd j end) + pb j * L j + pc j * (if Nat.leb j n then Nd j else rgt) = pg j.
  Definition node_row (L Nd : arr) (j : nat) : Prop := ka j * L j + la j * Nd j + mu j * L (S j) = et j.

  Lemma chain_solvable : exists L Nd,
    (forall j, (j <= n + 1)%nat -> piece_row L Nd j) /\ (forall j, (j <= n)%nat -> node_row L Nd j).
  Proof.
    set (ev := fun (f g : arr) (j : nat) => if Nat.even j then f (Nat.div2 j) else g (Nat.div2 j)).
    assert (D0 : forall j, Nat.div2 (2 * j) = j) by (intros; apply Nat.div2_double).
    assert (D1 : forall j, Nat.div2 (2 * j + 1) = j) by (intros; rewrite Nat.add_1_r; apply Nat.div2_succ_double).
    assert (E0 : forall j, Nat.even (2 * j) = true) by (intros; rewrite Nat.even_mul; reflexivity).
    assert (E1 : forall j, Nat.even (2 * j + 1) = false) by (intros; rewrite Nat.even_add, E0; reflexivity).
    assert (Par : forall j, j = (2 * Nat.div2 j)%nat /\ Nat.even j = true \/ j = (2 * Nat.div2 j + 1)%nat /\ Nat.even j = false).
    { intros j. destruct (Nat.Even_or_Odd j) as [[q ->]|[q ->]].
      - left. rewrite D0, E0. auto.
      - right. rewrite D1, E1. auto. }
    destruct (tri_solvable (ev pa ka) (ev pb la) (ev pc mu) (ev pg et) lft Nat.even (2 * n + 3)%nat)
      as (p & q & _ & _ & Hx).
    - intros j Hj. unfold ev. destruct (Par j) as [[E ->]|[E ->]].
      + destruct (HP (Nat.div2 j) ltac:(lia)) as (A1 & A2 & A3). lra.
      + destruct (HN (Nat.div2 j) ltac:(lia)) as (A1 & A2 & A3 & A4). lra.
    - intros j Hj E. unfold ev. rewrite E. destruct (Par j) as [[E' _]|[_ E']]; [|congruence].
      destruct (HP (Nat.div2 j) ltac:(lia)) as (A1 & A2 & A3). lra.
    - intros j Hj. destruct (Par j) as [[E E']|[E E']]; [left; auto|right].
      rewrite Nat.even_succ, <- Nat.negb_even, E'. reflexivity.
    - intros j ->. reflexivity.
    - destruct (Hx rgt) as (x & X0 & X1 & _ & X3).
      exists (fun j => x (2 * j + 1)%nat), (fun j => x (2 * j + 2)%nat). split; intros j Hj.
      + unfold piece_row. specialize (X3 (2 * j)%nat ltac:(lia)). unfold ev in X3. rewrite E0, D0 in X3.
        replace (2 * j + 1)%nat with (S (2 * j)) by lia. replace (2 * j + 2)%nat with (S (S (2 * j))) by lia.
        rewrite <- X3. f_equal; [f_equal|].
        * destruct j as [|j]; [simpl; now rewrite X0|]. replace (2 * S j)%nat with (2 * j + 2)%nat by lia. reflexivity.
        * destruct (Nat.leb_spec j n) as [|]; auto. assert (j = n + 1)%nat as -> by lia.
          rewrite <- X1. do 2 f_equal. lia.
      + unfold node_row. specialize (X3 (2 * j + 1)%nat ltac:(lia)). unfold ev in X3. rewrite E1, D1 in X3.
        rewrite <- X3.
        replace (2 * j + 2)%nat with (S (2 * j + 1)) by lia. replace (2 * S j + 1)%nat with (S (S (2 * j + 1))) by lia. reflexivity.
  Qed.
End ChainSolvable.

Lemma sweep_U_pos a b c g ka la mu et n T U V W :
  (1 <= n)%nat ->
  (forall j, (j < n)%nat -> link_signs (a j) (b j) (c j)) ->
  (forall j, (S j < n)%nat -> node_signs (ka (S j)) (la (S j)) (mu (S j))) ->
  sweep a b c g ka la mu et n T U V W ->
  forall j, (j < n)%nat -> c j < 0 -> 0 < U j.
Proof.
  intros Hn HL HN HS j Hj Hc. pose proof (sweep_bounds _ _ _ _ _ _ _ _ _ _ _ _ _ HL HN HS Hn) as HB.
  destruct j as [|j].
  - rewrite (sw_U0 _ _ _ _ _ _ _ _ _ _ _ _ _ HS). destruct (HL 0%nat Hj) as (A1 & A2 & A3).
    rewrite safe_divide_nz by lra. apply Rmult_lt_0_compat; [lra|apply Rinv_0_lt_compat; lra].
  - destruct (HB j ltac:(lia)) as (_ & _ & _ & HP). destruct (HP Hj) as [P1 _].
    rewrite (sw_U _ _ _ _ _ _ _ _ _ _ _ _ _ HS) by auto. unfold q_U.
    rewrite safe_divide_nz by lra. apply Rmult_lt_0_compat; [lra|apply Rinv_0_lt_compat; lra].
Qed.
