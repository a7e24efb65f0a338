From Verif Require Import Prelude M_Coeffs M_Recurrence S_Superlink.

Lemma safe_divide_nz num den : den <> 0 -> safe_divide num den = num / den.
Proof. intros H; unfold safe_divide; destruct (Reqb_spec den 0); [contradiction|reflexivity]. Qed.

Lemma div_some x y q : div x y = Some q -> y <> 0 /\ q = x / y.
Proof. unfold div; destruct (Reqb_spec y 0); intros H; inversion H; auto. Qed.

Lemma div_nz x y : y <> 0 -> div x y = Some (x / y).
Proof. intros; unfold div; destruct (Reqb_spec y 0); [contradiction|auto]. Qed.

Section Fwd.
  Variables a b c P A E D : arr.

  (** What the arrays of one superlink satisfy after the sweep. *)
  Record fwd_eqs (i1 I1 n : nat) (s : fwd) : Prop := {
    fe_T0 : fT s i1 = T_1k (a i1) (b i1) (c i1);
    fe_U0 : fU s I1 = U_1k (E (I1 + 1)%nat) (c i1) (A i1) (fT s i1);
    fe_V0 : fV s I1 = V_1k (P i1) (D (I1 + 1)%nat) (c i1) (fT s i1) (a i1) (D I1);
    fe_W0 : fW s I1 = W_1k (A i1) (fT s i1) (a i1) (E I1);
    fe_T : forall j, (S j < n)%nat ->
      fT s (i1 + S j)%nat = T_ik (a (i1 + S j)%nat) (b (i1 + S j)%nat) (c (i1 + S j)%nat)
                                 (A (i1 + S j)%nat) (E (I1 + S j)%nat) (fU s (I1 + j)%nat);
    fe_U : forall j, (S j < n)%nat ->
      fU s (I1 + S j)%nat = U_Ik (E (I1 + S (S j))%nat) (c (i1 + S j)%nat) (A (i1 + S j)%nat) (fT s (i1 + S j)%nat);
    fe_V : forall j, (S j < n)%nat ->
      Some (fV s (I1 + S j)%nat) =
        V_Ik (P (i1 + S j)%nat) (a (i1 + S j)%nat) (D (I1 + S j)%nat) (D (I1 + S (S j))%nat) (c (i1 + S j)%nat)
             (A (i1 + S j)%nat) (E (I1 + S j)%nat) (fV s (I1 + j)%nat) (fU s (I1 + j)%nat) (fT s (i1 + S j)%nat);
    fe_W : forall j, (S j < n)%nat ->
      fW s (I1 + S j)%nat = W_Ik (A (i1 + S j)%nat) (E (I1 + S j)%nat) (a (i1 + S j)%nat) (fW s (I1 + j)%nat)
                                 (fU s (I1 + j)%nat) (fT s (i1 + S j)%nat)
  }.

  Definition fwd_same_outside (i1 I1 n : nat) (s s' : fwd) : Prop :=
    (forall i, (i < i1 \/ i1 + n <= i)%nat -> fT s' i = fT s i) /\
    (forall I, (I < I1 \/ I1 + n <= I)%nat -> fU s' I = fU s I /\ fV s' I = fV s I /\ fW s' I = fW s I).

  Lemma fwd_eqs_ext i1 I1 n s s' :
    (1 <= n)%nat ->
    (forall i, (i1 <= i < i1 + n)%nat -> fT s' i = fT s i) ->
    (forall I, (I1 <= I < I1 + n)%nat -> fU s' I = fU s I /\ fV s' I = fV s I /\ fW s' I = fW s I) ->
    fwd_eqs i1 I1 n s -> fwd_eqs i1 I1 n s'.
  Proof.
    intros Hn HT HU [T0 U0 V0 W0 HTs HUs HVs HWs].
    assert (EU : forall I, (I1 <= I < I1 + n)%nat -> fU s' I = fU s I) by (intros; apply HU; auto).
    assert (EV : forall I, (I1 <= I < I1 + n)%nat -> fV s' I = fV s I) by (intros; apply HU; auto).
    assert (EW : forall I, (I1 <= I < I1 + n)%nat -> fW s' I = fW s I) by (intros; apply HU; auto).
    constructor.
    - rewrite HT by lia; auto.
    - rewrite EU, HT by lia; auto.
    - rewrite EV, HT by lia; auto.
    - rewrite EW, HT by lia; auto.
    - intros j Hj. rewrite HT, EU by lia; auto.
    - intros j Hj. rewrite EU, HT by lia; auto.
    - intros j Hj. rewrite !EV, EU, HT by lia; auto.
    - intros j Hj. rewrite !EW, EU, HT by lia; auto.
  Qed.

  Lemma forward_superlink_ok i1 I1 n s s' :
    (1 <= n)%nat -> forward_superlink a b c P A E D i1 I1 n s = Some s' ->
    fwd_eqs i1 I1 n s' /\ fwd_same_outside i1 I1 n s s'.
  Proof.
    intros Hn Eq. unfold forward_superlink in Eq.
    set (Inv := fun m s' => fwd_eqs i1 I1 (S m) s' /\ fwd_same_outside i1 I1 (S m) s s').
    assert (HI : Inv (n - 1)%nat s').
    { eapply (for_opt_inv Inv); [| |exact Eq]; clear s' Eq.
      - unfold Inv, forward_first. split.
        + constructor; simpl; try (intros; lia); rewrite ?upd_eq; reflexivity.
        + split; simpl; intros.
          * rewrite upd_neq; auto; lia.
          * rewrite !upd_neq; auto; lia.
      - intros m s1 s2 Hm [HE HS] Eq. unfold forward_next in Eq.
        replace (i1 + 1 + m)%nat with (i1 + S m)%nat in Eq by lia.
        replace (I1 + 1 + m)%nat with (I1 + S m)%nat in Eq by lia.
        replace (I1 + S m - 1)%nat with (I1 + m)%nat in Eq by lia.
        replace (I1 + S m + 1)%nat with (I1 + S (S m))%nat in Eq by lia.
        match type of Eq with bind ?e _ = _ => destruct e as [v|] eqn:EV; simpl in Eq; [|discriminate] end.
        inversion Eq; subst s2; clear Eq.
        split.
        + destruct HE as [T0 U0 V0 W0 HTs HUs HVs HWs].
          constructor; simpl.
          * rewrite upd_neq by lia; auto.
          * rewrite !upd_neq by lia; auto.
          * rewrite !upd_neq by lia; auto.
          * rewrite !upd_neq by lia; auto.
          * intros j Hj. destruct (Nat.eq_dec j m) as [->|].
            -- rewrite upd_eq, upd_neq by lia. reflexivity.
            -- rewrite !upd_neq by lia. apply HTs; lia.
          * intros j Hj. destruct (Nat.eq_dec j m) as [->|].
            -- rewrite !upd_eq. reflexivity.
            -- rewrite !upd_neq by lia. apply HUs; lia.
          * intros j Hj. destruct (Nat.eq_dec j m) as [->|].
            -- rewrite !upd_eq, !upd_neq by lia. symmetry; exact EV.
            -- rewrite !upd_neq by lia. apply HVs; lia.
          * intros j Hj. destruct (Nat.eq_dec j m) as [->|].
            -- rewrite !upd_eq, !upd_neq by lia. reflexivity.
            -- rewrite !upd_neq by lia. apply HWs; lia.
        + destruct HS as [HS1 HS2]. split; simpl.
          * intros i Hi. rewrite upd_neq by lia. apply HS1; lia.
          * intros I HI. rewrite !upd_neq by lia. apply HS2; lia. }
    unfold Inv in HI. replace (S (n - 1))%nat with n in HI by lia. exact HI.
  Qed.

  Lemma forward_recurrence_ok s NK nk I_1k i_1k s' :
    layout NK nk i_1k I_1k ->
    numba_forward_recurrence s a b c P A E D NK nk I_1k i_1k = Some s' ->
    forall k, (k < NK)%nat -> fwd_eqs (i_1k k) (I_1k k) (nk k) s'.
  Proof.
    intros [Hn Hl] Eq. unfold numba_forward_recurrence in Eq.
    pose (Inv := fun m (s' : fwd) => forall k, (k < m)%nat -> fwd_eqs (i_1k k) (I_1k k) (nk k) s').
    assert (HI : Inv NK s').
    { eapply (for_opt_inv Inv); [| |exact Eq]; clear s' Eq.
      - intros k Hk; lia.
      - intros m s1 s2 Hm HI Eq k Hk.
        destruct (forward_superlink_ok _ _ _ _ _ (Hn m Hm) Eq) as [HE [HS1 HS2]].
        destruct (Nat.eq_dec k m) as [->|]; auto.
        destruct (Hl k m) as [L1 L2]; [lia|lia|].
        apply (fwd_eqs_ext _ _ _ s1); [apply Hn; lia| | |apply HI; lia].
        + intros i Hi. apply HS1. lia.
        + intros I HI'. apply HS2. lia. }
    exact HI.
  Qed.

  (** Exactness of the sweep. *)
  Lemma forward_exact i1 I1 n s Q h :
    fwd_eqs i1 I1 n s ->
    (forall j, (j < n)%nat -> fT s (i1 + j)%nat <> 0) ->
    superlink_solution a b c P A E D i1 I1 n Q h ->
    forall j, (j < n)%nat ->
      Q (j + 1)%nat = fU s (I1 + j)%nat * h (j + 1)%nat + fV s (I1 + j)%nat + fW s (I1 + j)%nat * h 0%nat.
  Proof.
    intros [T0 U0 V0 W0 HT HU HV HW] Hp [HM HC].
    fold g in HM. unfold momentum in HM. change 9.81 with g in HM.
    induction j as [|j IH]; intros Hj.
    - pose proof (HM 0%nat Hj) as M. pose proof (HC 0%nat ltac:(lia)) as C0. pose proof (HC 1%nat ltac:(lia)) as C1.
      specialize (Hp 0%nat Hj).
      rewrite !Nat.add_0_r in *. simpl Nat.add in *.
      rewrite T0 in Hp, U0, V0, W0. unfold T_1k in *.
      rewrite U0, V0, W0. unfold U_1k, V_1k, W_1k. rewrite !safe_divide_nz by auto.
      assert (EQ : (a i1 + b i1 + c i1) * Q 1%nat
                   = (E (I1 + 1)%nat * c i1 - g * A i1) * h 1%nat
                     + (P i1 - D (I1 + 1)%nat * c i1 + D I1 * a i1) + (g * A i1 - E I1 * a i1) * h 0%nat).
      { replace (Q 0%nat) with (Q 1%nat + (E I1 * h 0%nat - D I1)) in M by lra.
        replace (Q 2%nat) with (Q 1%nat - E (I1 + 1)%nat * h 1%nat + D (I1 + 1)%nat) in M by lra.
        lra. }
      apply Rmult_eq_reg_l with (a i1 + b i1 + c i1); auto. rewrite EQ. field. auto.
    - specialize (IH ltac:(lia)).
      pose proof (HM (S j) Hj) as M. pose proof (HC (S j) ltac:(lia)) as C0. pose proof (HC (S (S j)) ltac:(lia)) as C1.
      specialize (Hp (S j) Hj). specialize (HT j Hj). specialize (HU j Hj). specialize (HV j Hj). specialize (HW j Hj).
      unfold V_Ik in HV.
      destruct (div _ _) as [q|] eqn:Ed in HV; simpl in HV; [|discriminate].
      apply div_some in Ed. destruct Ed as [Hd Eqq]. inversion HV as [HV']; clear HV.
      replace (S j + 1)%nat with (S (S j)) in * by lia.
      replace (S j + 2)%nat with (S (S (S j))) in * by lia.
      replace (S (S j) + 1)%nat with (S (S (S j))) in * by lia.
      replace (j + 1)%nat with (S j) in * by lia.
      unfold U_Ik, W_Ik, T_ik in *.
      rewrite safe_divide_nz in HT by auto. rewrite safe_divide_nz in HU by auto.
      rewrite safe_divide_nz in HV' by auto.
      rewrite safe_divide_nz in HW by (apply Rmult_integral_contrapositive; auto).
      rewrite HU, HV', HW.
      set (t := fT s (i1 + S j)%nat) in *.
      set (U := fU s (I1 + j)%nat) in *. set (V := fV s (I1 + j)%nat) in *. set (W := fW s (I1 + j)%nat) in *.
      set (e := E (I1 + S j)%nat) in *. set (d := D (I1 + S j)%nat) in *.
      set (e' := E (I1 + S (S j))%nat) in *. set (d' := D (I1 + S (S j))%nat) in *.
      set (ai := a (i1 + S j)%nat) in *. set (bi := b (i1 + S j)%nat) in *. set (ci := c (i1 + S j)%nat) in *.
      set (Ai := A (i1 + S j)%nat) in *. set (Pi := P (i1 + S j)%nat) in *.
      set (h1 := h (S j)) in *. set (h2 := h (S (S j))) in *. set (h0 := h 0%nat) in *.
      set (Q0 := Q (S j)) in *. set (Q1 := Q (S (S j))) in *. set (Q2 := Q (S (S (S j)))) in *.
      (* eliminate h1: from continuity and the previous relation *)
      assert (Eh1 : (U - e) * h1 = Q1 - V - W * h0 - d) by lra.
      assert (EQ : t * Q1 = (e' * ci - g * Ai) * h2 + (Pi + ai * d - d' * ci - (g * Ai - e * ai) * (V + d) / (U - e))
                            - (g * Ai - e * ai) * W / (U - e) * h0).
      { rewrite HT. replace (Q2) with (Q1 - e' * h2 + d') in M by lra.
        assert (Eg : (g * Ai - e * ai) * h1
                     = (g * Ai - e * ai) / (U - e) * (Q1 - V - W * h0 - d)) by (rewrite <- Eh1; field; auto).
        replace ((g * Ai - e * ai) * (V + d) / (U - e)) with ((g * Ai - e * ai) / (U - e) * (V + d)) by (field; auto).
        replace ((g * Ai - e * ai) * W / (U - e) * h0) with ((g * Ai - e * ai) / (U - e) * (W * h0)) by (field; auto).
        set (r := (g * Ai - e * ai) / (U - e)) in *.
        replace Q0 with (Q1 + (e * h1 - d)) in M by lra.
        lra. }
      rewrite Eqq. apply Rmult_eq_reg_l with t; auto. rewrite EQ. field. split; auto.
  Qed.
End Fwd.
