From Verif Require Import Prelude M_Coeffs M_Recurrence S_Superlink L_Forward.

Section Bwd.
  Variables a b c P A E D : arr.

  (** What the arrays of one superlink satisfy after the sweep; [m] is the local number of the last link. *)
  Record bwd_eqs_from (i1 I1 n lo : nat) (s : bwd) : Prop := {
    be_O0 : bO s (i1 + n - 1)%nat = O_nk (a (i1 + n - 1)%nat) (b (i1 + n - 1)%nat) (c (i1 + n - 1)%nat);
    be_X0 : bX s (I1 + n - 1)%nat = X_Nk (A (i1 + n - 1)%nat) (E (I1 + n - 1)%nat) (a (i1 + n - 1)%nat) (bO s (i1 + n - 1)%nat);
    be_Y0 : bY s (I1 + n - 1)%nat = Y_Nk (P (i1 + n - 1)%nat) (D (I1 + n - 1)%nat) (a (i1 + n - 1)%nat) (bO s (i1 + n - 1)%nat)
                                         (c (i1 + n - 1)%nat) (D (I1 + n)%nat);
    be_Z0 : bZ s (I1 + n - 1)%nat = Z_Nk (A (i1 + n - 1)%nat) (bO s (i1 + n - 1)%nat) (c (i1 + n - 1)%nat) (E (I1 + n)%nat);
    be_O : forall j, (lo <= j)%nat -> (S j < n)%nat ->
      bO s (i1 + j)%nat = O_ik (a (i1 + j)%nat) (b (i1 + j)%nat) (c (i1 + j)%nat) (A (i1 + j)%nat)
                               (E (I1 + S j)%nat) (bX s (I1 + S j)%nat);
    be_X : forall j, (lo <= j)%nat -> (S j < n)%nat ->
      bX s (I1 + j)%nat = X_Ik (A (i1 + j)%nat) (E (I1 + j)%nat) (a (i1 + j)%nat) (bO s (i1 + j)%nat);
    be_Y : forall j, (lo <= j)%nat -> (S j < n)%nat ->
      Some (bY s (I1 + j)%nat) =
        Y_Ik (P (i1 + j)%nat) (a (i1 + j)%nat) (D (I1 + j)%nat) (D (I1 + S j)%nat) (c (i1 + j)%nat) (A (i1 + j)%nat)
             (E (I1 + S j)%nat) (bY s (I1 + S j)%nat) (bX s (I1 + S j)%nat) (bO s (i1 + j)%nat);
    be_Z : forall j, (lo <= j)%nat -> (S j < n)%nat ->
      bZ s (I1 + j)%nat = Z_Ik (A (i1 + j)%nat) (E (I1 + S j)%nat) (c (i1 + j)%nat) (bZ s (I1 + S j)%nat)
                               (bX s (I1 + S j)%nat) (bO s (i1 + j)%nat)
  }.
  Definition bwd_eqs i1 I1 n s := bwd_eqs_from i1 I1 n 0 s.

  Definition bwd_same_outside (i1 I1 n lo : nat) (s s' : bwd) : Prop :=
    (forall i, (i < i1 + lo \/ i1 + n <= i)%nat -> bO s' i = bO s i) /\
    (forall I, (I < I1 + lo \/ I1 + n <= I)%nat -> bX s' I = bX s I /\ bY s' I = bY s I /\ bZ s' I = bZ s I).

  Lemma bwd_eqs_ext i1 I1 n s s' :
    (1 <= n)%nat ->
    (forall i, (i1 <= i < i1 + n)%nat -> bO s' i = bO s i) ->
    (forall I, (I1 <= I < I1 + n)%nat -> bX s' I = bX s I /\ bY s' I = bY s I /\ bZ s' I = bZ s I) ->
    bwd_eqs i1 I1 n s -> bwd_eqs i1 I1 n s'.
  Proof.
    intros Hn HT HU [O0 X0 Y0 Z0 HO HX HY HZ].
    assert (EX : forall I, (I1 <= I < I1 + n)%nat -> bX s' I = bX s I) by (intros; apply HU; auto).
    assert (EY : forall I, (I1 <= I < I1 + n)%nat -> bY s' I = bY s I) by (intros; apply HU; auto).
    assert (EZ : forall I, (I1 <= I < I1 + n)%nat -> bZ s' I = bZ s I) by (intros; apply HU; auto).
    constructor.
    - rewrite HT by lia; auto.
    - rewrite EX, HT by lia; auto.
    - rewrite EY, HT by lia; auto.
    - rewrite EZ, HT by lia; auto.
    - intros j Hj Hj'. rewrite HT, EX by lia; auto.
    - intros j Hj Hj'. rewrite EX, HT by lia; auto.
    - intros j Hj Hj'. rewrite !EY, EX, HT by lia; auto.
    - intros j Hj Hj'. rewrite !EZ, EX, HT by lia; auto.
  Qed.

  Lemma backward_superlink_ok i1 I1 n s s' :
    (1 <= n)%nat -> backward_superlink a b c P A E D (i1 + n - 1) (I1 + n - 1) n s = Some s' ->
    bwd_eqs i1 I1 n s' /\ bwd_same_outside i1 I1 n 0 s s'.
  Proof.
    intros Hn Eq. unfold backward_superlink in Eq.
    set (Inv := fun m s' => bwd_eqs_from i1 I1 n (n - 1 - m) s' /\ bwd_same_outside i1 I1 n (n - 1 - m) s s').
    assert (HI : Inv (n - 1)%nat s').
    { eapply (for_opt_inv Inv); [| |exact Eq]; clear s' Eq.
      - unfold Inv, backward_first. split.
        + constructor; simpl; try (intros; lia); rewrite ?upd_eq; try reflexivity;
            replace (I1 + n - 1 + 1)%nat with (I1 + n)%nat by lia; reflexivity.
        + split; simpl; intros.
          * rewrite upd_neq; auto; lia.
          * rewrite !upd_neq; auto; lia.
      - intros m s1 s2 Hm [HE HS] Eq. unfold backward_next in Eq.
        set (j0 := (n - 1 - S m)%nat) in *.
        assert (Hj0 : (n - 1 - m = S j0)%nat) by (unfold j0; lia).
        replace (i1 + n - 1 - 1 - m)%nat with (i1 + j0)%nat in Eq by (unfold j0; lia).
        replace (I1 + n - 1 - 1 - m)%nat with (I1 + j0)%nat in Eq by (unfold j0; lia).
        replace (I1 + j0 + 1)%nat with (I1 + S j0)%nat in Eq by lia.
        rewrite Hj0 in HE, HS.
        match type of Eq with bind ?e _ = _ => destruct e as [v|] eqn:EV; simpl in Eq; [|discriminate] end.
        inversion Eq; subst s2; clear Eq. fold j0.
        assert (Hjn : (S j0 < n)%nat) by lia.
        split.
        + destruct HE as [O0 X0 Y0 Z0 HO HX HY HZ].
          constructor; simpl.
          * rewrite upd_neq by lia; auto.
          * rewrite !upd_neq by lia; auto.
          * rewrite !upd_neq by lia; auto.
          * rewrite !upd_neq by lia; auto.
          * intros j Hlo Hj. destruct (Nat.eq_dec j j0) as [->|].
            -- rewrite upd_eq, upd_neq by lia. reflexivity.
            -- rewrite !upd_neq by lia. apply HO; lia.
          * intros j Hlo Hj. destruct (Nat.eq_dec j j0) as [->|].
            -- rewrite !upd_eq. reflexivity.
            -- rewrite !upd_neq by lia. apply HX; lia.
          * intros j Hlo Hj. destruct (Nat.eq_dec j j0) as [->|].
            -- rewrite !upd_eq, !upd_neq by lia. symmetry; exact EV.
            -- rewrite !upd_neq by lia. apply HY; lia.
          * intros j Hlo Hj. destruct (Nat.eq_dec j j0) as [->|].
            -- rewrite !upd_eq, !upd_neq by lia. reflexivity.
            -- rewrite !upd_neq by lia. apply HZ; lia.
        + destruct HS as [HS1 HS2]. split; simpl.
          * intros i Hi. rewrite upd_neq by lia. apply HS1; lia.
          * intros I HI. rewrite !upd_neq by lia. apply HS2; lia. }
    unfold Inv in HI. replace (n - 1 - (n - 1))%nat with 0%nat in HI by lia. exact HI.
  Qed.

  Lemma backward_recurrence_ok s NK nk i_1k I_1k I_Nk i_nk s' :
    layout NK nk i_1k I_1k ->
    (forall k, (k < NK)%nat -> i_nk k = (i_1k k + nk k - 1)%nat /\ I_Nk k = (I_1k k + nk k - 1)%nat) ->
    numba_backward_recurrence s a b c P A E D NK nk I_Nk i_nk = Some s' ->
    forall k, (k < NK)%nat -> bwd_eqs (i_1k k) (I_1k k) (nk k) s'.
  Proof.
    intros [Hn Hl] Hend Eq. unfold numba_backward_recurrence in Eq.
    pose (Inv := fun m (s' : bwd) => forall k, (k < m)%nat -> bwd_eqs (i_1k k) (I_1k k) (nk k) s').
    assert (HI : Inv NK s').
    { eapply (for_opt_inv Inv); [| |exact Eq]; clear s' Eq.
      - intros k Hk; lia.
      - intros m s1 s2 Hm HI Eq k Hk.
        destruct (Hend m Hm) as [E1 E2]. cbv beta in Eq. rewrite E1, E2 in Eq.
        destruct (backward_superlink_ok _ _ _ _ _ (Hn m Hm) Eq) as [HE [HS1 HS2]].
        destruct (Nat.eq_dec k m) as [->|]; auto.
        destruct (Hl k m) as [L1 L2]; [lia|lia|].
        apply (bwd_eqs_ext _ _ _ s1); [apply Hn; lia| | |apply HI; lia].
        + intros i Hi. apply HS1. lia.
        + intros I HI'. apply HS2. lia. }
    exact HI.
  Qed.

  (** Exactness of the sweep. *)
  Lemma backward_exact i1 I1 n s Q h :
    (1 <= n)%nat ->
    bwd_eqs i1 I1 n s ->
    (forall j, (j < n)%nat -> bO s (i1 + j)%nat <> 0) ->
    superlink_solution a b c P A E D i1 I1 n Q h ->
    forall j, (j < n)%nat ->
      Q (j + 1)%nat = bX s (I1 + j)%nat * h j + bY s (I1 + j)%nat + bZ s (I1 + j)%nat * h n.
  Proof.
    intros Hn [O0 X0 Y0 Z0 HO HX HY HZ] Hp [HM HC].
    unfold momentum in HM. change 9.81 with g in HM.
    assert (G : forall m, (m < n)%nat -> let j := (n - 1 - m)%nat in
      Q (j + 1)%nat = bX s (I1 + j)%nat * h j + bY s (I1 + j)%nat + bZ s (I1 + j)%nat * h n).
    2:{ intros j Hj. specialize (G (n - 1 - j)%nat ltac:(lia)). simpl in G.
        replace (n - 1 - (n - 1 - j))%nat with j in G by lia. exact G. }
    induction m as [|m IH]; intros Hm j.
    - assert (Hj : (j = n - 1)%nat) by (unfold j; lia).
      pose proof (HM j ltac:(lia)) as M. pose proof (HC j ltac:(lia)) as C0. pose proof (HC (j + 1)%nat ltac:(lia)) as C1.
      specialize (Hp j ltac:(lia)).
      replace (i1 + n - 1)%nat with (i1 + j)%nat in * by lia.
      replace (I1 + n - 1)%nat with (I1 + j)%nat in * by lia.
      replace (I1 + (j + 1))%nat with (I1 + n)%nat in * by lia.
      replace (j + 1 + 1)%nat with (j + 2)%nat in * by lia.
      assert (En : h n = h (j + 1)%nat) by (f_equal; lia). rewrite En.
      rewrite O0 in Hp, X0, Y0, Z0. unfold O_nk in *.
      rewrite X0, Y0, Z0. unfold X_Nk, Y_Nk, Z_Nk. rewrite !safe_divide_nz by auto.
      assert (EQ : (a (i1 + j)%nat + b (i1 + j)%nat + c (i1 + j)%nat) * Q (j + 1)%nat
                   = (g * A (i1 + j)%nat - E (I1 + j)%nat * a (i1 + j)%nat) * h j
                     + (P (i1 + j)%nat + D (I1 + j)%nat * a (i1 + j)%nat - D (I1 + n)%nat * c (i1 + j)%nat)
                     + (E (I1 + n)%nat * c (i1 + j)%nat - g * A (i1 + j)%nat) * h (j + 1)%nat).
      { replace (Q j) with (Q (j + 1)%nat + (E (I1 + j)%nat * h j - D (I1 + j)%nat)) in M by lra.
        replace (Q (j + 2)%nat) with (Q (j + 1)%nat - E (I1 + n)%nat * h (j + 1)%nat + D (I1 + n)%nat) in M by lra.
        lra. }
      apply Rmult_eq_reg_l with (a (i1 + j)%nat + b (i1 + j)%nat + c (i1 + j)%nat); auto. rewrite EQ. field. auto.
    - specialize (IH ltac:(lia)). simpl in IH.
      replace (n - 1 - m)%nat with (S j) in IH by (unfold j; lia).
      assert (Hj : (S j < n)%nat) by (unfold j; lia).
      pose proof (HM j ltac:(lia)) as M. pose proof (HC j ltac:(lia)) as C0. pose proof (HC (S j) ltac:(lia)) as C1.
      specialize (Hp j ltac:(lia)). specialize (HO j ltac:(lia) Hj). specialize (HX j ltac:(lia) Hj).
      specialize (HY j ltac:(lia) Hj). specialize (HZ j ltac:(lia) Hj).
      unfold Y_Ik in HY.
      destruct (div _ _) as [q|] eqn:Ed in HY; simpl in HY; [|discriminate].
      apply div_some in Ed. destruct Ed as [Hd Eqq]. inversion HY as [HY']; clear HY.
      replace (j + 1)%nat with (S j) in * by lia.
      replace (j + 2)%nat with (S (S j)) in * by lia.
      replace (S j + 1)%nat with (S (S j)) in * by lia.
      unfold X_Ik, Z_Ik, O_ik in *.
      rewrite safe_divide_nz in HO by auto. rewrite safe_divide_nz in HX by auto.
      rewrite safe_divide_nz in HY' by auto.
      rewrite safe_divide_nz in HZ by (apply Rmult_integral_contrapositive; auto).
      rewrite HX, HY', HZ.
      set (o := bO s (i1 + j)%nat) in *.
      set (X := bX s (I1 + S j)%nat) in *. set (Y := bY s (I1 + S j)%nat) in *. set (Z := bZ s (I1 + S j)%nat) in *.
      set (e := E (I1 + j)%nat) in *. set (d := D (I1 + j)%nat) in *.
      set (e' := E (I1 + S j)%nat) in *. set (d' := D (I1 + S j)%nat) in *.
      set (ai := a (i1 + j)%nat) in *. set (bi := b (i1 + j)%nat) in *. set (ci := c (i1 + j)%nat) in *.
      set (Ai := A (i1 + j)%nat) in *. set (Pi := P (i1 + j)%nat) in *.
      set (h1 := h j) in *. set (h2 := h (S j)) in *. set (hn := h n) in *.
      set (Q0 := Q j) in *. set (Q1 := Q (S j)) in *. set (Q2 := Q (S (S j))) in *.
      assert (Eh2 : (X + e') * h2 = Q1 - Y - Z * hn + d') by lra.
      assert (EQ : o * Q1 = (g * Ai - e * ai) * h1 + (Pi + ai * d - d' * ci - (g * Ai - e' * ci) * (d' - Y) / (X + e'))
                            + (g * Ai - e' * ci) * Z / (X + e') * hn).
      { rewrite HO.
        assert (Eg : (g * Ai - e' * ci) * h2
                     = (g * Ai - e' * ci) / (X + e') * (Q1 - Y - Z * hn + d')) by (rewrite <- Eh2; field; auto).
        replace ((g * Ai - e' * ci) * (d' - Y) / (X + e')) with ((g * Ai - e' * ci) / (X + e') * (d' - Y)) by (field; auto).
        replace ((g * Ai - e' * ci) * Z / (X + e') * hn) with ((g * Ai - e' * ci) / (X + e') * (Z * hn)) by (field; auto).
        set (r := (g * Ai - e' * ci) / (X + e')) in *.
        replace Q2 with (Q1 - e' * h2 + d') in M by lra.
        replace Q0 with (Q1 + (e * h1 - d)) in M by lra.
        lra. }
      rewrite Eqq. apply Rmult_eq_reg_l with o; auto. rewrite EQ. field. split; auto.
  Qed.
End Bwd.
