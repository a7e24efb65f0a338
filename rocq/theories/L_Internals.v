From Verif Require Import Prelude M_Coeffs M_Recurrence S_Superlink L_Forward L_Backward L_Pivots.

Section Internals.
  Variables a b c P A E D : arr.

  (** *** Existence of a solution for any pair of end depths *)
  Section Exist.
    Variables i1 I1 n : nat.
    Variable s : fwd.
    Variables h_1 h_e : R.
    Hypothesis Hn : (1 <= n)%nat.
    Hypothesis HE : fwd_eqs a b c P A E D i1 I1 n s.
    Hypothesis HP : forall j, (j < n)%nat -> fT s (i1 + j)%nat <> 0.

    Let U j := fU s (I1 + j)%nat.
    Let V j := fV s (I1 + j)%nat.
    Let W j := fW s (I1 + j)%nat.

    Fixpoint down (m : nat) : R :=
      match m with
      | O => h_e
      | S m' => let j := (n - m')%nat in
                (U (j - 1) * down m' + V (j - 1) + W (j - 1) * h_1 - V (j - 2) - W (j - 2) * h_1 - D (I1 + (j - 1))%nat)
                / (U (j - 2) - E (I1 + (j - 1))%nat)
      end.
    Let hs (j : nat) : R := if Nat.eqb j 0 then h_1 else down (n - j).
    Let Qi (j : nat) : R := U (j - 1) * hs j + V (j - 1) + W (j - 1) * h_1.
    Let Qs (j : nat) : R :=
      if Nat.eqb j 0 then Qi 1 + E I1 * hs 0 - D I1
      else if Nat.leb j n then Qi j
      else Qi n - E (I1 + n)%nat * hs n + D (I1 + n)%nat.

    Lemma hs_rel j : (1 <= j)%nat -> (j < n)%nat ->
      U (j - 1) - E (I1 + j)%nat <> 0 /\
      (U (j - 1) - E (I1 + j)%nat) * hs j = Qi (j + 1) - V (j - 1) - W (j - 1) * h_1 - D (I1 + j)%nat.
    Proof.
      intros H1 H2.
      assert (Hd : U (j - 1) - E (I1 + j)%nat <> 0).
      { destruct HE as [_ _ _ _ _ _ HV _]. specialize (HV (j - 1)%nat ltac:(lia)). unfold V_Ik in HV.
        replace (S (j - 1))%nat with j in HV by lia.
        destruct (div _ _) as [q|] eqn:Ed in HV; [|discriminate]. apply div_some in Ed. apply Ed. }
      split; auto.
      assert (Ej : hs j = down (S (n - j - 1))).
      { unfold hs. destruct (Nat.eqb_spec j 0); [lia|]. f_equal; lia. }
      rewrite Ej. cbn [down]. replace (n - (n - j - 1))%nat with (j + 1)%nat by lia.
      assert (Ej' : hs (j + 1) = down (n - j - 1)).
      { unfold hs. destruct (Nat.eqb_spec (j + 1) 0); [lia|]. f_equal; lia. }
      replace (j + 1 - 2)%nat with (j - 1)%nat by lia. replace (j + 1 - 1)%nat with j by lia.
      unfold Qi. rewrite Ej'. replace (j + 1 - 1)%nat with j by lia. field. auto.
    Qed.

    Lemma solution_exists : superlink_solution a b c P A E D i1 I1 n Qs hs /\ hs 0 = h_1 /\ hs n = h_e.
    Proof.
      split; [|split; [reflexivity|]].
      2:{ unfold hs. destruct (Nat.eqb_spec n 0); [lia|]. rewrite Nat.sub_diag. reflexivity. }
      assert (HC : continuity E D I1 n Qs hs).
      { intros j Hj. destruct (Nat.eq_dec j 0) as [->|Hj0].
        - rewrite !Nat.add_0_r. unfold Qs. simpl Nat.eqb. simpl Nat.add.
          destruct (Nat.leb_spec 1 n); [|lia]. lra.
        - destruct (Nat.eq_dec j n) as [->|Hjn].
          + unfold Qs. destruct (Nat.eqb_spec n 0); [lia|]. rewrite Nat.leb_refl.
            destruct (Nat.eqb_spec (n + 1) 0); [lia|]. destruct (Nat.leb_spec (n + 1) n); [lia|]. lra.
          + destruct (hs_rel j) as [Hd R]; [lia|lia|].
            unfold Qs. destruct (Nat.eqb_spec j 0); [lia|]. destruct (Nat.leb_spec j n); [|lia].
            destruct (Nat.eqb_spec (j + 1) 0); [lia|]. destruct (Nat.leb_spec (j + 1) n); [|lia].
            unfold Qi at 1. lra. }
      split; auto.
      intros j Hj. change 9.81 with g.
      pose proof (HC j ltac:(lia)) as C0. pose proof (HC (j + 1)%nat ltac:(lia)) as C1.
      replace (j + 1 + 1)%nat with (j + 2)%nat in C1 by lia.
      assert (EQ : Qs (j + 1) = U j * hs (j + 1) + V j + W j * h_1).
      { unfold Qs. destruct (Nat.eqb_spec (j + 1) 0); [lia|]. destruct (Nat.leb_spec (j + 1) n); [|lia].
        unfold Qi. now replace (j + 1 - 1)%nat with j by lia. }
      assert (E0 : Qs j = Qs (j + 1) + (E (I1 + j)%nat * hs j - D (I1 + j)%nat)) by lra.
      assert (E2 : Qs (j + 2) = Qs (j + 1) - E (I1 + (j + 1))%nat * hs (j + 1) + D (I1 + (j + 1))%nat) by lra.
      rewrite E0, E2.
      destruct HE as [T0 U0 V0 W0 HT HU HV HW].
      specialize (HP j Hj).
      destruct j as [|j].
      - rewrite !Nat.add_0_r in *. simpl Nat.add in *.
        assert (EV : fT s i1 * Qs 1 = (E (I1 + 1)%nat * c i1 - g * A i1) * hs 1
                     + (P i1 - D (I1 + 1)%nat * c i1 + D I1 * a i1) + (g * A i1 - E I1 * a i1) * hs 0).
        { rewrite EQ. unfold U, V, W. rewrite !Nat.add_0_r, U0, V0, W0. unfold U_1k, V_1k, W_1k.
          rewrite !safe_divide_nz by auto. change (hs 0) with h_1. field. auto. }
        rewrite T0 in EV. unfold T_1k in EV. lra.
      - replace (S j + 1)%nat with (S (S j)) in * by lia. replace (S j + 2)%nat with (S (S (S j))) in * by lia.
        destruct (hs_rel (S j)) as [Hd R]; [lia|lia|].
        replace (S j + 1)%nat with (S (S j)) in R by lia. replace (S j - 1)%nat with j in * by lia.
        assert (EQi : Qi (S (S j)) = Qs (S (S j))).
        { unfold Qs. destruct (Nat.eqb_spec (S (S j)) 0); [lia|]. destruct (Nat.leb_spec (S (S j)) n); [|lia]. reflexivity. }
        rewrite EQi in R.
        specialize (HT j Hj). specialize (HU j Hj). specialize (HV j Hj). specialize (HW j Hj).
        unfold V_Ik in HV.
        rewrite div_nz in HV by exact Hd. simpl in HV. inversion HV as [HV']; clear HV.
        unfold U_Ik, W_Ik, T_ik in *.
        rewrite safe_divide_nz in HT by exact Hd. rewrite safe_divide_nz in HU by auto.
        rewrite safe_divide_nz in HV' by auto.
        rewrite safe_divide_nz in HW by (apply Rmult_integral_contrapositive; split; [exact Hd|auto]).
        fold (U j) in HT, HV', HW. fold (V j) in HV'. fold (W j) in HW.
        change (fU s (I1 + S j)%nat) with (U (S j)) in HU. change (fV s (I1 + S j)%nat) with (V (S j)) in HV'.
        change (fW s (I1 + S j)%nat) with (W (S j)) in HW.
        rewrite HU, HV', HW in EQ.
        set (t := fT s (i1 + S j)%nat) in *.
        set (r := (g * A (i1 + S j)%nat - E (I1 + S j)%nat * a (i1 + S j)%nat) / (U j - E (I1 + S j)%nat)) in *.
        assert (EV : t * Qs (S (S j)) =
          (E (I1 + S (S j))%nat * c (i1 + S j)%nat - g * A (i1 + S j)%nat) * hs (S (S j))
          + (P (i1 + S j)%nat + a (i1 + S j)%nat * D (I1 + S j)%nat - D (I1 + S (S j))%nat * c (i1 + S j)%nat
             - r * (V j + D (I1 + S j)%nat)) - r * (W j * h_1)).
        { rewrite EQ. unfold r. field. split; auto. }
        assert (Er : r * ((U j - E (I1 + S j)%nat) * hs (S j))
                     = (g * A (i1 + S j)%nat - E (I1 + S j)%nat * a (i1 + S j)%nat) * hs (S j))
          by (unfold r; field; exact Hd).
        rewrite R in Er. rewrite HT in EV. lra.
    Qed.
  End Exist.

  Lemma superlink_solution_exists i1 I1 n s h_1 h_e :
    (1 <= n)%nat -> fwd_eqs a b c P A E D i1 I1 n s ->
    (forall j, (j < n)%nat -> fT s (i1 + j)%nat <> 0) ->
    exists Q h, superlink_solution a b c P A E D i1 I1 n Q h /\ h 0%nat = h_1 /\ h n = h_e.
  Proof. intros Hn HE HP. pose proof (solution_exists i1 I1 n s h_1 h_e Hn HE HP) as X. eexists _, _. exact X. Qed.

  (** *** The reconstruction computes that solution *)
  Lemma limit_depth_id lo hi x : lo <= x <= hi -> limit_depth lo hi x = x.
  Proof. intros H. unfold limit_depth. destruct (Rltb_spec x lo); [lra|]. destruct (Rltb_spec hi x); lra. Qed.

  Lemma limit_depth_range lo hi x : lo <= hi -> lo <= limit_depth lo hi x <= hi.
  Proof. intros H. unfold limit_depth. destruct (Rltb_spec x lo); [destruct (Rltb_spec hi lo)|destruct (Rltb_spec hi x)]; lra. Qed.

  Lemma internals_superlink_correct i1 I1 n f bw Q h lo hi back h0 Q0 h' Q' :
    (1 <= n)%nat ->
    fwd_eqs a b c P A E D i1 I1 n f -> bwd_eqs a b c P A E D i1 I1 n bw ->
    (forall j, (j < n)%nat -> fT f (i1 + j)%nat <> 0) ->
    (forall j, (j < n)%nat -> bO bw (i1 + j)%nat <> 0) ->
    (forall j, (1 <= j)%nat -> (j < n)%nat -> bX bw (I1 + j)%nat <> 0) ->
    superlink_solution a b c P A E D i1 I1 n Q h ->
    (forall j, (1 <= j)%nat -> (j < n)%nat -> lo <= h j <= hi) ->
    internals_superlink f bw (h 0%nat) (h n) i1 I1 n lo hi back (h0, Q0) = (h', Q') ->
    (forall j, (j <= n)%nat -> h' (I1 + j)%nat = h j) /\
    (forall j, (j < n)%nat -> Q' (i1 + j)%nat = Q (j + 1)%nat) /\
    (forall I, (I < I1 \/ I1 + n < I)%nat -> h' I = h0 I) /\
    (forall i, (i < i1 \/ i1 + n <= i)%nat -> Q' i = Q0 i).
  Proof.
    intros Hn HF HB HT HO HX HS Hlim Eq.
    pose proof (forward_exact a b c P A E D i1 I1 n f Q h HF HT HS) as XF.
    pose proof (backward_exact a b c P A E D i1 I1 n bw Q h Hn HB HO HS) as XB.
    unfold internals_superlink in Eq.
    set (body := fun j s => internals_next f bw (h 0%nat) (h n) lo hi (i1 + n - 1 - j) (I1 + n - 1 - j) s) in Eq.
    set (hinit := upd (upd h0 I1 (h 0%nat)) (I1 + n) (h n)) in Eq.
    destruct (for_n (n - 1) body (hinit, Q0)) as [h1 Q1] eqn:EL.
    pose (Inv := fun m (s : arr * arr) =>
      (forall j, (j = 0 \/ n - m <= j)%nat -> (j <= n)%nat -> fst s (I1 + j)%nat = h j) /\
      (forall j, (n - m <= j)%nat -> (j < n)%nat -> snd s (i1 + j)%nat = Q (j + 1)%nat) /\
      (forall I, (I < I1 \/ I1 + n < I)%nat -> fst s I = h0 I) /\
      (forall i, (i < i1 \/ i1 + n <= i)%nat -> snd s i = Q0 i)).
    assert (HI : Inv (n - 1)%nat (h1, Q1)).
    { rewrite <- EL. apply for_n_inv.
      - unfold Inv, hinit; simpl. split; [|split; [intros; lia|split]].
        + intros j Hj Hjn. destruct (Nat.eq_dec j n) as [->|].
          * now rewrite upd_eq.
          * rewrite upd_neq by lia. replace j with 0%nat by lia. rewrite Nat.add_0_r. now rewrite upd_eq.
        + intros I HI. rewrite !upd_neq by lia. reflexivity.
        + reflexivity.
      - intros m [hm Qm] Hm (I1' & I2' & I3' & I4'). simpl in *. unfold body, internals_next.
        set (j0 := (n - 1 - m)%nat).
        replace (i1 + n - 1 - m)%nat with (i1 + j0)%nat by (unfold j0; lia).
        replace (I1 + n - 1 - m)%nat with (I1 + j0)%nat by (unfold j0; lia).
        replace (I1 + j0 + 1)%nat with (I1 + (j0 + 1))%nat by lia.
        assert (Hj0 : (1 <= j0 < n)%nat) by (unfold j0; lia).
        rewrite I1' by lia. rewrite upd_eq.
        assert (EQf : Q_i_f (h (j0 + 1)%nat) (h 0%nat) (fU f (I1 + j0)%nat) (fV f (I1 + j0)%nat) (fW f (I1 + j0)%nat) = Q (j0 + 1)%nat).
        { unfold Q_i_f. rewrite (XF j0) by lia. lra. }
        rewrite EQf.
        assert (Eh : h_i_b (Q (j0 + 1)%nat) (h n) (bX bw (I1 + j0)%nat) (bY bw (I1 + j0)%nat) (bZ bw (I1 + j0)%nat) = h j0).
        { unfold h_i_b. rewrite safe_divide_nz by (apply HX; lia). rewrite (XB j0) by lia. field. apply HX; lia. }
        rewrite Eh, limit_depth_id by (apply Hlim; lia).
        unfold Inv; simpl. split; [|split; [|split]].
        + intros j Hj Hjn. destruct (Nat.eq_dec j j0) as [->|].
          * now rewrite upd_eq.
          * rewrite upd_neq by lia. apply I1'; lia.
        + intros j Hj Hjn. destruct (Nat.eq_dec j j0) as [->|].
          * now rewrite upd_eq.
          * rewrite upd_neq by lia. apply I2'; lia.
        + intros I HI. rewrite upd_neq by lia. apply I3'; auto.
        + intros i Hi. rewrite upd_neq by lia. apply I4'; auto. }
    destruct HI as (J1 & J2 & J3 & J4). simpl in *.
    assert (EI : h1 I1 = h 0%nat) by (specialize (J1 0%nat ltac:(lia) ltac:(lia)); now rewrite Nat.add_0_r in J1).
    assert (EQ1 : (h', Q') = (h1, upd Q1 i1 (Q 1%nat))).
    { destruct back.
      - rewrite <- Eq. f_equal. f_equal. rewrite EI. unfold Q_i_b.
        specialize (XB 0%nat ltac:(lia)). rewrite Nat.add_0_r in XB. simpl in XB. lra.
      - rewrite <- Eq. f_equal. f_equal.
        specialize (XF 0%nat ltac:(lia)). rewrite Nat.add_0_r in XF. simpl in XF.
        rewrite (J1 1%nat) by lia. unfold Q_i_f. lra. }
    inversion EQ1; subst h' Q'; clear EQ1.
    split; [|split; [|split]].
    - intros j Hj. destruct (Nat.eq_dec j 0) as [->|]; [now rewrite Nat.add_0_r|apply J1; lia].
    - intros j Hj. destruct (Nat.eq_dec j 0) as [->|].
      + rewrite Nat.add_0_r, upd_eq. reflexivity.
      + rewrite upd_neq by lia. apply J2; lia.
    - exact J3.
    - intros i Hi. rewrite upd_neq by lia. apply J4; auto.
  Qed.

  Lemma solve_internals_correct NK nk i_1k I_1k f bw h_uk h_dk Q h lo hik back s h' Q' :
    layout NK nk i_1k I_1k ->
    (forall k, (k < NK)%nat -> fwd_eqs a b c P A E D (i_1k k) (I_1k k) (nk k) f) ->
    (forall k, (k < NK)%nat -> bwd_eqs a b c P A E D (i_1k k) (I_1k k) (nk k) bw) ->
    (forall k j, (k < NK)%nat -> (j < nk k)%nat -> fT f (i_1k k + j)%nat <> 0 /\ bO bw (i_1k k + j)%nat <> 0 /\
                                                   bX bw (I_1k k + j)%nat <> 0) ->
    (forall k, (k < NK)%nat -> superlink_solution a b c P A E D (i_1k k) (I_1k k) (nk k) (Q k) (h k) /\
                               h k 0%nat = h_uk k /\ h k (nk k) = h_dk k) ->
    (forall k j, (k < NK)%nat -> (1 <= j)%nat -> (j < nk k)%nat -> lo <= h k j <= hik k) ->
    numba_solve_internals s h_uk h_dk f bw i_1k I_1k nk NK lo hik back = (h', Q') ->
    forall k, (k < NK)%nat ->
      (forall j, (j <= nk k)%nat -> h' (I_1k k + j)%nat = h k j) /\
      (forall j, (j < nk k)%nat -> Q' (i_1k k + j)%nat = Q k (j + 1)%nat).
  Proof.
    intros [Hn Hl] HF HB HP HS Hlim Eq. unfold numba_solve_internals in Eq.
    pose (Inv := fun m (s : arr * arr) => forall k, (k < m)%nat ->
      (forall j, (j <= nk k)%nat -> fst s (I_1k k + j)%nat = h k j) /\
      (forall j, (j < nk k)%nat -> snd s (i_1k k + j)%nat = Q k (j + 1)%nat)).
    assert (HI : Inv NK (h', Q')).
    { rewrite <- Eq. apply for_n_inv.
      - intros k Hk; lia.
      - intros m [hm Qm] Hm HI k Hk.
        destruct (internals_superlink f bw (h_uk m) (h_dk m) (i_1k m) (I_1k m) (nk m) lo (hik m) back (hm, Qm))
          as [h2 Q2] eqn:E2. simpl.
        destruct (HS m Hm) as (Sol & Eu & Ed). rewrite <- Eu, <- Ed in E2.
        eapply internals_superlink_correct in E2; eauto.
        2:{ intros j Hj; apply HP; auto. }
        2:{ intros j Hj; apply HP; auto. }
        2:{ intros j Hj Hj'; apply HP; auto. }
        destruct E2 as (R1 & R2 & R3 & R4).
        destruct (Nat.eq_dec k m) as [->|]; [auto|].
        destruct (Hl k m) as [L1 L2]; [lia|lia|].
        destruct (HI k ltac:(lia)) as [K1 K2]. simpl in *. split.
        + intros j Hj. rewrite R3 by lia. apply K1; auto.
        + intros j Hj. rewrite R4 by lia. apply K2; auto. }
    exact HI.
  Qed.
End Internals.

(** *** Equations satisfied by the arrays written by the reconstruction *)
Record internals_eqs (f : fwd) (bw : bwd) (h_1 h_e : R) (i1 I1 n : nat) (lo hi : R) (back : bool)
       (h Q : arr) : Prop := {
  ie_first : h I1 = h_1;
  ie_last : h (I1 + n)%nat = h_e;
  ie_Q : forall j, (1 <= j)%nat -> (j < n)%nat ->
    Q (i1 + j)%nat = Q_i_f (h (I1 + (j + 1))%nat) h_1 (fU f (I1 + j)%nat) (fV f (I1 + j)%nat) (fW f (I1 + j)%nat);
  ie_h : forall j, (1 <= j)%nat -> (j < n)%nat ->
    h (I1 + j)%nat = limit_depth lo hi (h_i_b (Q (i1 + j)%nat) h_e (bX bw (I1 + j)%nat) (bY bw (I1 + j)%nat) (bZ bw (I1 + j)%nat));
  ie_Q0 : Q i1 = if back then Q_i_b h_1 h_e (bX bw I1) (bY bw I1) (bZ bw I1)
                 else Q_i_f (h (I1 + 1)%nat) h_1 (fU f I1) (fV f I1) (fW f I1)
}.

Lemma internals_superlink_eqs f bw h_1 h_e i1 I1 n lo hi back h0 Q0 h' Q' :
  (1 <= n)%nat ->
  internals_superlink f bw h_1 h_e i1 I1 n lo hi back (h0, Q0) = (h', Q') ->
  internals_eqs f bw h_1 h_e i1 I1 n lo hi back h' Q' /\
  (forall I, (I < I1 \/ I1 + n < I)%nat -> h' I = h0 I) /\
  (forall i, (i < i1 \/ i1 + n <= i)%nat -> Q' i = Q0 i).
Proof.
  intros Hn Eq. unfold internals_superlink in Eq.
  set (body := fun j s => internals_next f bw h_1 h_e lo hi (i1 + n - 1 - j) (I1 + n - 1 - j) s) in Eq.
  set (hinit := upd (upd h0 I1 h_1) (I1 + n) h_e) in Eq.
  destruct (for_n (n - 1) body (hinit, Q0)) as [h1 Q1] eqn:EL.
  pose (Inv := fun m (s : arr * arr) =>
    fst s I1 = h_1 /\ fst s (I1 + n)%nat = h_e /\
    (forall j, (1 <= j)%nat -> (n - m <= j)%nat -> (j < n)%nat ->
      snd s (i1 + j)%nat = Q_i_f (fst s (I1 + (j + 1))%nat) h_1 (fU f (I1 + j)%nat) (fV f (I1 + j)%nat) (fW f (I1 + j)%nat) /\
      fst s (I1 + j)%nat = limit_depth lo hi (h_i_b (snd s (i1 + j)%nat) h_e (bX bw (I1 + j)%nat) (bY bw (I1 + j)%nat) (bZ bw (I1 + j)%nat))) /\
    (forall I, (I < I1 \/ I1 + n < I)%nat -> fst s I = h0 I) /\
    (forall i, (i < i1 \/ i1 + n <= i)%nat -> snd s i = Q0 i)).
  assert (HI : Inv (n - 1)%nat (h1, Q1)).
  { rewrite <- EL. apply for_n_inv.
    - unfold Inv, hinit; simpl. split; [|split; [|split; [intros; lia|split]]].
      + rewrite upd_neq by lia. apply upd_eq.
      + apply upd_eq.
      + intros I HI. rewrite !upd_neq by lia. reflexivity.
      + reflexivity.
    - intros m [hm Qm] Hm (K1 & K2 & K3 & K4 & K5). simpl in *. unfold body, internals_next.
      set (j0 := (n - 1 - m)%nat).
      replace (i1 + n - 1 - m)%nat with (i1 + j0)%nat by (unfold j0; lia).
      replace (I1 + n - 1 - m)%nat with (I1 + j0)%nat by (unfold j0; lia).
      replace (I1 + j0 + 1)%nat with (I1 + (j0 + 1))%nat by lia.
      assert (Hj0 : (1 <= j0 < n)%nat) by (unfold j0; lia).
      unfold Inv; simpl. split; [|split; [|split; [|split]]].
      + rewrite upd_neq by lia. auto.
      + rewrite upd_neq by lia. auto.
      + intros j Hj1 Hj2 Hj3. destruct (Nat.eq_dec j j0) as [->|].
        * rewrite !upd_eq. rewrite upd_neq by lia. auto.
        * rewrite !(upd_neq _ (I1 + j0)%nat) by lia. rewrite !(upd_neq _ (i1 + j0)%nat) by lia. apply K3; lia.
      + intros I HI. rewrite upd_neq by lia. auto.
      + intros i Hi. rewrite upd_neq by lia. auto. }
  destruct HI as (K1 & K2 & K3 & K4 & K5). simpl in *.
  assert (EQ : (h', Q') = (h1, upd Q1 i1 (if back then Q_i_b h_1 h_e (bX bw I1) (bY bw I1) (bZ bw I1)
                                          else Q_i_f (h1 (I1 + 1)%nat) h_1 (fU f I1) (fV f I1) (fW f I1)))).
  { rewrite <- Eq. destruct back; [rewrite K1|]; reflexivity. }
  inversion EQ; subst h' Q'; clear EQ.
  split; [|split].
  - constructor; auto.
    + intros j H1 H2. rewrite upd_neq by lia. apply K3; lia.
    + intros j H1 H2. rewrite upd_neq by lia. apply K3; lia.
    + apply upd_eq.
  - exact K4.
  - intros i Hi. rewrite upd_neq by lia. auto.
Qed.

Lemma internals_eqs_ext f bw h_1 h_e i1 I1 n lo hi back h Q h' Q' :
  (1 <= n)%nat ->
  (forall I, (I1 <= I <= I1 + n)%nat -> h' I = h I) ->
  (forall i, (i1 <= i < i1 + n)%nat -> Q' i = Q i) ->
  internals_eqs f bw h_1 h_e i1 I1 n lo hi back h Q ->
  internals_eqs f bw h_1 h_e i1 I1 n lo hi back h' Q'.
Proof.
  intros Hn Eh EQ [K1 K2 K3 K4 K5]. constructor.
  - rewrite Eh by lia. auto.
  - rewrite Eh by lia. auto.
  - intros j H1 H2. rewrite EQ, Eh by lia. auto.
  - intros j H1 H2. rewrite EQ, Eh by lia. auto.
  - rewrite EQ, Eh by lia. auto.
Qed.

Lemma numba_solve_internals_eqs NK nk i_1k I_1k f bw h_uk h_dk lo hik back s h' Q' :
  layout NK nk i_1k I_1k ->
  numba_solve_internals s h_uk h_dk f bw i_1k I_1k nk NK lo hik back = (h', Q') ->
  forall k, (k < NK)%nat ->
    internals_eqs f bw (h_uk k) (h_dk k) (i_1k k) (I_1k k) (nk k) lo (hik k) back h' Q'.
Proof.
  intros [Hn Hl] Eq. unfold numba_solve_internals in Eq.
  pose (Inv := fun m (s : arr * arr) => forall k, (k < m)%nat ->
    internals_eqs f bw (h_uk k) (h_dk k) (i_1k k) (I_1k k) (nk k) lo (hik k) back (fst s) (snd s)).
  assert (HI : Inv NK (h', Q')).
  { rewrite <- Eq. apply for_n_inv.
    - intros k Hk; lia.
    - intros m [hm Qm] Hm HI k Hk.
      destruct (internals_superlink f bw (h_uk m) (h_dk m) (i_1k m) (I_1k m) (nk m) lo (hik m) back (hm, Qm))
        as [h2 Q2] eqn:E2. simpl.
      apply internals_superlink_eqs in E2; auto.
      destruct E2 as (R1 & R3 & R4).
      destruct (Nat.eq_dec k m) as [->|]; [auto|].
      destruct (Hl k m) as [L1 L2]; [lia|lia|].
      eapply internals_eqs_ext; [apply Hn; lia| | |apply HI; lia].
      + intros I HIk. apply R3; lia.
      + intros i Hik. apply R4; lia. }
  exact HI.
Qed.

Lemma limit_depth_inside lo hi x : lo < limit_depth lo hi x < hi -> limit_depth lo hi x = x.
Proof.
  unfold limit_depth. destruct (Rltb_spec x lo); [destruct (Rltb_spec hi lo)|destruct (Rltb_spec hi x)]; lra.
Qed.

Section Output.
  Variables a b c P A E D : arr.

  (** If no interior depth sits on a limit, the arrays are a solution. *)
  Lemma internals_output_solution i1 I1 n f bw h_1 h_e lo hi back h' Q' :
    (1 <= n)%nat ->
    fwd_eqs a b c P A E D i1 I1 n f -> bwd_eqs a b c P A E D i1 I1 n bw ->
    (forall j, (j < n)%nat -> fT f (i1 + j)%nat <> 0) ->
    (forall j, (j < n)%nat -> bO bw (i1 + j)%nat <> 0) ->
    (forall j, (1 <= j)%nat -> (j < n)%nat -> bX bw (I1 + j)%nat <> 0) ->
    internals_eqs f bw h_1 h_e i1 I1 n lo hi back h' Q' ->
    (forall j, (1 <= j)%nat -> (j < n)%nat -> lo < h' (I1 + j)%nat < hi) ->
    exists Q, superlink_solution a b c P A E D i1 I1 n Q (fun j => h' (I1 + j)%nat) /\
              (forall j, (j < n)%nat -> Q' (i1 + j)%nat = Q (j + 1)%nat).
  Proof.
    intros Hn HF HB HT HO HX [K1 K2 K3 K4 K5] Hin.
    destruct (superlink_solution_exists a b c P A E D i1 I1 n f h_1 h_e Hn HF HT) as (Q & h & HS & H0 & Hend).
    pose proof (forward_exact a b c P A E D i1 I1 n f Q h HF HT HS) as XF.
    pose proof (backward_exact a b c P A E D i1 I1 n bw Q h Hn HB HO HS) as XB.
    assert (G : forall m, (m < n)%nat -> h' (I1 + (n - m))%nat = h (n - m)%nat /\
              ((1 <= m)%nat -> Q' (i1 + (n - m))%nat = Q (n - m + 1)%nat)).
    { induction m as [|m IH]; intros Hm.
      - rewrite Nat.sub_0_r. split; [congruence|lia].
      - destruct (IH ltac:(lia)) as [IH1 IH2].
        set (j := (n - S m)%nat). replace (n - m)%nat with (j + 1)%nat in * by (unfold j; lia).
        assert (Hj : (1 <= j < n)%nat) by (unfold j; lia).
        assert (EQ : Q' (i1 + j)%nat = Q (j + 1)%nat).
        { rewrite K3 by lia. unfold Q_i_f. rewrite IH1. rewrite (XF j) by lia. rewrite H0. lra. }
        split; [|intros _; exact EQ].
        specialize (Hin j ltac:(lia) ltac:(lia)).
        rewrite (K4 j ltac:(lia) ltac:(lia)) in *.
        rewrite limit_depth_inside by exact Hin.
        unfold h_i_b. rewrite safe_divide_nz by (apply HX; lia).
        rewrite EQ, (XB j) by lia. rewrite Hend. field. apply HX; lia. }
    assert (Gh : forall j, (j <= n)%nat -> h' (I1 + j)%nat = h j).
    { intros j Hj. destruct (Nat.eq_dec j 0) as [->|].
      - rewrite Nat.add_0_r. congruence.
      - destruct (G (n - j)%nat ltac:(lia)) as [G1 _]. now replace (n - (n - j))%nat with j in G1 by lia. }
    exists Q. split.
    - destruct HS as [HM HC]. split.
      + intros j Hj. rewrite !Gh by lia. apply HM; auto.
      + intros j Hj. rewrite !Gh by lia. apply HC; auto.
    - intros j Hj. destruct (Nat.eq_dec j 0) as [->|].
      + rewrite Nat.add_0_r, K5. destruct back.
        * unfold Q_i_b. specialize (XB 0%nat ltac:(lia)). rewrite Nat.add_0_r in XB. rewrite XB, H0, Hend. reflexivity.
        * unfold Q_i_f. specialize (XF 0%nat ltac:(lia)). rewrite Nat.add_0_r in XF. rewrite XF, H0, Gh by lia. reflexivity.
      + destruct (G (n - j)%nat ltac:(lia)) as [_ G2]. replace (n - (n - j))%nat with j in G2 by lia. apply G2; lia.
  Qed.
End Output.
