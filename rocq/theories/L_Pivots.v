From Verif Require Import Prelude M_Coeffs M_Recurrence S_Superlink L_Forward L_Backward.

Lemma g_pos : 0 < g.
Proof. unfold g; lra. Qed.

Lemma div_neg_pos x y : x < 0 -> 0 < y -> x / y < 0.
Proof. intros Hx Hy. unfold Rdiv. apply Ropp_lt_cancel. rewrite Ropp_0, <- Ropp_mult_distr_l_reverse.
  apply Rmult_lt_0_compat; [lra|now apply Rinv_0_lt_compat]. Qed.
Lemma div_pos_pos x y : 0 < x -> 0 < y -> 0 < x / y.
Proof. intros. apply Rmult_lt_0_compat; auto. now apply Rinv_0_lt_compat. Qed.
Lemma div_nonneg_pos x y : 0 <= x -> 0 < y -> 0 <= x / y.
Proof. intros. apply Rmult_le_pos; auto. left; now apply Rinv_0_lt_compat. Qed.
Lemma div_pos_neg x y : 0 < x -> y < 0 -> x / y < 0.
Proof. intros Hx Hy. replace (x / y) with (- (x / - y)) by (field; lra).
  assert (0 < x / - y) by (apply div_pos_pos; lra). lra. Qed.

(** Scalar sign steps. *)
Lemma wet_num A a E : 0 < A -> a <= 0 -> 0 <= E -> 0 < g * A - E * a.
Proof. intros. pose proof g_pos. nra. Qed.

Lemma T_step_pos a b c A E U :
  0 < A -> a <= 0 -> 0 < a + b + c -> 0 <= E -> U < 0 -> 0 < T_ik a b c A E U.
Proof.
  intros HA Ha Hs HE HU. unfold T_ik. rewrite safe_divide_nz by lra.
  pose proof (wet_num A a E HA Ha HE).
  assert ((g * A - E * a) / (U - E) < 0) by (apply div_pos_neg; lra). lra.
Qed.

Lemma O_step_pos a b c A E X :
  0 < A -> c <= 0 -> 0 < a + b + c -> 0 <= E -> 0 < X -> 0 < O_ik a b c A E X.
Proof.
  intros HA Hc Hs HE HX. unfold O_ik. rewrite safe_divide_nz by lra.
  pose proof (wet_num A c E HA Hc HE).
  assert (0 < (g * A - E * c) / (X + E)) by (apply div_pos_pos; lra). lra.
Qed.

Lemma U_neg E c A T : 0 < A -> c <= 0 -> 0 <= E -> 0 < T -> U_Ik E c A T < 0.
Proof.
  intros HA Hc HE HT. unfold U_Ik. rewrite safe_divide_nz by lra.
  pose proof (wet_num A c E HA Hc HE). apply div_neg_pos; lra.
Qed.

Lemma X_pos A E a O : 0 < A -> a <= 0 -> 0 <= E -> 0 < O -> 0 < X_Ik A E a O.
Proof.
  intros HA Ha HE HO. unfold X_Ik. rewrite safe_divide_nz by lra.
  apply div_pos_pos; auto. now apply wet_num.
Qed.

Section Pivots.
  Variables a b c P A E D : arr.

  Lemma fwd_signs i1 I1 n s :
    fwd_eqs a b c P A E D i1 I1 n s -> wet_superlink a b c A E i1 I1 n -> 
    forall j, (j < n)%nat ->
      0 < fT s (i1 + j)%nat /\ fU s (I1 + j)%nat < 0 /\ 0 < fW s (I1 + j)%nat.
  Proof.
    intros [T0 U0 V0 W0 HT HU HV HW] [Hw HE].
    induction j as [|j IH]; intros Hj.
    - destruct (Hw 0%nat Hj) as (HA & Ha & Hc & Hs). pose proof (HE 0%nat ltac:(lia)). pose proof (HE 1%nat ltac:(lia)).
      rewrite !Nat.add_0_r in *.
      assert (0 < fT s i1) by (rewrite T0; unfold T_1k; lra).
      split; auto. split.
      + rewrite U0. apply U_neg; auto.
      + rewrite W0. apply X_pos; auto.
    - destruct (IH ltac:(lia)) as (IT & IU & IW).
      destruct (Hw (S j) Hj) as (HA & Ha & Hc & Hs).
      pose proof (HE (S j) ltac:(lia)). pose proof (HE (S (S j)) ltac:(lia)).
      assert (PT : 0 < fT s (i1 + S j)%nat) by (rewrite HT by lia; apply T_step_pos; auto).
      split; auto. split.
      + rewrite HU by lia. apply U_neg; auto.
      + rewrite HW by lia. unfold W_Ik. rewrite safe_divide_nz.
        2:{ apply Rmult_integral_contrapositive; split; lra. }
        pose proof (wet_num _ _ _ HA Ha H).
        replace (- (g * A (i1 + S j)%nat - E (I1 + S j)%nat * a (i1 + S j)%nat) * fW s (I1 + j)%nat /
                 ((fU s (I1 + j)%nat - E (I1 + S j)%nat) * fT s (i1 + S j)%nat))
          with ((g * A (i1 + S j)%nat - E (I1 + S j)%nat * a (i1 + S j)%nat) * fW s (I1 + j)%nat /
                 (- (fU s (I1 + j)%nat - E (I1 + S j)%nat) * fT s (i1 + S j)%nat)).
        * apply div_pos_pos; apply Rmult_lt_0_compat; lra.
        * field. split; lra.
  Qed.

  Lemma bwd_signs i1 I1 n s :
    (1 <= n)%nat ->
    bwd_eqs a b c P A E D i1 I1 n s -> wet_superlink a b c A E i1 I1 n -> 
    forall j, (j < n)%nat ->
      0 < bO s (i1 + j)%nat /\ 0 < bX s (I1 + j)%nat /\ bZ s (I1 + j)%nat < 0.
  Proof.
    intros Hn [O0 X0 Y0 Z0 HO HX HY HZ] [Hw HE].
    assert (G : forall m, (m < n)%nat -> let j := (n - 1 - m)%nat in
       0 < bO s (i1 + j)%nat /\ 0 < bX s (I1 + j)%nat /\ bZ s (I1 + j)%nat < 0).
    2:{ intros j Hj. specialize (G (n - 1 - j)%nat ltac:(lia)). simpl in G.
        replace (n - 1 - (n - 1 - j))%nat with j in G by lia. exact G. }
    induction m as [|m IH]; intros Hm j.
    - assert (Hj : (j = n - 1)%nat) by (unfold j; lia).
      destruct (Hw j ltac:(lia)) as (HA & Ha & Hc & Hs). pose proof (HE j ltac:(lia)). pose proof (HE n ltac:(lia)).
      replace (i1 + n - 1)%nat with (i1 + j)%nat in * by lia.
      replace (I1 + n - 1)%nat with (I1 + j)%nat in * by lia.
      assert (0 < bO s (i1 + j)%nat) by (rewrite O0; unfold O_nk; lra).
      split; auto. split.
      + rewrite X0. apply X_pos; auto.
      + rewrite Z0. apply U_neg; auto.
    - destruct (IH ltac:(lia)) as (IO & IX & IZ).
      replace (n - 1 - m)%nat with (S j) in IO, IX, IZ by (unfold j; lia).
      assert (Hj : (S j < n)%nat) by (unfold j; lia).
      destruct (Hw j ltac:(lia)) as (HA & Ha & Hc & Hs).
      pose proof (HE j ltac:(lia)). pose proof (HE (S j) ltac:(lia)).
      assert (PO : 0 < bO s (i1 + j)%nat) by (rewrite HO by lia; apply O_step_pos; auto).
      split; auto. split.
      + rewrite HX by lia. apply X_pos; auto.
      + rewrite HZ by lia. unfold Z_Ik. rewrite safe_divide_nz.
        2:{ apply Rmult_integral_contrapositive; split; lra. }
        pose proof (wet_num _ _ _ HA Hc H0).
        assert (0 < (bX s (I1 + S j)%nat + E (I1 + S j)%nat) * bO s (i1 + j)%nat)
          by (apply Rmult_lt_0_compat; lra).
        apply div_neg_pos; auto. nra.
  Qed.

  Lemma forward_superlink_total i1 I1 n s :
    (1 <= n)%nat -> wet_superlink a b c A E i1 I1 n ->
    exists s', forward_superlink a b c P A E D i1 I1 n s = Some s'.
  Proof.
    intros Hn [Hw HE]. unfold forward_superlink.
    pose (Inv := fun m (s : fwd) => fU s (I1 + m)%nat < 0).
    destruct (for_opt_total Inv (n - 1)
      (fun i s => forward_next a b c P A E D (i1 + 1 + i) (I1 + 1 + i) s)
      (forward_first a b c P A E D i1 I1 s)) as [s' [E' _]]; eauto.
    - destruct (Hw 0%nat ltac:(lia)) as (HA & Ha & Hc & Hs). pose proof (HE 0%nat ltac:(lia)). pose proof (HE 1%nat ltac:(lia)).
      unfold Inv, forward_first; simpl. rewrite !Nat.add_0_r in *. rewrite upd_eq.
      apply U_neg; auto.
    - intros m s1 Hm HI. unfold Inv in *. unfold forward_next.
      replace (I1 + 1 + m - 1)%nat with (I1 + m)%nat by lia.
      replace (i1 + 1 + m)%nat with (i1 + S m)%nat by lia.
      replace (I1 + 1 + m + 1)%nat with (I1 + S (S m))%nat by lia.
      replace (I1 + 1 + m)%nat with (I1 + S m)%nat by lia.
      destruct (Hw (S m) ltac:(lia)) as (HA & Ha & Hc & Hs).
      pose proof (HE (S m) ltac:(lia)). pose proof (HE (S (S m)) ltac:(lia)).
      unfold V_Ik. rewrite div_nz by lra. simpl.
      eexists; split; [reflexivity|]. simpl. rewrite upd_eq.
      apply U_neg; auto. apply T_step_pos; auto.
  Qed.

  Lemma backward_superlink_total i1 I1 n s :
    (1 <= n)%nat -> wet_superlink a b c A E i1 I1 n ->
    exists s', backward_superlink a b c P A E D (i1 + n - 1) (I1 + n - 1) n s = Some s'.
  Proof.
    intros Hn [Hw HE]. unfold backward_superlink.
    pose (Inv := fun m (s : bwd) => 0 < bX s (I1 + n - 1 - m)%nat).
    destruct (for_opt_total Inv (n - 1)
      (fun i s => backward_next a b c P A E D (i1 + n - 1 - 1 - i) (I1 + n - 1 - 1 - i) s)
      (backward_first a b c P A E D (i1 + n - 1) (I1 + n - 1) s)) as [s' [E' _]]; eauto.
    - destruct (Hw (n - 1)%nat ltac:(lia)) as (HA & Ha & Hc & Hs).
      pose proof (HE (n - 1)%nat ltac:(lia)). pose proof (HE n ltac:(lia)).
      unfold Inv, backward_first; simpl. rewrite Nat.sub_0_r, upd_eq.
      replace (i1 + (n - 1))%nat with (i1 + n - 1)%nat in * by lia.
      replace (I1 + (n - 1))%nat with (I1 + n - 1)%nat in * by lia.
      apply X_pos; auto.
    - intros m s1 Hm HI. unfold Inv in *. unfold backward_next.
      set (j := (n - 1 - S m)%nat).
      replace (i1 + n - 1 - 1 - m)%nat with (i1 + j)%nat by (unfold j; lia).
      replace (I1 + n - 1 - 1 - m)%nat with (I1 + j)%nat by (unfold j; lia).
      replace (I1 + n - 1 - S m)%nat with (I1 + j)%nat by (unfold j; lia).
      replace (I1 + n - 1 - m)%nat with (I1 + j + 1)%nat in HI by (unfold j; lia).
      destruct (Hw j ltac:(lia)) as (HA & Ha & Hc & Hs).
      pose proof (HE j ltac:(lia)). pose proof (HE (j + 1)%nat ltac:(lia)) as HE1.
      replace (I1 + (j + 1))%nat with (I1 + j + 1)%nat in HE1 by lia.
      unfold Y_Ik. rewrite div_nz by lra. simpl.
      eexists; split; [reflexivity|]. simpl. rewrite upd_eq.
      apply X_pos; auto. apply O_step_pos; auto.
  Qed.

  Lemma forward_total s NK nk I_1k i_1k :
    layout NK nk i_1k I_1k ->
    (forall k, (k < NK)%nat -> wet_superlink a b c A E (i_1k k) (I_1k k) (nk k)) ->
    exists s', numba_forward_recurrence s a b c P A E D NK nk I_1k i_1k = Some s'.
  Proof.
    intros [Hn _] Hw. unfold numba_forward_recurrence.
    destruct (for_opt_total (fun _ (_ : fwd) => True) NK
      (fun k s => forward_superlink a b c P A E D (i_1k k) (I_1k k) (nk k) s) s) as [s' [E' _]]; eauto.
    intros k s1 Hk _. destruct (forward_superlink_total (i_1k k) (I_1k k) (nk k) s1) as [s2 E2]; auto.
    eauto.
  Qed.

  Lemma backward_total s NK nk i_1k I_1k I_Nk i_nk :
    layout NK nk i_1k I_1k ->
    (forall k, (k < NK)%nat -> i_nk k = (i_1k k + nk k - 1)%nat /\ I_Nk k = (I_1k k + nk k - 1)%nat) ->
    (forall k, (k < NK)%nat -> wet_superlink a b c A E (i_1k k) (I_1k k) (nk k)) ->
    exists s', numba_backward_recurrence s a b c P A E D NK nk I_Nk i_nk = Some s'.
  Proof.
    intros [Hn _] Hend Hw. unfold numba_backward_recurrence.
    destruct (for_opt_total (fun _ (_ : bwd) => True) NK
      (fun k s => backward_superlink a b c P A E D (i_nk k) (I_Nk k) (nk k) s) s) as [s' [E' _]]; eauto.
    intros k s1 Hk _. destruct (Hend k Hk) as [-> ->].
    destruct (backward_superlink_total (i_1k k) (I_1k k) (nk k) s1) as [s2 E2]; auto.
    eauto.
  Qed.
End Pivots.
