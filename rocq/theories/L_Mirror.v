From Verif Require Import Prelude M_Coeffs M_Recurrence M_Assembly M_Step S_Superlink S_Network S_Step S_Mirror
  L_Forward L_Backward L_Coeffs L_Internals L_Assembly L_Step P_Superlink P_Assembly P_Step.

Lemma safe_divide_opp x y : safe_divide (- x) y = - safe_divide x y.
Proof. unfold safe_divide, Reqb. destruct (Req_EM_T y 0); [lra|]. field; auto. Qed.
Lemma safe_divide_opp_r x y : safe_divide x (- y) = - safe_divide x y.
Proof.
  unfold safe_divide, Reqb. destruct (Req_EM_T (- y) 0); destruct (Req_EM_T y 0); try lra. field; auto.
Qed.
Lemma div_opp_r x y : div x (- y) = match div x y with None => None | Some q => Some (- q) end.
Proof.
  unfold div, Reqb. destruct (Req_EM_T (- y) 0); destruct (Req_EM_T y 0); try lra; auto. f_equal. field; auto.
Qed.

(** ** Sweeps of one superlink *)
Section One.
  Variables (a b c P A E D a' b' c' P' A' E' D' : arr) (i1 I1 n : nat).

  Record mirror_coeffs : Prop := mkMC {
    mc_l : forall j, (j < n)%nat -> let i := (i1 + (n - 1 - j))%nat in
      a' (i1 + j)%nat = c i /\ b' (i1 + j)%nat = b i /\ c' (i1 + j)%nat = a i /\ P' (i1 + j)%nat = - P i /\ A' (i1 + j)%nat = A i;
    mc_n : forall j, (j <= n)%nat -> let I := (I1 + (n - j))%nat in E' (I1 + j)%nat = E I /\ D' (I1 + j)%nat = D I }.

  Lemma fwd_mirror f w : (1 <= n)%nat -> mirror_coeffs -> fwd_eqs a' b' c' P' A' E' D' i1 I1 n f -> bwd_eqs a b c P A E D i1 I1 n w ->
    forall j, (j < n)%nat -> let m := (n - 1 - j)%nat in
      fT f (i1 + j)%nat = bO w (i1 + m)%nat /\ fU f (I1 + j)%nat = - bX w (I1 + m)%nat /\
      fV f (I1 + j)%nat = - bY w (I1 + m)%nat /\ fW f (I1 + j)%nat = - bZ w (I1 + m)%nat.
  Proof.
    intros Hn [Ml Mn] [T0 U0 V0 W0 FT FU FV FW] [O0 X0 Y0 Z0 BO BX BY BZ]. induction j as [|j IH]; intros Hj m.
    - replace m with (n - 1)%nat by (unfold m; lia). rewrite !Nat.add_0_r.
      destruct (Ml 0%nat ltac:(lia)) as (La & Lb & Lc & LP & LA). rewrite Nat.add_0_r in La, Lb, Lc, LP, LA.
      destruct (Mn 0%nat ltac:(lia)) as (E0 & D0). destruct (Mn 1%nat ltac:(lia)) as (E1 & D1). rewrite Nat.add_0_r in E0, D0.
      replace (n - 1 - 0)%nat with (n - 1)%nat in La, Lb, Lc, LP, LA by lia. rewrite Nat.sub_0_r in E0, D0.
      replace (i1 + n - 1)%nat with (i1 + (n - 1))%nat in * by lia. replace (I1 + n - 1)%nat with (I1 + (n - 1))%nat in * by lia.
      assert (T : fT f i1 = bO w (i1 + (n - 1))%nat) by (rewrite T0, O0, La, Lb, Lc; unfold T_1k, O_nk; ring).
      split; [exact T|]. rewrite U0, V0, W0, X0, Y0, Z0, T, La, Lc, LP, LA, E0, D0, E1, D1.
      unfold U_1k, V_1k, W_1k, X_Nk, Y_Nk, Z_Nk. rewrite <- !safe_divide_opp. repeat split; f_equal; ring.
    - destruct (IH ltac:(lia)) as (_ & IU & IV & IW). clear IH.
      replace (n - 1 - j)%nat with (S m) in IU, IV, IW by (unfold m; lia).
      assert (Hm : (S m < n)%nat) by (unfold m; lia).
      destruct (Ml (S j) Hj) as (La & Lb & Lc & LP & LA). fold m in La, Lb, Lc, LP, LA.
      destruct (Mn (S j) ltac:(lia)) as (E0 & D0). destruct (Mn (S (S j)) ltac:(lia)) as (E1 & D1).
      replace (n - S j)%nat with (S m) in E0, D0 by (unfold m; lia). replace (n - S (S j))%nat with m in E1, D1 by (unfold m; lia).
      specialize (FT j Hj). specialize (FU j Hj). specialize (FV j Hj). specialize (FW j Hj).
      specialize (BO m ltac:(lia) Hm). specialize (BX m ltac:(lia) Hm). specialize (BY m ltac:(lia) Hm). specialize (BZ m ltac:(lia) Hm).
      assert (ES : fU f (I1 + j)%nat - E' (I1 + S j)%nat = - (bX w (I1 + S m)%nat + E (I1 + S m)%nat)) by (rewrite IU, E0; ring).
      assert (T : fT f (i1 + S j)%nat = bO w (i1 + m)%nat).
      { rewrite FT, BO. unfold T_ik, O_ik. rewrite ES, safe_divide_opp_r, La, Lb, Lc, LA, E0. ring. }
      split; [exact T|]. split; [|split].
      + rewrite FU, BX, T, E1, Lc, LA. unfold U_Ik, X_Ik. rewrite <- safe_divide_opp. f_equal; ring.
      + unfold V_Ik in FV. unfold Y_Ik in BY. rewrite ES, div_opp_r in FV. rewrite La, Lc, LP, LA, E0, D0, D1, T, IV in FV.
        replace ((g * A (i1 + m)%nat - E (I1 + S m)%nat * c (i1 + m)%nat) * (- bY w (I1 + S m)%nat + D (I1 + S m)%nat))
          with ((g * A (i1 + m)%nat - E (I1 + S m)%nat * c (i1 + m)%nat) * (D (I1 + S m)%nat - bY w (I1 + S m)%nat)) in FV by ring.
        destruct (div _ (bX w (I1 + S m)%nat + E (I1 + S m)%nat)) as [q|]; [|discriminate].
        cbn [bind] in FV, BY. injection FV as ->. injection BY as ->. rewrite <- safe_divide_opp. f_equal. ring.
      + rewrite FW, BZ, T. unfold W_Ik, Z_Ik. rewrite ES, IW, La, LA, E0.
        replace (- (bX w (I1 + S m)%nat + E (I1 + S m)%nat) * bO w (i1 + m)%nat)
          with (- ((bX w (I1 + S m)%nat + E (I1 + S m)%nat) * bO w (i1 + m)%nat)) by ring.
        rewrite safe_divide_opp_r. f_equal. f_equal. ring.
  Qed.

  Record same_coeffs : Prop := mkSC {
    sc_l : forall j, (j < n)%nat -> let i := (i1 + j)%nat in a' i = a i /\ b' i = b i /\ c' i = c i /\ P' i = P i /\ A' i = A i;
    sc_n : forall j, (j <= n)%nat -> let I := (I1 + j)%nat in E' I = E I /\ D' I = D I }.

  Lemma fwd_agree f f' : (1 <= n)%nat -> same_coeffs -> fwd_eqs a b c P A E D i1 I1 n f -> fwd_eqs a' b' c' P' A' E' D' i1 I1 n f' ->
    forall j, (j < n)%nat -> fU f' (I1 + j)%nat = fU f (I1 + j)%nat /\ fV f' (I1 + j)%nat = fV f (I1 + j)%nat /\ fW f' (I1 + j)%nat = fW f (I1 + j)%nat.
  Proof.
    intros Hn [Sl Sn] [T0 U0 V0 W0 FT FU FV FW] [T0' U0' V0' W0' FT' FU' FV' FW']. induction j as [|j IH]; intros Hj.
    - rewrite Nat.add_0_r. destruct (Sl 0%nat ltac:(lia)) as (La & Lb & Lc & LP & LA). rewrite Nat.add_0_r in La, Lb, Lc, LP, LA.
      destruct (Sn 0%nat ltac:(lia)) as (E0 & D0). destruct (Sn 1%nat ltac:(lia)) as (E1 & D1). rewrite Nat.add_0_r in E0, D0.
      assert (T : fT f' i1 = fT f i1) by (rewrite T0, T0', La, Lb, Lc; reflexivity).
      rewrite U0, U0', V0, V0', W0, W0', T, La, Lc, LP, LA, E0, D0, E1, D1. auto.
    - destruct (IH ltac:(lia)) as (IU & IV & IW). destruct (Sl (S j) Hj) as (La & Lb & Lc & LP & LA).
      destruct (Sn (S j) ltac:(lia)) as (E0 & D0). destruct (Sn (S (S j)) ltac:(lia)) as (E1 & D1).
      specialize (FT j Hj). specialize (FU j Hj). specialize (FV j Hj). specialize (FW j Hj).
      specialize (FT' j Hj). specialize (FU' j Hj). specialize (FV' j Hj). specialize (FW' j Hj).
      assert (T : fT f' (i1 + S j)%nat = fT f (i1 + S j)%nat) by (rewrite FT, FT', La, Lb, Lc, LA, E0, IU; reflexivity).
      rewrite FU, FU', FW, FW', T, La, Lc, LA, E0, E1, IU, IW. split; [auto|]. split; [|auto].
      rewrite La, Lc, LP, LA, E0, D0, D1, T, IU, IV in FV'. rewrite <- FV in FV'. now injection FV'.
  Qed.

  Lemma bwd_agree w w' : (1 <= n)%nat -> same_coeffs -> bwd_eqs a b c P A E D i1 I1 n w -> bwd_eqs a' b' c' P' A' E' D' i1 I1 n w' ->
    forall j, (j < n)%nat -> bX w' (I1 + j)%nat = bX w (I1 + j)%nat /\ bY w' (I1 + j)%nat = bY w (I1 + j)%nat /\ bZ w' (I1 + j)%nat = bZ w (I1 + j)%nat.
  Proof.
    intros Hn [Sl Sn] [O0 X0 Y0 Z0 BO BX BY BZ] [O0' X0' Y0' Z0' BO' BX' BY' BZ'].
    assert (B : forall t, (t < n)%nat -> let j := (n - 1 - t)%nat in
      bX w' (I1 + j)%nat = bX w (I1 + j)%nat /\ bY w' (I1 + j)%nat = bY w (I1 + j)%nat /\ bZ w' (I1 + j)%nat = bZ w (I1 + j)%nat).
    2:{ intros j Hj. specialize (B (n - 1 - j)%nat ltac:(lia)). cbv zeta in B. now replace (n - 1 - (n - 1 - j))%nat with j in B by lia. }
    replace (i1 + n - 1)%nat with (i1 + (n - 1))%nat in * by lia. replace (I1 + n - 1)%nat with (I1 + (n - 1))%nat in * by lia.
    induction t as [|t IH]; intros Ht; cbv zeta.
    - rewrite Nat.sub_0_r. destruct (Sl (n - 1)%nat ltac:(lia)) as (La & Lb & Lc & LP & LA).
      destruct (Sn (n - 1)%nat ltac:(lia)) as (E0 & D0). destruct (Sn n ltac:(lia)) as (E1 & D1).
      assert (T : bO w' (i1 + (n - 1))%nat = bO w (i1 + (n - 1))%nat) by (rewrite O0, O0', La, Lb, Lc; reflexivity).
      rewrite X0, X0', Y0, Y0', Z0, Z0', T, La, Lc, LP, LA, E0, D0, E1, D1. auto.
    - specialize (IH ltac:(lia)). cbv zeta in IH. set (j := (n - 1 - S t)%nat) in *.
      replace (n - 1 - t)%nat with (S j) in IH by (unfold j; lia). destruct IH as (IU & IV & IW).
      assert (Hj : (S j < n)%nat) by (unfold j; lia).
      destruct (Sl j ltac:(lia)) as (La & Lb & Lc & LP & LA).
      destruct (Sn j ltac:(lia)) as (E0 & D0). destruct (Sn (S j) ltac:(lia)) as (E1 & D1).
      specialize (BO j ltac:(lia) Hj). specialize (BX j ltac:(lia) Hj). specialize (BY j ltac:(lia) Hj). specialize (BZ j ltac:(lia) Hj).
      specialize (BO' j ltac:(lia) Hj). specialize (BX' j ltac:(lia) Hj). specialize (BY' j ltac:(lia) Hj). specialize (BZ' j ltac:(lia) Hj).
      assert (T : bO w' (i1 + j)%nat = bO w (i1 + j)%nat) by (rewrite BO, BO', La, Lb, Lc, LA, E1, IU; reflexivity).
      rewrite BX, BX', BZ, BZ', T, La, Lc, LA, E0, E1, IU, IW. split; [auto|]. split; [|auto].
      rewrite La, Lc, LP, LA, E1, D0, D1, T, IU, IV in BY'. rewrite <- BY in BY'. now injection BY'.
  Qed.

  (** ** Solutions of one superlink *)
  Lemma solution_mirror Q h : mirror_coeffs -> superlink_solution a b c P A E D i1 I1 n Q h ->
    superlink_solution a' b' c' P' A' E' D' i1 I1 n (fun j => - Q (n + 1 - j)%nat) (fun j => h (n - j)%nat).
  Proof.
    intros [Ml Mn] [HM HC]. split.
    - intros j Hj. destruct (Ml j Hj) as (La & Lb & Lc & LP & LA). rewrite La, Lb, Lc, LP, LA.
      specialize (HM (n - 1 - j)%nat ltac:(lia)). cbv beta.
      replace (n - 1 - j + 1)%nat with (n - j)%nat in HM by lia. replace (n - 1 - j + 2)%nat with (n + 1 - j)%nat in HM by lia.
      replace (n + 1 - (j + 1))%nat with (n - j)%nat by lia. replace (n + 1 - (j + 2))%nat with (n - 1 - j)%nat by lia.
      replace (n - (j + 1))%nat with (n - 1 - j)%nat by lia. lra.
    - intros j Hj. destruct (Mn j Hj) as (LE & LD). rewrite LE, LD. specialize (HC (n - j)%nat ltac:(lia)). cbv beta.
      replace (n - j + 1)%nat with (n + 1 - j)%nat in HC by lia. replace (n + 1 - (j + 1))%nat with (n - j)%nat by lia. lra.
  Qed.

  (** The reconstruction equations have the exact solution as their only solution when no limit binds. *)
  Lemma internals_exact f w Q h lo hi back h1 Q1 : (1 <= n)%nat ->
    fwd_eqs a b c P A E D i1 I1 n f -> bwd_eqs a b c P A E D i1 I1 n w ->
    (forall j, (j < n)%nat -> fT f (i1 + j)%nat <> 0 /\ bO w (i1 + j)%nat <> 0 /\ bX w (I1 + j)%nat <> 0) ->
    superlink_solution a b c P A E D i1 I1 n Q h ->
    internals_eqs f w (h 0%nat) (h n) i1 I1 n lo hi back h1 Q1 ->
    (forall j, (1 <= j)%nat -> (j < n)%nat -> lo <= h j <= hi) ->
    (forall j, (j <= n)%nat -> h1 (I1 + j)%nat = h j) /\ (forall j, (j < n)%nat -> Q1 (i1 + j)%nat = Q (j + 1)%nat).
  Proof.
    intros Hn HF HB HP HS [K1 K2 K3 K4 K5] Hin.
    pose proof (forward_exact a b c P A E D i1 I1 n f Q h HF (fun j Hj => proj1 (HP j Hj)) HS) as XF.
    pose proof (backward_exact a b c P A E D i1 I1 n w Q h Hn HB (fun j Hj => proj1 (proj2 (HP j Hj))) HS) as XB.
    assert (G : forall m, (m < n)%nat -> h1 (I1 + (n - m))%nat = h (n - m)%nat /\
              ((1 <= m)%nat -> Q1 (i1 + (n - m))%nat = Q (n - m + 1)%nat)).
    { induction m as [|m IH]; intros Hm.
      - rewrite Nat.sub_0_r. split; [congruence|lia].
      - destruct (IH ltac:(lia)) as [IH1 _]. set (j := (n - S m)%nat). replace (n - m)%nat with (j + 1)%nat in * by (unfold j; lia).
        assert (Hj : (1 <= j < n)%nat) by (unfold j; lia).
        assert (EQ : Q1 (i1 + j)%nat = Q (j + 1)%nat).
        { rewrite K3 by lia. unfold Q_i_f. rewrite IH1. rewrite (XF j) by lia. lra. }
        split; [|intros _; exact EQ].
        assert (Eh : h_i_b (Q1 (i1 + j)%nat) (h n) (bX w (I1 + j)%nat) (bY w (I1 + j)%nat) (bZ w (I1 + j)%nat) = h j).
        { unfold h_i_b. rewrite safe_divide_nz by (apply HP; lia). rewrite EQ, (XB j) by lia. field. apply HP; lia. }
        rewrite (K4 j ltac:(lia) ltac:(lia)), Eh. apply limit_depth_id. apply Hin; lia. }
    assert (Gh : forall j, (j <= n)%nat -> h1 (I1 + j)%nat = h j).
    { intros j Hj. destruct (Nat.eq_dec j 0) as [->|].
      - rewrite Nat.add_0_r. congruence.
      - destruct (G (n - j)%nat ltac:(lia)) as [G1 _]. now replace (n - (n - j))%nat with j in G1 by lia. }
    split; [exact Gh|]. intros j Hj. destruct (Nat.eq_dec j 0) as [->|].
    - rewrite Nat.add_0_r, K5. specialize (XB 0%nat ltac:(lia)). specialize (XF 0%nat ltac:(lia)).
      rewrite !Nat.add_0_r in XB, XF. cbn [Nat.add] in *. destruct back.
      + unfold Q_i_b. rewrite XB. reflexivity.
      + unfold Q_i_f. rewrite XF, Gh by lia. reflexivity.
    - destruct (G (n - j)%nat ltac:(lia)) as [_ G2]. replace (n - (n - j))%nat with j in G2 by lia. apply G2; lia.
  Qed.

  (** One internal junction: whatever the limits do, its depth is the limited exact depth and the flows are exact. *)
  Lemma internals_two f w Q h lo hi h1 Q1 : n = 2%nat ->
    fwd_eqs a b c P A E D i1 I1 n f -> bwd_eqs a b c P A E D i1 I1 n w ->
    (forall j, (j < n)%nat -> fT f (i1 + j)%nat <> 0 /\ bO w (i1 + j)%nat <> 0 /\ bX w (I1 + j)%nat <> 0) ->
    superlink_solution a b c P A E D i1 I1 n Q h ->
    internals_eqs f w (h 0%nat) (h n) i1 I1 n lo hi true h1 Q1 ->
    h1 I1 = h 0%nat /\ h1 (I1 + 1)%nat = limit_depth lo hi (h 1%nat) /\ h1 (I1 + 2)%nat = h 2%nat /\
    Q1 i1 = Q 1%nat /\ Q1 (i1 + 1)%nat = Q 2%nat.
  Proof.
    intros En HF HB HP HS [K1 K2 K3 K4 K5].
    pose proof (forward_exact a b c P A E D i1 I1 n f Q h HF (fun j Hj => proj1 (HP j Hj)) HS) as XF.
    pose proof (backward_exact a b c P A E D i1 I1 n w Q h ltac:(lia) HB (fun j Hj => proj1 (proj2 (HP j Hj))) HS) as XB.
    rewrite En in *.
    assert (EQ : Q1 (i1 + 1)%nat = Q 2%nat).
    { rewrite K3 by lia. unfold Q_i_f. change (1 + 1)%nat with 2%nat. rewrite K2. specialize (XF 1%nat ltac:(lia)). cbn [Nat.add] in XF. rewrite XF. reflexivity. }
    split; [auto|]. split; [|split; [auto|split; [|auto]]].
    - rewrite K4 by lia. f_equal. unfold h_i_b. rewrite safe_divide_nz by (apply HP; lia).
      rewrite EQ. specialize (XB 1%nat ltac:(lia)). cbn [Nat.add] in XB. rewrite XB. field. apply HP; lia.
    - rewrite K5. unfold Q_i_b. specialize (XB 0%nat ltac:(lia)). rewrite Nat.add_0_r in XB. cbn [Nat.add] in XB. rewrite XB. reflexivity.
  Qed.
End One.

(** Reconstruction equations with the same coefficients have the same result. *)
Lemma internals_agree f w f' w' h_1 h_e i1 I1 n lo hi back h Q h' Q' : (1 <= n)%nat ->
  (forall j, (j < n)%nat -> fU f' (I1 + j)%nat = fU f (I1 + j)%nat /\ fV f' (I1 + j)%nat = fV f (I1 + j)%nat /\ fW f' (I1 + j)%nat = fW f (I1 + j)%nat) ->
  (forall j, (j < n)%nat -> bX w' (I1 + j)%nat = bX w (I1 + j)%nat /\ bY w' (I1 + j)%nat = bY w (I1 + j)%nat /\ bZ w' (I1 + j)%nat = bZ w (I1 + j)%nat) ->
  internals_eqs f w h_1 h_e i1 I1 n lo hi back h Q -> internals_eqs f' w' h_1 h_e i1 I1 n lo hi back h' Q' ->
  (forall j, (j <= n)%nat -> h' (I1 + j)%nat = h (I1 + j)%nat) /\ (forall j, (j < n)%nat -> Q' (i1 + j)%nat = Q (i1 + j)%nat).
Proof.
  intros Hn EF EB [K1 K2 K3 K4 K5] [L1 L2 L3 L4 L5].
  assert (G : forall m, (m < n)%nat -> h' (I1 + (n - m))%nat = h (I1 + (n - m))%nat /\ ((1 <= m)%nat -> Q' (i1 + (n - m))%nat = Q (i1 + (n - m))%nat)).
  { induction m as [|m IH]; intros Hm.
    - rewrite Nat.sub_0_r. split; [congruence|lia].
    - destruct (IH ltac:(lia)) as [IH1 _]. set (j := (n - S m)%nat). replace (n - m)%nat with (j + 1)%nat in * by (unfold j; lia).
      assert (Hj : (1 <= j < n)%nat) by (unfold j; lia).
      destruct (EF j ltac:(lia)) as (f1 & f2 & f3). destruct (EB j ltac:(lia)) as (b1 & b2 & b3).
      assert (EQ : Q' (i1 + j)%nat = Q (i1 + j)%nat) by (rewrite K3, L3, f1, f2, f3, IH1 by lia; reflexivity).
      split; [|auto]. rewrite K4, L4, b1, b2, b3, EQ by lia. reflexivity. }
  assert (Gh : forall j, (j <= n)%nat -> h' (I1 + j)%nat = h (I1 + j)%nat).
  { intros j Hj. destruct (Nat.eq_dec j 0) as [->|].
    - rewrite Nat.add_0_r. congruence.
    - destruct (G (n - j)%nat ltac:(lia)) as [G1 _]. now replace (n - (n - j))%nat with j in G1 by lia. }
  split; [exact Gh|]. intros j Hj. destruct (Nat.eq_dec j 0) as [->|].
  - destruct (EF 0%nat ltac:(lia)) as (f1 & f2 & f3). destruct (EB 0%nat ltac:(lia)) as (b1 & b2 & b3).
    rewrite Nat.add_0_r in *. rewrite K5, L5, f1, f2, f3, b1, b2, b3, Gh by lia. reflexivity.
  - destruct (G (n - j)%nat ltac:(lia)) as [_ G2]. replace (n - (n - j))%nat with j in G2 by lia. apply G2; lia.
Qed.

(** ** Coefficients of the whole network *)
Lemma u_ik_opp Q A : u_ik (- Q) A = - u_ik Q A.
Proof. unfold u_ik, Reqb. destruct (Req_EM_T A 0); [lra|]. field; auto. Qed.
Lemma damping_opp on u A B : damping on (- u) A B = damping on u A B.
Proof. unfold damping, Fr_ik. now rewrite Rabs_Ropp. Qed.
Lemma friction_opp Q dx A Rh n sf : friction_slope (- Q) dx A Rh n sf = friction_slope Q dx A Rh n sf.
Proof. unfold friction_slope. now rewrite Rabs_Ropp. Qed.
Lemma b_ik_swap dx dt n Q A Rh Ac C a c ctrl s sf : b_ik dx dt n (- Q) A Rh Ac C c a ctrl s sf = b_ik dx dt n Q A Rh Ac C a c ctrl s sf.
Proof. unfold b_ik. rewrite friction_opp, Rabs_Ropp. destruct (friction_slope _ _ _ _ _ _); [|reflexivity]. cbn [bind]. f_equal. ring. Qed.
Lemma P_ik_opp Q dx dt A S s : P_ik (- Q) dx dt A (- S) s = - P_ik Q dx dt A S s.
Proof. unfold P_ik, Rdiv. ring. Qed.
Lemma turn_ite r x : turn r x = if r then - x else x. Proof. reflexivity. Qed.

Definition mirror_head (h : headc) : headc := mkHead (- hk h) (hl h) (hm h).

Record mirrored_setup (rv : nat -> bool) (N : network) (G G' : geometry) (u u' : setup) : Prop := mkMSu {
  mu_hu : forall k, (k < n_K N)%nat -> u_hu u' k = pick (rv k) (u_hu u k) (mirror_head (u_hd u k));
  mu_hd : forall k, (k < n_K N)%nat -> u_hd u' k = pick (rv k) (u_hd u k) (mirror_head (u_hu u k));
  mu_co : forall k, (k < n_K N)%nat ->
    if rv k then mirror_coeffs (ma (u_m u)) (mb (u_m u)) (mc (u_m u)) (mP (u_m u)) (g_A G) (u_E u) (u_D u)
                   (ma (u_m u')) (mb (u_m u')) (mc (u_m u')) (mP (u_m u')) (g_A G') (u_E u') (u_D u') (n_i1 N k) (n_I1 N k) (n_nk N k)
    else same_coeffs (ma (u_m u)) (mb (u_m u)) (mc (u_m u)) (mP (u_m u)) (g_A G) (u_E u) (u_D u)
                   (ma (u_m u')) (mb (u_m u')) (mc (u_m u')) (mP (u_m u')) (g_A G') (u_E u') (u_D u') (n_i1 N k) (n_I1 N k) (n_nk N k);
  mu_same : forall k j, (k < n_K N)%nat -> rv k = false -> (j < n_nk N k)%nat -> let I := (n_I1 N k + j)%nat in
    (fU (u_f u') I = fU (u_f u) I /\ fV (u_f u') I = fV (u_f u) I /\ fW (u_f u') I = fW (u_f u) I) /\
    (bX (u_b u') I = bX (u_b u) I /\ bY (u_b u') I = bY (u_b u) I /\ bZ (u_b u') I = bZ (u_b u) I);
  mu_turn : forall k j, (k < n_K N)%nat -> rv k = true -> (j < n_nk N k)%nat ->
    let I' := (n_I1 N k + j)%nat in let I := (n_I1 N k + (n_nk N k - 1 - j))%nat in
    (fU (u_f u') I' = - bX (u_b u) I /\ fV (u_f u') I' = - bY (u_b u) I /\ fW (u_f u') I' = - bZ (u_b u) I) /\
    (bX (u_b u') I' = - fU (u_f u) I /\ bY (u_b u') I' = - fV (u_f u) I /\ bZ (u_b u') I' = - fW (u_f u) I) }.

Section Mirror.
Variable rv : nat -> bool.
Variables N N' : network.
Hypothesis HN : mirrored_network rv N N'.
Hypothesis Hwf : well_formed N.
Hypothesis Hwf' : well_formed N'.
Hypothesis Hz : n_bcm N = BCz.

Section Coeffs.
Variables (G G' : geometry) (w w' : work) (st st' sv sv' : hstate) (Q0 Q0' : arr) (dt : R) (u u' : setup).
Hypothesis HG : mirrored_geometry rv N G G'.
Hypothesis Hst : mirrored_state rv N st st'.
Hypothesis Hsv : mirrored_state rv N sv sv'.
Hypothesis HQ0 : mirrored_nodes rv N Q0 Q0'.
Hypothesis Hu : setup_step N G w st sv Q0 dt = Some u.
Hypothesis Hu' : setup_step N' G' w' st' sv' Q0' dt = Some u'.

Local Notation i1 := (n_i1 N).
Local Notation I1 := (n_I1 N).
Local Notation nk := (n_nk N).
Let vel i := u_ik (h_Q st i) (g_A G i).
Let vel' i := u_ik (h_Q st' i) (g_A G' i).
Let sig i := damping (n_damp N) (vel i) (g_A G i) (g_B G i).
Let sig' i := damping (n_damp N') (vel' i) (g_A G' i) (g_B G' i).

Lemma vel_mirror k j : (k < n_K N)%nat -> (j < nk k)%nat ->
  vel' (i1 k + j)%nat = turn (rv k) (vel (i1 k + flip_link (rv k) (nk k) j)%nat).
Proof.
  intros Hk Hj. unfold vel, vel'. rewrite (ms_Q _ _ _ _ Hst k j Hk Hj). destruct (mg_links _ _ _ _ HG k j Hk Hj) as (-> & _ & _).
  destruct (rv k); cbn [turn]; [apply u_ik_opp|reflexivity].
Qed.
Lemma sig_mirror k j : (k < n_K N)%nat -> (j < nk k)%nat ->
  sig' (i1 k + j)%nat = sig (i1 k + flip_link (rv k) (nk k) j)%nat.
Proof.
  intros Hk Hj. unfold sig, sig'. rewrite (vel_mirror k j Hk Hj). destruct (mg_links _ _ _ _ HG k j Hk Hj) as (-> & _ & ->).
  rewrite (mn_damp _ _ _ HN). destruct (rv k); cbn [turn]; [apply damping_opp|reflexivity].
Qed.

(** Velocities at the two ends of a link. *)
Lemma ends_mirror k j : (k < n_K N)%nat -> (j < nk k)%nat ->
  let i := (i1 k + flip_link (rv k) (nk k) j)%nat in
  u_Ik (n_dx N') vel' (n_lstart N') (i1 k + j) = pick (rv k) (u_Ik (n_dx N) vel (n_lstart N) i) (- u_Ip1k (n_dx N) vel (n_lend N) i) /\
  u_Ip1k (n_dx N') vel' (n_lend N') (i1 k + j) = pick (rv k) (u_Ip1k (n_dx N) vel (n_lend N) i) (- u_Ik (n_dx N) vel (n_lstart N) i).
Proof.
  intros Hk Hj i. pose proof (mn_marks' _ _ _ HN k j) as M'. rewrite (mn_K _ _ _ HN), (mn_nk _ _ _ HN), (mn_i1 _ _ _ HN) in M'.
  destruct (M' Hk Hj) as [Ms' Me']. clear M'.
  assert (Hf : (flip_link (rv k) (nk k) j < nk k)%nat) by (unfold flip_link; destruct (rv k); lia).
  destruct (mn_marks _ _ _ HN k _ Hk Hf) as [Ms Me]. fold i in Ms, Me.
  assert (Edx : forall x, (x < nk k)%nat -> n_dx N' (i1 k + x)%nat = n_dx N (i1 k + flip_link (rv k) (nk k) x)%nat)
    by (intros x Hx; apply (mn_links _ _ _ HN k x Hk Hx)).
  pose proof (fun x Hx => vel_mirror k x Hk Hx) as Ev.
  unfold u_Ik, u_Ip1k. rewrite Ms', Me', Ms, Me.
  unfold i, flip_link in *. destruct (rv k); cbn [pick turn] in *.
  - split.
    + destruct (Nat.eqb_spec j 0); destruct (Nat.eqb_spec (nk k - 1 - j) (nk k - 1)); try lia; [apply Ev; auto|]. cbv zeta.
      replace (i1 k + j - 1)%nat with (i1 k + (j - 1))%nat by lia. rewrite !Edx, !Ev by lia.
      replace (nk k - 1 - (j - 1))%nat with (nk k - 1 - j + 1)%nat by lia. rewrite (Nat.add_assoc (i1 k)).
      unfold Reqb. destruct (Req_EM_T _ 0); [lra|]. field; auto.
    + destruct (Nat.eqb_spec j (nk k - 1)); destruct (Nat.eqb_spec (nk k - 1 - j) 0); try lia; [apply Ev; auto|]. cbv zeta.
      replace (i1 k + j + 1)%nat with (i1 k + (j + 1))%nat by lia. rewrite !Edx, !Ev by lia.
      replace (nk k - 1 - (j + 1))%nat with (nk k - 1 - j - 1)%nat by lia.
      replace (i1 k + (nk k - 1 - j - 1))%nat with (i1 k + (nk k - 1 - j) - 1)%nat by lia.
      unfold Reqb. destruct (Req_EM_T _ 0); [lra|]. field; auto.
  - split.
    + destruct (Nat.eqb_spec j 0); [apply Ev; auto|]. cbv zeta.
      replace (i1 k + j - 1)%nat with (i1 k + (j - 1))%nat by lia. rewrite !Edx, !Ev by lia. reflexivity.
    + destruct (Nat.eqb_spec j (nk k - 1)); [apply Ev; auto|]. cbv zeta.
      replace (i1 k + j + 1)%nat with (i1 k + (j + 1))%nat by lia. rewrite !Edx, !Ev by lia. reflexivity.
Qed.

Let F := setup_facts_ok _ _ _ _ _ _ _ _ Hu.
Let F' := setup_facts_ok _ _ _ _ _ _ _ _ Hu'.

Lemma links_mirror k j : (k < n_K N)%nat -> (j < nk k)%nat ->
  let i' := (i1 k + j)%nat in
  let i := (i1 k + flip_link (rv k) (nk k) j)%nat in
  ma (u_m u') i' = pick (rv k) (ma (u_m u) i) (mc (u_m u) i) /\ mc (u_m u') i' = pick (rv k) (mc (u_m u) i) (ma (u_m u) i) /\
  mb (u_m u') i' = mb (u_m u) i /\ mP (u_m u') i' = turn (rv k) (mP (u_m u) i).
Proof.
  intros Hk Hj i' i.
  destruct F as [Fm _ _ _ _ _]. destruct F' as [Fm' _ _ _ _ _].
  destruct (link_coeffs_entries _ _ _ _ _ _ Fm) as (Ea & Ec & EP & Eb). destruct (link_coeffs_entries _ _ _ _ _ _ Fm') as (Ea' & Ec' & EP' & Eb').
  cbn [links_of l_dx l_n l_Q l_Qp l_A l_R l_B l_So l_Ac l_C l_ctrl l_start l_end l_sf] in Ea, Ec, EP, Eb, Ea', Ec', EP', Eb'.
  destruct (wf_range _ Hwf k Hk) as [R1 _].
  assert (Hf : (flip_link (rv k) (nk k) j < nk k)%nat) by (unfold flip_link; destruct (rv k); lia).
  specialize (Ea i). specialize (Ec i). specialize (EP i). specialize (Eb i ltac:(unfold i; lia)).
  specialize (Ea' i'). specialize (Ec' i'). specialize (EP' i').
  specialize (Eb' i' ltac:(rewrite (mn_L _ _ _ HN); unfold i'; lia)).
  change (ma (u_m u) i = a_ik (u_Ik (n_dx N) vel (n_lstart N) i) (sig i)) in Ea.
  change (mc (u_m u) i = c_ik (u_Ip1k (n_dx N) vel (n_lend N) i) (sig i)) in Ec.
  change (mP (u_m u) i = P_ik (h_Q sv i) (n_dx N i) dt (g_A G i) (n_So N i) (sig i)) in EP.
  change (b_ik (n_dx N i) dt (n_n N i) (h_Q st i) (g_A G i) (g_R G i) (n_Ac N i) (n_C N i) (ma (u_m u) i) (mc (u_m u) i)
            (n_ctrl N i) (sig i) (n_sf N i) = Some (mb (u_m u) i)) in Eb.
  change (ma (u_m u') i' = a_ik (u_Ik (n_dx N') vel' (n_lstart N') i') (sig' i')) in Ea'.
  change (mc (u_m u') i' = c_ik (u_Ip1k (n_dx N') vel' (n_lend N') i') (sig' i')) in Ec'.
  change (mP (u_m u') i' = P_ik (h_Q sv' i') (n_dx N' i') dt (g_A G' i') (n_So N' i') (sig' i')) in EP'.
  change (b_ik (n_dx N' i') dt (n_n N' i') (h_Q st' i') (g_A G' i') (g_R G' i') (n_Ac N' i') (n_C N' i') (ma (u_m u') i') (mc (u_m u') i')
            (n_ctrl N' i') (sig' i') (n_sf N' i') = Some (mb (u_m u') i')) in Eb'.
  destruct (ends_mirror k j Hk Hj) as [Eu Ed]. fold i i' in Eu, Ed.
  pose proof (sig_mirror k j Hk Hj) as Es. fold i i' in Es.
  destruct (mg_links _ _ _ _ HG k j Hk Hj) as (GA & GR & _). fold i i' in GA, GR.
  destruct (mn_links _ _ _ HN k j Hk Hj) as (X1 & X2 & X3 & X4 & X5 & X6 & X7). fold i i' in X1, X2, X3, X4, X5, X6, X7.
  pose proof (ms_Q _ _ _ _ Hst k j Hk Hj) as SQ. pose proof (ms_Q _ _ _ _ Hsv k j Hk Hj) as VQ. fold i i' in SQ, VQ.
  rewrite Eu, Es in Ea'. rewrite Ed, Es in Ec'. rewrite Es, GA, X1, X7, VQ in EP'. rewrite Es, GA, GR, X1, X2, X3, X4, X5, X6, SQ in Eb'.
  assert (Ra : ma (u_m u') i' = pick (rv k) (ma (u_m u) i) (mc (u_m u) i)).
  { rewrite Ea', Ea, Ec. destruct (rv k); reflexivity. }
  assert (Rc : mc (u_m u') i' = pick (rv k) (mc (u_m u) i) (ma (u_m u) i)).
  { rewrite Ec', Ea, Ec. destruct (rv k); [|reflexivity]. cbn [pick]. unfold c_ik, a_ik. now rewrite Ropp_involutive. }
  split; [exact Ra|]. split; [exact Rc|].
  rewrite Ra, Rc in Eb'. rewrite EP', EP. destruct (rv k); cbn [pick turn] in *.
  - rewrite b_ik_swap, Eb in Eb'. injection Eb' as <-. split; [reflexivity|]. apply P_ik_opp.
  - rewrite Eb in Eb'. injection Eb' as <-. auto.
Qed.

Lemma width_mirror k j : (k < n_K N)%nat -> (j <= nk k)%nat ->
  node_width (g_B G') (n_dx N') (n_ASI N') (g_Bu G') (g_Bd G') (n_dxu N') (n_dxd N') (n_kI N') (n_fwdi N') (n_bwdi N') (n_isS N') (n_isE N') (I1 k + j)
  = node_width (g_B G) (n_dx N) (n_ASI N) (g_Bu G) (g_Bd G) (n_dxu N) (n_dxd N) (n_kI N) (n_fwdi N) (n_bwdi N) (n_isS N) (n_isE N)
      (I1 k + flip_node (rv k) (nk k) j).
Proof.
  intros Hk Hj. pose proof (proj1 (wf_layout _ Hwf) k Hk) as Hn.
  pose proof (wf_chain _ Hwf' k j) as C'. rewrite (mn_K _ _ _ HN), (mn_nk _ _ _ HN), (mn_i1 _ _ _ HN), (mn_I1 _ _ _ HN) in C'.
  destruct (C' Hk Hj) as (K1' & K2' & K3' & K4' & K5'). clear C'.
  assert (Hf : (flip_node (rv k) (nk k) j <= nk k)%nat) by (unfold flip_node; destruct (rv k); lia).
  destruct (wf_chain _ Hwf k _ Hk Hf) as (K1 & K2 & K3 & K4 & K5).
  unfold node_width. rewrite K1', K2', K3', K1, K2, K3. rewrite (mn_nodes _ _ _ HN k j Hk Hj).
  assert (Edx : forall x, (x < nk k)%nat -> n_dx N' (i1 k + x)%nat = n_dx N (i1 k + flip_link (rv k) (nk k) x)%nat)
    by (intros x Hx; apply (mn_links _ _ _ HN k x Hk Hx)).
  assert (EB : forall x, (x < nk k)%nat -> g_B G' (i1 k + x)%nat = g_B G (i1 k + flip_link (rv k) (nk k) x)%nat)
    by (intros x Hx; apply (mg_links _ _ _ _ HG k x Hk Hx)).
  destruct (mn_ends _ _ _ HN k Hk) as (_ & _ & _ & _ & _ & _ & Du & Dd).
  destruct (mg_ends _ _ _ _ HG k Hk) as (_ & _ & Bu & Bd).
  unfold flip_node, flip_link, pick in *. destruct (rv k); cbv zeta.
  - destruct (Nat.eqb_spec j 0).
    + destruct (Nat.eqb_spec (nk k - j) 0); [lia|]. destruct (Nat.eqb_spec (nk k - j) (nk k)); [|lia].
      rewrite K4', K5 by lia. rewrite Edx, EB, Du, Bu by lia.
      replace (i1 k + (nk k - j) - 1)%nat with (i1 k + (nk k - 1 - j))%nat by lia. ring.
    + destruct (Nat.eqb_spec j (nk k)).
      * destruct (Nat.eqb_spec (nk k - j) 0); [|lia]. rewrite K5', K4 by lia.
        replace (i1 k + j - 1)%nat with (i1 k + (j - 1))%nat by lia. rewrite Edx, EB, Dd, Bd by lia.
        replace (nk k - 1 - (j - 1))%nat with (nk k - j)%nat by lia. ring.
      * destruct (Nat.eqb_spec (nk k - j) 0); [lia|]. destruct (Nat.eqb_spec (nk k - j) (nk k)); [lia|].
        rewrite K4', K4 by lia. replace (i1 k + j - 1)%nat with (i1 k + (j - 1))%nat by lia. rewrite !Edx, !EB by lia.
        replace (i1 k + (nk k - j) - 1)%nat with (i1 k + (nk k - 1 - j))%nat by lia.
        replace (nk k - 1 - (j - 1))%nat with (nk k - j)%nat by lia. ring.
  - destruct (Nat.eqb_spec j 0).
    + rewrite K4', K4 by lia. rewrite Edx, EB, Du, Bu by lia. reflexivity.
    + destruct (Nat.eqb_spec j (nk k)).
      * rewrite K5', K5 by lia. replace (i1 k + j - 1)%nat with (i1 k + (j - 1))%nat by lia. rewrite Edx, EB, Dd, Bd by lia. reflexivity.
      * rewrite K4', K4 by lia. replace (i1 k + j - 1)%nat with (i1 k + (j - 1))%nat by lia. rewrite !Edx, !EB by lia. reflexivity.
Qed.

Lemma nodes_mirror k j : (k < n_K N)%nat -> (j <= nk k)%nat ->
  u_E u' (I1 k + j)%nat = u_E u (I1 k + flip_node (rv k) (nk k) j)%nat /\
  u_D u' (I1 k + j)%nat = u_D u (I1 k + flip_node (rv k) (nk k) j)%nat.
Proof.
  intros Hk Hj. destruct F as [_ Fn _ _ _ _]. destruct F' as [_ Fn' _ _ _ _]. destruct (wf_range _ Hwf k Hk) as [_ R2].
  assert (Hf : (flip_node (rv k) (nk k) j <= nk k)%nat) by (unfold flip_node; destruct (rv k); lia).
  assert (H1 : (I1 k + flip_node (rv k) (nk k) j < n_J N)%nat) by lia.
  assert (H2 : (I1 k + j < n_J N')%nat) by (rewrite (mn_J _ _ _ HN); lia).
  destruct (node_coeffs_entries _ _ _ _ _ _ _ _ _ _ _ _ _ _ _ _ _ _ _ _ Fn _ H1) as [-> ->].
  destruct (node_coeffs_entries _ _ _ _ _ _ _ _ _ _ _ _ _ _ _ _ _ _ _ _ Fn' _ H2) as [-> ->].
  rewrite (width_mirror k j Hk Hj), (HQ0 k j Hk Hj), (ms_h _ _ _ _ Hsv k j Hk Hj). auto.
Qed.

Lemma zahner_up H z Q Qp dx A C Rh n sf S H' z' Q' Qp' dx' A' C' Rh' n' sf' S' h h' :
  H' = H -> z' = z -> Q' = - Q -> A' = A -> C' = C ->
  downstream_head_coefficients BCz H z Q Qp dx A C Rh n sf S dt = Some h ->
  upstream_head_coefficients BCz H' z' Q' Qp' dx' A' C' Rh' n' sf' S' dt = Some h' -> h' = mirror_head h.
Proof.
  intros -> -> -> -> ->. unfold downstream_head_coefficients, upstream_head_coefficients. injection 1 as <-. injection 1 as <-.
  unfold mirror_head, gamma_uk, gamma_dk. cbn [hk hl hm]. rewrite Rabs_Ropp, (Ropp_mult_distr_l_reverse (Rabs Q)), safe_divide_opp. reflexivity.
Qed.
Lemma zahner_down H z Q Qp dx A C Rh n sf S H' z' Q' Qp' dx' A' C' Rh' n' sf' S' h h' :
  H' = H -> z' = z -> Q' = - Q -> A' = A -> C' = C ->
  upstream_head_coefficients BCz H z Q Qp dx A C Rh n sf S dt = Some h ->
  downstream_head_coefficients BCz H' z' Q' Qp' dx' A' C' Rh' n' sf' S' dt = Some h' -> h' = mirror_head h.
Proof.
  intros -> -> -> -> ->. unfold downstream_head_coefficients, upstream_head_coefficients. injection 1 as <-. injection 1 as <-.
  unfold mirror_head, gamma_uk, gamma_dk. cbn [hk hl hm]. rewrite Rabs_Ropp, (Ropp_mult_distr_l_reverse (Rabs Q)), safe_divide_opp, Ropp_involutive. reflexivity.
Qed.

Lemma heads_mirror k : (k < n_K N)%nat ->
  u_hu u' k = pick (rv k) (u_hu u k) (mirror_head (u_hd u k)) /\ u_hd u' k = pick (rv k) (u_hd u k) (mirror_head (u_hu u k)).
Proof.
  intros Hk. destruct F as [_ _ _ _ Fu Fd]. destruct F' as [_ _ _ _ Fu' Fd'].
  assert (Hk' : (k < n_K N')%nat) by (rewrite (mn_K _ _ _ HN); auto).
  specialize (Fu k Hk). specialize (Fd k Hk). specialize (Fu' k Hk'). specialize (Fd' k Hk').
  rewrite (mn_bcm _ _ _ HN), Hz in Fu', Fd'. rewrite Hz in Fu, Fd.
  destruct (mn_ends _ _ _ HN k Hk) as (J1 & J2 & z1 & z2 & C1 & C2 & x1 & x2).
  destruct (mg_ends _ _ _ _ HG k Hk) as (A1 & A2 & _ & _).
  destruct (ms_Qe _ _ _ _ Hst k Hk) as (q1 & q2). destruct (wf_ends _ Hwf k Hk) as [W1 W2].
  pose proof (ms_H _ _ _ _ Hst) as EH.
  unfold pick in *. destruct (rv k).
  - split.
    + refine (zahner_up _ _ _ _ _ _ _ _ _ _ _ _ _ _ _ _ _ _ _ _ _ _ _ _ _ _ _ _ _ Fd Fu'); auto. rewrite J1. auto.
    + refine (zahner_down _ _ _ _ _ _ _ _ _ _ _ _ _ _ _ _ _ _ _ _ _ _ _ _ _ _ _ _ _ Fu Fd'); auto. rewrite J2. auto.
  - split.
    + unfold upstream_head_coefficients in *. rewrite J1, z1, C1, A1, q1, EH in Fu' by auto. rewrite Fu in Fu'. now injection Fu'.
    + unfold downstream_head_coefficients in *. rewrite J2, z2, C2, A2, q2, EH in Fd' by auto. rewrite Fd in Fd'. now injection Fd'.
Qed.

Lemma setup_mirror : mirrored_setup rv N G G' u u'.
Proof.
  assert (CO : forall k, (k < n_K N)%nat ->
    if rv k then mirror_coeffs (ma (u_m u)) (mb (u_m u)) (mc (u_m u)) (mP (u_m u)) (g_A G) (u_E u) (u_D u)
                   (ma (u_m u')) (mb (u_m u')) (mc (u_m u')) (mP (u_m u')) (g_A G') (u_E u') (u_D u') (n_i1 N k) (n_I1 N k) (n_nk N k)
    else same_coeffs (ma (u_m u)) (mb (u_m u)) (mc (u_m u)) (mP (u_m u)) (g_A G) (u_E u) (u_D u)
                   (ma (u_m u')) (mb (u_m u')) (mc (u_m u')) (mP (u_m u')) (g_A G') (u_E u') (u_D u') (n_i1 N k) (n_I1 N k) (n_nk N k)).
  { intros k Hk. pose proof (fun j Hj => links_mirror k j Hk Hj) as L. pose proof (fun j Hj => nodes_mirror k j Hk Hj) as Nd.
    pose proof (fun j Hj => mg_links _ _ _ _ HG k j Hk Hj) as GL. cbv zeta in *. unfold pick, turn, flip_link, flip_node in *.
    destruct (rv k); constructor; cbv zeta; intros j Hj; auto; destruct (L j Hj) as (L1 & L2 & L3 & L4); destruct (GL j Hj) as (L5 & _); auto 10. }
  destruct F as [_ _ Ff Fb _ _]. destruct F' as [_ _ Ff' Fb' _ _].
  rewrite (mn_K _ _ _ HN), (mn_nk _ _ _ HN), (mn_i1 _ _ _ HN), (mn_I1 _ _ _ HN) in Ff', Fb'.
  assert (FE : forall k, (k < n_K N)%nat -> fwd_eqs (ma (u_m u)) (mb (u_m u)) (mc (u_m u)) (mP (u_m u)) (g_A G) (u_E u) (u_D u) (i1 k) (I1 k) (nk k) (u_f u))
    by (exact (forward_recurrence_ok _ _ _ _ _ _ _ _ _ _ _ _ _ (wf_layout _ Hwf) Ff)).
  assert (FE' : forall k, (k < n_K N)%nat -> fwd_eqs (ma (u_m u')) (mb (u_m u')) (mc (u_m u')) (mP (u_m u')) (g_A G') (u_E u') (u_D u') (i1 k) (I1 k) (nk k) (u_f u'))
    by (exact (forward_recurrence_ok _ _ _ _ _ _ _ _ _ _ _ _ _ (wf_layout _ Hwf) Ff')).
  assert (BE : forall k, (k < n_K N)%nat -> bwd_eqs (ma (u_m u)) (mb (u_m u)) (mc (u_m u)) (mP (u_m u)) (g_A G) (u_E u) (u_D u) (i1 k) (I1 k) (nk k) (u_b u))
    by (exact (backward_recurrence_ok _ _ _ _ _ _ _ _ _ _ _ _ _ _ _ (wf_layout _ Hwf) (fun k _ => conj eq_refl eq_refl) Fb)).
  assert (BE' : forall k, (k < n_K N)%nat -> bwd_eqs (ma (u_m u')) (mb (u_m u')) (mc (u_m u')) (mP (u_m u')) (g_A G') (u_E u') (u_D u') (i1 k) (I1 k) (nk k) (u_b u'))
    by (exact (backward_recurrence_ok _ _ _ _ _ _ _ _ _ _ _ _ _ _ _ (wf_layout _ Hwf) (fun k _ => conj eq_refl eq_refl) Fb')).
  constructor.
  - intros k Hk. apply heads_mirror; auto.
  - intros k Hk. apply heads_mirror; auto.
  - exact CO.
  - intros k j Hk Er Hj I. specialize (CO k Hk). rewrite Er in CO. pose proof (proj1 (wf_layout _ Hwf) k Hk) as Hn.
    split; [exact (fwd_agree _ _ _ _ _ _ _ _ _ _ _ _ _ _ _ _ _ _ _ Hn CO (FE k Hk) (FE' k Hk) j Hj)
           |exact (bwd_agree _ _ _ _ _ _ _ _ _ _ _ _ _ _ _ _ _ _ _ Hn CO (BE k Hk) (BE' k Hk) j Hj)].
  - intros k j Hk Er Hj I' I. specialize (CO k Hk). rewrite Er in CO. pose proof (proj1 (wf_layout _ Hwf) k Hk) as Hn.
    split.
    + destruct (fwd_mirror _ _ _ _ _ _ _ _ _ _ _ _ _ _ _ _ _ _ _ Hn CO (FE' k Hk) (BE k Hk) j Hj) as (_ & A1 & A2 & A3). auto.
    + assert (CO' : mirror_coeffs (ma (u_m u')) (mb (u_m u')) (mc (u_m u')) (mP (u_m u')) (g_A G') (u_E u') (u_D u')
                   (ma (u_m u)) (mb (u_m u)) (mc (u_m u)) (mP (u_m u)) (g_A G) (u_E u) (u_D u) (i1 k) (I1 k) (nk k)).
      { destruct CO as [Cl Cn]. constructor; cbv zeta in *.
        - intros x Hx. destruct (Cl (nk k - 1 - x)%nat ltac:(lia)) as (c1 & c2 & c3 & c4 & c5).
          replace (nk k - 1 - (nk k - 1 - x))%nat with x in c1, c2, c3, c4, c5 by lia. rewrite c1, c2, c3, c4, c5. rewrite Ropp_involutive. auto 10.
        - intros x Hx. destruct (Cn (nk k - x)%nat ltac:(lia)) as (c1 & c2).
          replace (nk k - (nk k - x))%nat with x in c1, c2 by lia. auto. }
      destruct (fwd_mirror _ _ _ _ _ _ _ _ _ _ _ _ _ _ _ _ _ _ _ Hn CO' (FE k Hk) (BE' k Hk) (nk k - 1 - j)%nat ltac:(lia)) as (_ & A1 & A2 & A3).
      replace (nk k - 1 - (nk k - 1 - j))%nat with j in A1, A2, A3 by lia. fold I I' in A1, A2, A3. rewrite A1, A2, A3, !Ropp_involutive. auto.
Qed.
End Coeffs.
End Mirror.
