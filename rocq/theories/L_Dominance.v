(** A wet superlink passes on at most what it receives: the conductances of its two ends are ordered. *)
From Verif Require Import Prelude M_Coeffs M_Recurrence S_Superlink L_Forward L_Backward L_Pivots L_Internals L_Boundary.

Section EndOrder.
  Variables a b c P A E D : arr.
  Variables i1 I1 n : nat.
  Variables (f : fwd) (bw : bwd).
  Hypothesis Hn : (1 <= n)%nat.
  Hypothesis HF : fwd_eqs a b c P A E D i1 I1 n f.
  Hypothesis HB : bwd_eqs a b c P A E D i1 I1 n bw.
  Hypothesis Hw : wet_superlink a b c A E i1 I1 n.

  Let HT : forall j, (j < n)%nat -> fT f (i1 + j)%nat <> 0.
  Proof. intros j Hj. pose proof (fwd_signs a b c P A E D i1 I1 n f HF Hw j Hj). lra. Qed.
  Let HO : forall j, (j < n)%nat -> bO bw (i1 + j)%nat <> 0.
  Proof. intros j Hj. pose proof (bwd_signs a b c P A E D i1 I1 n bw Hn HB Hw j Hj). lra. Qed.

  (** Interior depths respond with the sign of the end depths. *)
  Lemma interior_depth Q h j :
    superlink_solution a b c P A E D i1 I1 n Q h -> (1 <= j)%nat -> (j < n)%nat ->
    (E (I1 + j)%nat - fU f (I1 + j - 1)%nat + bX bw (I1 + j)%nat) * h j
    = fW f (I1 + j - 1)%nat * h 0%nat - bZ bw (I1 + j)%nat * h n
      + (D (I1 + j)%nat + fV f (I1 + j - 1)%nat - bY bw (I1 + j)%nat).
  Proof.
    intros HS H1 H2.
    pose proof (forward_exact a b c P A E D i1 I1 n f Q h HF HT HS (j - 1)%nat ltac:(lia)) as XF.
    pose proof (backward_exact a b c P A E D i1 I1 n bw Q h Hn HB HO HS j ltac:(lia)) as XB.
    destruct HS as [_ HC]. pose proof (HC j ltac:(lia)) as C0.
    replace (j - 1 + 1)%nat with j in XF by lia. replace (I1 + (j - 1))%nat with (I1 + j - 1)%nat in XF by lia.
    rewrite XF, XB in C0. lra.
  Qed.

  Lemma continuity_sum Q h m m' :
    continuity E D I1 n Q h -> (m + m' <= n + 1)%nat ->
    sum_n (fun j => E (I1 + (m + j))%nat * h (m + j)%nat - D (I1 + (m + j))%nat) m' = Q m - Q (m + m')%nat.
  Proof.
    intros HC. induction m' as [|m' IH]; intros Hm; simpl.
    - rewrite Nat.add_0_r. lra.
    - rewrite IH by lia. rewrite HC by lia. replace (m + m' + 1)%nat with (m + S m')%nat by lia. lra.
  Qed.

  (** Differences of two solutions with the same downstream (resp. upstream) depth. *)
  Lemma responses Q h Q' h' j :
    superlink_solution a b c P A E D i1 I1 n Q h -> superlink_solution a b c P A E D i1 I1 n Q' h' ->
    (h 0%nat <= h' 0%nat) -> (h n <= h' n) -> (j <= n)%nat -> h j <= h' j.
  Proof.
    intros HS HS' H0 H1 Hj.
    destruct (Nat.eq_dec j 0) as [->|]; auto. destruct (Nat.eq_dec j n) as [->|]; auto.
    pose proof (interior_depth Q h j HS ltac:(lia) ltac:(lia)) as X.
    pose proof (interior_depth Q' h' j HS' ltac:(lia) ltac:(lia)) as X'.
    pose proof (fwd_signs a b c P A E D i1 I1 n f HF Hw (j - 1)%nat ltac:(lia)) as (_ & U & W).
    pose proof (bwd_signs a b c P A E D i1 I1 n bw Hn HB Hw j ltac:(lia)) as (_ & X0 & Z).
    replace (I1 + (j - 1))%nat with (I1 + j - 1)%nat in * by lia.
    destruct Hw as [_ HE]. specialize (HE j ltac:(lia)).
    set (k := E (I1 + j)%nat - fU f (I1 + j - 1)%nat + bX bw (I1 + j)%nat) in *.
    assert (Hk : 0 < k) by (unfold k; lra).
    apply (Rmult_le_reg_l k); auto. nra.
  Qed.

  Lemma end_order (end_o : bool) :
    let e := end_coeffs end_o f bw E D I1 (I1 + n - 1) (I1 + n) in
    0 < eW e <= eX e /\ eU e <= eZ e < 0.
  Proof.
    intros e.
    destruct (superlink_solution_exists a b c P A E D i1 I1 n f 0 0 Hn HF HT) as (Q & h & HS & h0 & hn).
    destruct (superlink_solution_exists a b c P A E D i1 I1 n f 1 0 Hn HF HT) as (Qa & ha & HSa & ha0 & han).
    destruct (superlink_solution_exists a b c P A E D i1 I1 n f 0 1 Hn HF HT) as (Qb & hb & HSb & hb0 & hbn).
    pose proof (end_meaning a b c P A E D i1 I1 n f bw Hn HF HB HT HO end_o Q h HS) as M0.
    pose proof (end_meaning a b c P A E D i1 I1 n f bw Hn HF HB HT HO end_o Qa ha HSa) as Ma.
    pose proof (end_meaning a b c P A E D i1 I1 n f bw Hn HF HB HT HO end_o Qb hb HSb) as Mb.
    cbv zeta in M0, Ma, Mb. fold e in M0, Ma, Mb.
    rewrite h0, hn in M0. rewrite ha0, han in Ma. rewrite hb0, hbn in Mb.
    assert (RA : forall j, (j <= n)%nat -> h j <= ha j) by (intros; apply (responses Q h Qa ha); auto; lra).
    assert (RB : forall j, (j <= n)%nat -> h j <= hb j) by (intros; apply (responses Q h Qb hb); auto; lra).
    assert (SG : 0 < eW e /\ eZ e < 0).
    { pose proof (fwd_signs a b c P A E D i1 I1 n f HF Hw (n - 1)%nat ltac:(lia)) as (_ & _ & W).
      pose proof (bwd_signs a b c P A E D i1 I1 n bw Hn HB Hw 0%nat ltac:(lia)) as (_ & _ & Z).
      replace (I1 + (n - 1))%nat with (I1 + n - 1)%nat in W by lia. rewrite Nat.add_0_r in Z.
      unfold e, end_coeffs. destruct end_o; simpl; auto. }
    destruct HS as [_ HC]. destruct HSa as [_ HCa]. destruct HSb as [_ HCb].
    destruct Hw as [_ HE].
    assert (Key : forall m m', (m + m' <= n + 1)%nat ->
       Q m - Q (m + m')%nat <= Qa m - Qa (m + m')%nat /\ Q m - Q (m + m')%nat <= Qb m - Qb (m + m')%nat).
    { intros m m' Hm. rewrite <- !(continuity_sum _ _ m m' HC Hm), <- !(continuity_sum _ _ m m' HCa Hm),
        <- !(continuity_sum _ _ m m' HCb Hm).
      split; apply sum_n_le; intros j Hj.
      - pose proof (RA (m + j)%nat ltac:(lia)). pose proof (HE (m + j)%nat ltac:(lia)). nra.
      - pose proof (RB (m + j)%nat ltac:(lia)). pose proof (HE (m + j)%nat ltac:(lia)). nra. }
    destruct SG. split; split; auto.
    - destruct end_o.
      + pose proof (Key 1%nat (n - 1)%nat ltac:(lia)) as [K _]. replace (1 + (n - 1))%nat with n in K by lia. lra.
      + pose proof (Key 0%nat (n + 1)%nat ltac:(lia)) as [K _]. replace (0 + (n + 1))%nat with (n + 1)%nat in K by lia. lra.
    - destruct end_o.
      + pose proof (Key 1%nat (n - 1)%nat ltac:(lia)) as [_ K]. replace (1 + (n - 1))%nat with n in K by lia. lra.
      + pose proof (Key 0%nat (n + 1)%nat ltac:(lia)) as [_ K]. replace (0 + (n + 1))%nat with (n + 1)%nat in K by lia. lra.
  Qed.
End EndOrder.

Lemma determinant_pos_ordered X U Z W ku kd :
  ku <= 0 -> 0 <= kd -> 0 <= W <= X -> U <= Z <= 0 -> 1 <= D_k_star X ku U kd Z W.
Proof.
  intros. unfold D_k_star.
  replace ((X * ku - 1) * (U * kd - 1) - Z * kd * (W * ku))
    with (1 + X * (- ku) + (- U) * kd + (X * (- U) - W * (- Z)) * ((- ku) * kd)) by ring.
  assert (0 <= X * - ku) by (apply Rmult_le_pos; lra).
  assert (0 <= - U * kd) by (apply Rmult_le_pos; lra).
  assert (0 <= - ku * kd) by (apply Rmult_le_pos; lra).
  assert (W * - Z <= X * - U) by (apply Rmult_le_compat; lra).
  assert (0 <= (X * - U - W * - Z) * (- ku * kd)) by (apply Rmult_le_pos; lra). lra.
Qed.

(** Order of the flow coefficients of a superlink. *)
Lemma flow_coeff_order e hu hd :
  hk hu <= 0 -> 0 <= hk hd -> 0 <= hl hu -> 0 <= hl hd -> 0 < eW e <= eX e -> eU e <= eZ e < 0 ->
  let fc := superlink_flow_coefficients e hu hd in
  0 <= ad fc <= au fc /\ bd fc <= bu fc <= 0.
Proof.
  intros Hku Hkd Hlu Hld HX HU fc.
  pose proof (determinant_pos_ordered (eX e) (eU e) (eZ e) (eW e) (hk hu) (hk hd) Hku Hkd ltac:(lra) ltac:(lra)) as HD.
  unfold fc, superlink_flow_coefficients; simpl.
  unfold alpha_uk, beta_uk, alpha_dk, beta_dk. rewrite !safe_divide_nz by lra.
  set (Dk := D_k_star _ _ _ _ _ _) in *.
  assert (Hi : 0 < / Dk) by (apply Rinv_0_lt_compat; lra).
  assert (G : eW e * - eZ e <= eX e * - eU e) by (apply Rmult_le_compat; lra).
  assert (G1 : 0 <= hk hd * (eX e * - eU e - eW e * - eZ e)) by (apply Rmult_le_pos; lra).
  assert (G2 : 0 <= - hk hu * (eX e * - eU e - eW e * - eZ e)) by (apply Rmult_le_pos; lra).
  unfold Rdiv.
  replace ((1 - eX e * hk hu) * eW e + eW e * hk hu * eX e) with (eW e) by ring.
  replace ((1 - eU e * hk hd) * eZ e + eZ e * hk hd * eU e) with (eZ e) by ring.
  split; split.
  - repeat apply Rmult_le_pos; lra.
  - apply Rmult_le_compat_r; [lra|]. apply Rmult_le_compat_l; lra.
  - apply Rmult_le_compat_r; [lra|]. apply Rmult_le_compat_l; [lra|]. lra.
  - assert (0 <= hl hd * - eZ e * / Dk) by (repeat apply Rmult_le_pos; lra). lra.
Qed.
