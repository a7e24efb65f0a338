(** Properties C33-C37: orifices, weirs and pumps. *)
From Coq Require Import Nsatz.
From Verif Require Import Prelude M_Coeffs M_Recurrence M_Assembly M_Controls S_Controls S_Network P_Assembly P_Wellposed P_Step.

Lemma g_pos : 0 < g. Proof. unfold g; lra. Qed.
Lemma omega_hi H_u H_d : omega H_u H_d * H_u + (1 - omega H_u H_d) * H_d = Rmax H_u H_d.
Proof. unfold omega. destruct (Rleb_spec H_d H_u); unfold Rmax; destruct (Rle_dec H_u H_d); lra. Qed.
Lemma omega_lo H_u H_d : (1 - omega H_u H_d) * H_u + omega H_u H_d * H_d = Rmin H_u H_d.
Proof. unfold omega. destruct (Rleb_spec H_d H_u); unfold Rmin; destruct (Rle_dec H_u H_d); lra. Qed.
Lemma flip_omega H_u H_d : flip (omega H_u H_d) = if Rleb H_d H_u then 1 else -1.
Proof. unfold omega, flip. destruct (Rleb_spec H_d H_u); dR; lra. Qed.
Lemma flip_abs H_u H_d : Rabs (flip (omega H_u H_d)) = 1.
Proof. rewrite flip_omega. destruct (Rleb H_d H_u); [apply Rabs_pos_eq; lra|rewrite Rabs_left; lra]. Qed.

(** Value of the linear law: sign times gamma times the effective head. *)
Lemma orifice_linear gam H_u H_d u z_inv z_o tau y_max oneway :
  0 <= tau * y_max * u ->
  let '(a, b, c) := orifice_coeffs gam H_u H_d u z_inv z_o tau y_max oneway in
  a * H_u + b * H_d + c
  = if (oneway && Rleb H_u H_d)%bool then 0
    else flip (omega H_u H_d) * (gam * orifice_head (z_inv + z_o) (tau * y_max * u) (Rmax H_u H_d) (Rmin H_u H_d)).
Proof.
  intros Hy. unfold orifice_coeffs. rewrite omega_hi, omega_lo.
  rewrite (andb_comm oneway). destruct (Rleb H_u H_d && oneway)%bool eqn:E3.
  { rewrite orb_true_r. lra. }
  rewrite orb_false_r. unfold orifice_head.
  pose proof (omega_hi H_u H_d) as EH. pose proof (omega_lo H_u H_d) as EL.
  set (hi := Rmax H_u H_d) in *. set (lo := Rmin H_u H_d) in *.
  assert (FO : flip (omega H_u H_d) = 2 * omega H_u H_d - 1).
  { rewrite flip_omega. unfold omega. destruct (Rleb H_d H_u); lra. }
  assert (OO : omega H_u H_d * omega H_u H_d = omega H_u H_d) by (unfold omega; destruct (Rleb H_d H_u); lra).
  set (w := omega H_u H_d) in *. rewrite FO.
  destruct (Rltb_spec (z_o + z_inv + tau * y_max * u) hi); destruct (Rltb_spec (z_o + z_inv) hi);
    destruct (Rltb_spec (z_o + z_inv + tau * y_max * u / 2) lo); cbn [negb andb];
    destruct (Rleb_spec hi (z_inv + z_o)); try lra;
    destruct (Rleb_spec hi (z_inv + z_o + tau * y_max * u)); try lra;
    destruct (Rltb_spec (z_inv + z_o + tau * y_max * u / 2) lo); try lra.
  all: rewrite <- EH, <- ?EL; clear - OO; nsatz.
Qed.

Lemma orifice_head_nonneg z y hi lo : 0 <= y -> lo <= hi -> 0 <= orifice_head z y hi lo.
Proof. intros. unfold orifice_head. dR; lra. Qed.

(** ** C33  Orifices *)

(** The reported discharge (before the volume limit) is the orifice law, for all heads, openings and dimensions. *)
Theorem C33_orifice_discharge_is_the_law :
  forall A C H_u H_d u z_inv z_o tau y_max oneway,
  0 <= tau * y_max * u ->
  orifice_discharge A C H_u H_d u z_inv z_o tau y_max oneway
  = orifice_law A C (z_inv + z_o) (tau * y_max * u) H_u H_d oneway.
Proof.
  intros A C H_u H_d u z_inv z_o tau y_max oneway Hy. unfold orifice_discharge, orifice_law.
  pose proof (orifice_linear (2 * g * C ^ 2 * A ^ 2) H_u H_d u z_inv z_o tau y_max oneway Hy) as E.
  destruct (orifice_coeffs _ _ _ _ _ _ _ _ _) as [[a b] c]. rewrite E. clear E.
  destruct (oneway && Rleb H_u H_d)%bool.
  - rewrite Rabs_R0, sqrt_0. lra.
  - rewrite <- flip_omega. f_equal. rewrite Rabs_mult, flip_abs, Rmult_1_l.
    set (h := orifice_head _ _ _ _). pose proof g_pos.
    replace (2 * g * C ^ 2 * A ^ 2 * h) with ((C * A) ^ 2 * (2 * g * h)) by ring.
    rewrite Rabs_mult, (Rabs_pos_eq ((C * A) ^ 2)) by apply pow2_ge_0.
    rewrite sqrt_mult_alt by apply pow2_ge_0. rewrite <- Rsqr_pow2, sqrt_Rsqr_abs.
    rewrite (Rabs_mult (2 * g)), (Rabs_pos_eq (2 * g)) by lra. reflexivity.
Qed.

(** What the user relies on: direction, dry orifice, check valve, size. *)
Theorem C33_orifice_direction_and_closing :
  forall A C H_u H_d u z_inv z_o tau y_max oneway V_u V_d dt,
  0 <= tau * y_max * u -> 0 <= V_u -> 0 <= V_d -> 0 < dt ->
  let Q := solve_orifice_flows A C H_u H_d u z_inv z_o tau y_max oneway V_u V_d dt in
  (0 < Q -> H_d <= H_u) /\ (Q < 0 -> H_u < H_d) /\
  (H_u <= z_inv + z_o -> H_d <= z_inv + z_o -> Q = 0) /\
  (oneway = true -> 0 <= Q /\ (H_u <= H_d -> Q = 0)) /\
  (A = 0 \/ C = 0 -> Q = 0) /\
  (H_u = H_d -> z_inv + z_o + tau * y_max * u < H_u -> Q = 0) /\
  Rabs Q <= Rabs (C * A) * sqrt (2 * g * Rmax 0 (Rmax H_u H_d - (z_inv + z_o))).
Proof.
  intros A C H_u H_d u z_inv z_o tau y_max oneway V_u V_d dt Hy HVu HVd Hdt Q.
  unfold solve_orifice_flows, limit_orifice in Q.
  pose proof (C33_orifice_discharge_is_the_law A C H_u H_d u z_inv z_o tau y_max oneway Hy) as Eq.
  set (q := orifice_discharge A C H_u H_d u z_inv z_o tau y_max oneway) in *.
  assert (SG : forall m, 0 <= m -> (0 < sign q * m -> 0 < q) /\ (sign q * m < 0 -> q < 0) /\ (q = 0 -> sign q * m = 0) /\ Rabs (sign q * m) <= m /\ (0 <= q -> 0 <= sign q * m)).
  { intros m Hm. unfold sign. destruct (Rltb_spec q 0); [|destruct (Rltb_spec 0 q)]; repeat split; intros; try nra.
    - rewrite Rabs_mult, (Rabs_left (-1)), (Rabs_pos_eq m); lra.
    - rewrite Rmult_1_l, Rabs_pos_eq; lra.
    - rewrite Rmult_0_l, Rabs_R0; lra. }
  assert (Hm : 0 <= Rmin (Rabs q) ((if Rltb H_d H_u then V_u else V_d) / dt)).
  { apply Rmin_glb; [apply Rabs_pos|]. apply Rmult_le_pos; [destruct (Rltb H_d H_u); auto|]. left; now apply Rinv_0_lt_compat. }
  destruct (SG _ Hm) as (S1 & S2 & S3 & S4 & S5).
  assert (EQ : sign q * Rmin (Rabs q) ((if Rltb H_d H_u then V_u else V_d) / dt) = Q) by reflexivity.
  rewrite EQ in S1, S2, S3, S4, S5. clear EQ.
  unfold orifice_law in Eq.
  set (h := orifice_head (z_inv + z_o) (tau * y_max * u) (Rmax H_u H_d) (Rmin H_u H_d)) in *.
  set (body := Rabs (C * A) * sqrt (2 * g * Rabs h)) in *.
  assert (Hbody : 0 <= body) by (apply Rmult_le_pos; [apply Rabs_pos|apply sqrt_pos]).
  clearbody Q q.
  assert (Hh0 : h = 0 -> q = 0).
  { intros E. rewrite Eq. unfold body. rewrite E, Rabs_R0, Rmult_0_r, sqrt_0. destruct (oneway && Rleb H_u H_d)%bool; lra. }
  split; [|split; [|split; [|split; [|split; [|split]]]]].
  - intros HQ. apply S1 in HQ. rewrite Eq in HQ. destruct (oneway && Rleb H_u H_d)%bool; [lra|].
    destruct (Rleb_spec H_d H_u); lra.
  - intros HQ. apply S2 in HQ. rewrite Eq in HQ. destruct (oneway && Rleb H_u H_d)%bool; [lra|].
    destruct (Rleb_spec H_d H_u); lra.
  - intros H1 H2. apply S3, Hh0. unfold h, orifice_head.
    assert (Rmax H_u H_d <= z_inv + z_o) by (apply Rmax_lub; auto).
    destruct (Rleb_spec (Rmax H_u H_d) (z_inv + z_o)); lra.
  - intros ->. rewrite andb_true_l in Eq. split.
    + apply S5. rewrite Eq. destruct (Rleb_spec H_u H_d); [lra|]. destruct (Rleb_spec H_d H_u); lra.
    + intros H1. apply S3. rewrite Eq. destruct (Rleb_spec H_u H_d); [lra|contradiction].
  - intros HAC. apply S3. rewrite Eq. unfold body. replace (C * A) with 0 by (destruct HAC; subst; ring).
    rewrite Rabs_R0, Rmult_0_l. destruct (oneway && Rleb H_u H_d)%bool; lra.
  - intros E H1. apply S3, Hh0. subst H_d. unfold h. rewrite Rmax_left, Rmin_left by lra.
    unfold orifice_head. dR; lra.
  - assert (Rabs q <= body).
    { rewrite Eq. destruct (oneway && Rleb H_u H_d)%bool; [rewrite Rabs_R0; lra|].
      destruct (Rleb H_d H_u); [rewrite Rmult_1_l, Rabs_pos_eq; lra|].
      replace (-1 * body) with (- body) by ring. rewrite Rabs_Ropp, Rabs_pos_eq; lra. }
    assert (Rmin (Rabs q) ((if Rltb H_d H_u then V_u else V_d) / dt) <= Rabs q) by apply Rmin_l.
    apply Rle_trans with body; [lra|]. unfold body. apply Rmult_le_compat_l; [apply Rabs_pos|].
    apply sqrt_le_1_alt. pose proof g_pos. apply Rmult_le_compat_l; [lra|].
    assert (HL : Rmin H_u H_d <= Rmax H_u H_d).
    { unfold Rmin, Rmax. destruct (Rle_dec H_u H_d); lra. }
    pose proof (orifice_head_nonneg (z_inv + z_o) _ _ _ Hy HL) as Hn. fold h in Hn. rewrite Rabs_pos_eq by auto.
    unfold h, orifice_head in *.
    destruct (Rleb_spec (Rmax H_u H_d) (z_inv + z_o)); [apply Rmax_l|].
    eapply Rle_trans; [|apply Rmax_r]. dR; lra.
Qed.

(** The direction claim fails at equal heads: with the same level on both sides, below the crown of the opening, the
    orifice still discharges as a weir into free air. *)
Theorem C33_equal_heads_give_no_flow_refuted :
  exists A C H u z_inv z_o tau y_max V dt,
  0 < A /\ 0 < C /\ 0 <= tau * y_max * u /\ 0 < V /\ 0 < dt /\
  0 < solve_orifice_flows A C H H u z_inv z_o tau y_max false V V dt.
Proof.
  exists 1, 1, 1, 1, 0, 0, 1, 2, 1, 1. repeat split; try lra.
  unfold solve_orifice_flows. rewrite C33_orifice_discharge_is_the_law by lra.
  unfold limit_orifice, orifice_law. cbn [andb]. rewrite Rmax_left, Rmin_left by lra.
  unfold orifice_head. dR; try lra.
  assert (0 < sqrt (2 * g * Rabs (1 - (0 + 0)))).
  { apply sqrt_lt_R0. pose proof g_pos. rewrite Rabs_pos_eq by lra. lra. }
  set (rt := sqrt _) in *. rewrite !Rmult_1_l. rewrite Rabs_R1. rewrite !Rmult_1_l.
  unfold sign. destruct (Rltb_spec rt 0); [lra|]. destruct (Rltb_spec 0 rt); [|lra].
  rewrite Rmult_1_l. apply Rmin_glb_lt; [rewrite Rabs_pos_eq; lra|]. lra.
Qed.

(** ** C34  Volume limit *)

(** At different heads the flow reported over dt never exceeds the volume stored at the junction it leaves, and the limit
    neither reverses nor enlarges the discharge. *)
Theorem C34_orifice_cannot_overdrain :
  forall A C H_u H_d u z_inv z_o tau y_max oneway V_u V_d dt,
  0 <= tau * y_max * u -> 0 <= V_u -> 0 <= V_d -> 0 < dt -> H_u <> H_d ->
  let Q := solve_orifice_flows A C H_u H_d u z_inv z_o tau y_max oneway V_u V_d dt in
  let q := orifice_discharge A C H_u H_d u z_inv z_o tau y_max oneway in
  (0 <= Q -> Q * dt <= V_u) /\ (Q <= 0 -> - Q * dt <= V_d) /\
  (0 <= q -> 0 <= Q <= q) /\ (q <= 0 -> q <= Q <= 0) /\
  (Rabs q * dt <= (if Rltb 0 q then V_u else V_d) -> Q = q).
Proof.
  intros A C H_u H_d u z_inv z_o tau y_max oneway V_u V_d dt Hy HVu HVd Hdt Hne Q q.
  assert (Hq : (0 < q -> H_d < H_u) /\ (q < 0 -> H_u < H_d)).
  { unfold q. rewrite C33_orifice_discharge_is_the_law by auto. unfold orifice_law.
    set (body := Rabs (C * A) * sqrt _). assert (0 <= body) by (apply Rmult_le_pos; [apply Rabs_pos|apply sqrt_pos]).
    destruct (oneway && Rleb H_u H_d)%bool; [split; lra|]. destruct (Rleb_spec H_d H_u); split; intros; lra. }
  unfold Q, solve_orifice_flows. fold q. clearbody q. unfold limit_orifice, sign.
  set (V := if Rltb H_d H_u then V_u else V_d).
  assert (HV : 0 <= V / dt) by (apply Rmult_le_pos; [unfold V; destruct (Rltb H_d H_u); auto|left; now apply Rinv_0_lt_compat]).
  assert (Em : Rmin (Rabs q) (V / dt) * dt <= V).
  { apply Rle_trans with (V / dt * dt); [apply Rmult_le_compat_r; [lra|apply Rmin_r]|]. right; field; lra. }
  assert (Em0 : 0 <= Rmin (Rabs q) (V / dt)) by (apply Rmin_glb; [apply Rabs_pos|auto]).
  pose proof (Rmin_l (Rabs q) (V / dt)) as Em1.
  assert (Em2 : Rabs q * dt <= V -> Rmin (Rabs q) (V / dt) = Rabs q).
  { intros E. apply Rmin_left. apply Rmult_le_reg_r with dt; auto. replace (V / dt * dt) with V by (field; lra). auto. }
  destruct (Rltb_spec q 0) as [L|L]; [|destruct (Rltb_spec 0 q) as [G|G]].
  - assert (V = V_d) by (unfold V; destruct (Rltb_spec H_d H_u); auto; destruct Hq; lra).
    assert (Rabs q = - q) by (apply Rabs_left; auto).
    destruct (Rltb_spec 0 q); [lra|].
    repeat split; intros; try lra; try nra; rewrite Em2; lra.
  - assert (V = V_u) by (unfold V; destruct (Rltb_spec H_d H_u); auto; destruct Hq; lra).
    assert (Rabs q = q) by (apply Rabs_pos_eq; lra).
    repeat split; intros; try lra; try nra; rewrite Em2; lra.
  - repeat split; intros; try lra; try nra.
Qed.

(** At equal heads the limit is taken from the wrong junction: the flow leaves the upstream junction, the limit is the
    volume of the downstream one. *)
Theorem C34_equal_heads_overdrain_refuted :
  exists A C H u z_inv z_o tau y_max V_u V_d dt,
  0 <= tau * y_max * u /\ 0 <= V_u /\ 0 <= V_d /\ 0 < dt /\
  let Q := solve_orifice_flows A C H H u z_inv z_o tau y_max false V_u V_d dt in
  0 < Q /\ V_u < Q * dt.
Proof.
  exists 1, 1, 1, 1, 0, 0, 1, 2, 0, 1, 1. split; [lra|]. split; [lra|]. split; [lra|]. split; [lra|].
  unfold solve_orifice_flows. rewrite C33_orifice_discharge_is_the_law by lra.
  unfold limit_orifice, orifice_law. cbn [andb]. rewrite Rmax_left, Rmin_left by lra.
  unfold orifice_head. dR; try lra.
  assert (0 < sqrt (2 * g * Rabs (1 - (0 + 0)))).
  { apply sqrt_lt_R0. pose proof g_pos. rewrite Rabs_pos_eq by lra. lra. }
  set (rt := sqrt _) in *. rewrite !Rmult_1_l. rewrite Rabs_R1. rewrite !Rmult_1_l.
  unfold sign. destruct (Rltb_spec rt 0); [lra|]. destruct (Rltb_spec 0 rt); [|lra].
  assert (0 < Rmin (Rabs rt) (1 / 1)) by (apply Rmin_glb_lt; [rewrite Rabs_pos_eq; lra|lra]). cbv zeta. lra.
Qed.

(** ** C36  Weirs *)
Lemma weir_head_law H_u H_d u z_inv z_w y_max :
  weir_head H_u H_d u z_inv z_w y_max
  = weir_effective_head (z_inv + z_w + (1 - u) * y_max) (Rmax H_u H_d) (Rmin H_u H_d).
Proof.
  unfold weir_head, weir_conds. rewrite omega_hi, omega_lo. unfold weir_effective_head.
  set (cr := z_w + z_inv + (1 - u) * y_max). replace (z_inv + z_w + (1 - u) * y_max) with cr by (unfold cr; ring).
  replace (- z_inv - z_w - (1 - u) * y_max) with (- cr) by (unfold cr; ring). clearbody cr.
  assert (HL : Rmax H_u H_d - Rmin H_u H_d = Rabs (H_u - H_d)).
  { unfold Rmax, Rmin. destruct (Rle_dec H_u H_d); [rewrite Rabs_left1; lra|rewrite Rabs_pos_eq; lra]. }
  assert (HL' : Rmin H_u H_d <= Rmax H_u H_d) by (unfold Rmax, Rmin; destruct (Rle_dec H_u H_d); lra).
  destruct (Rltb_spec cr (Rmax H_u H_d)); destruct (Rltb_spec cr (Rmin H_u H_d)); cbn [andb negb];
    destruct (Rleb_spec (Rmax H_u H_d) cr); try lra.
  - apply Rabs_pos_eq. lra.
  - apply Rabs_R0.
Qed.
Lemma weir_effective_nonneg cr hi lo : lo <= hi -> 0 <= weir_effective_head cr hi lo.
Proof. intros. unfold weir_effective_head. dR; lra. Qed.
Lemma min_le_max a b : Rmin a b <= Rmax a b.
Proof. unfold Rmin, Rmax; destruct (Rle_dec a b); lra. Qed.

Theorem C36_weir_discharge_is_the_law :
  forall H_u H_d u z_inv z_w y_max L s Cr Ct,
  weir_discharge H_u H_d u z_inv z_w y_max L s Cr Ct
  = weir_law L s Cr Ct (z_inv + z_w + (1 - u) * y_max) H_u H_d.
Proof.
  intros. unfold weir_discharge, weir_law. rewrite weir_head_law, flip_omega.
  set (h := weir_effective_head _ _ _). f_equal. rewrite sqrt_mult_alt by apply pow2_ge_0.
  rewrite <- Rsqr_pow2, sqrt_Rsqr_abs. reflexivity.
Qed.

(** Direction, no flow unless the higher head exceeds the crest, no flow at equal heads. *)
Theorem C36_weir_direction_and_crest :
  forall H_u H_d u z_inv z_w y_max L s Cr Ct,
  let Q := weir_discharge H_u H_d u z_inv z_w y_max L s Cr Ct in
  let crest := z_inv + z_w + (1 - u) * y_max in
  (0 < Q -> H_d < H_u) /\ (Q < 0 -> H_u < H_d) /\
  (H_u <= crest -> H_d <= crest -> Q = 0) /\
  (H_u = H_d -> Q = 0).
Proof.
  intros H_u H_d u z_inv z_w y_max L s Cr Ct Q crest. unfold Q. rewrite C36_weir_discharge_is_the_law. fold crest.
  unfold weir_law. set (h := weir_effective_head crest (Rmax H_u H_d) (Rmin H_u H_d)).
  assert (Hh : 0 <= h) by (apply weir_effective_nonneg, min_le_max).
  assert (Hb : 0 <= Rabs (Cr * L * h + Ct * s * h ^ 2) * sqrt h) by (apply Rmult_le_pos; [apply Rabs_pos|apply sqrt_pos]).
  assert (H0 : h = 0 -> Rabs (Cr * L * h + Ct * s * h ^ 2) * sqrt h = 0) by (intros ->; rewrite sqrt_0; ring).
  assert (Heq : H_u = H_d -> h = 0).
  { intros E. unfold h, weir_effective_head. subst H_d. rewrite Rmax_left, Rmin_left by lra. dR; lra. }
  assert (Hcr : H_u <= crest -> H_d <= crest -> h = 0).
  { intros E1 E2. unfold h, weir_effective_head. destruct (Rleb_spec (Rmax H_u H_d) crest); auto.
    pose proof (Rmax_lub _ _ _ E1 E2). lra. }
  set (body := Rabs (Cr * L * h + Ct * s * h ^ 2) * sqrt h) in *.
  split; [|split; [|split]].
  - intros HQ. destruct (Rleb_spec H_d H_u); [|lra]. destruct (Req_dec H_u H_d) as [E|E]; [|lra].
    rewrite (H0 (Heq E)) in HQ. lra.
  - intros HQ. destruct (Rleb_spec H_d H_u); lra.
  - intros E1 E2. rewrite (H0 (Hcr E1 E2)). lra.
  - intros E. rewrite (H0 (Heq E)). lra.
Qed.

(** Discharge never decreases when the upstream head rises or the downstream head falls (free, drowned and reverse flow). *)
Theorem C36_weir_discharge_monotone :
  forall H_u H_u' H_d H_d' u z_inv z_w y_max L s Cr Ct,
  0 <= Cr * L -> 0 <= Ct * s -> H_u <= H_u' -> H_d' <= H_d ->
  weir_discharge H_u H_d u z_inv z_w y_max L s Cr Ct <= weir_discharge H_u' H_d' u z_inv z_w y_max L s Cr Ct.
Proof.
  intros H_u H_u' H_d H_d' u z_inv z_w y_max L s Cr Ct HC HT Hu Hd.
  rewrite !C36_weir_discharge_is_the_law. set (cr := z_inv + z_w + (1 - u) * y_max). unfold weir_law.
  set (F := fun h => Rabs (Cr * L * h + Ct * s * h ^ 2) * sqrt h).
  assert (F0 : F 0 = 0) by (unfold F; rewrite sqrt_0; ring).
  assert (Fm : forall a b, 0 <= a <= b -> F a <= F b).
  { intros a b Hab. unfold F. apply Rmult_le_compat; [apply Rabs_pos|apply sqrt_pos| |apply sqrt_le_1_alt; lra].
    assert (0 <= a ^ 2 <= b ^ 2) by (simpl; nra).
    rewrite !Rabs_pos_eq by nra. nra. }
  assert (Fn : forall a, 0 <= a -> 0 <= F a) by (intros a Ha; rewrite <- F0; apply Fm; lra).
  change ((if Rleb H_d H_u then 1 else -1) * F (weir_effective_head cr (Rmax H_u H_d) (Rmin H_u H_d))
          <= (if Rleb H_d' H_u' then 1 else -1) * F (weir_effective_head cr (Rmax H_u' H_d') (Rmin H_u' H_d'))).
  pose proof (weir_effective_nonneg cr _ _ (min_le_max H_u H_d)) as N1.
  pose proof (weir_effective_nonneg cr _ _ (min_le_max H_u' H_d')) as N2.
  pose proof (Fn _ N1). pose proof (Fn _ N2).
  destruct (Rleb_spec H_d H_u) as [A1|A1]; destruct (Rleb_spec H_d' H_u') as [A2|A2]; try lra.
  - rewrite !Rmult_1_l. rewrite !Rmax_left, !Rmin_right in * by lra. apply Fm. split; auto.
    unfold weir_effective_head. dR; lra.
  - apply Ropp_le_cancel. replace (- (-1 * F (weir_effective_head cr (Rmax H_u' H_d') (Rmin H_u' H_d'))))
      with (F (weir_effective_head cr (Rmax H_u' H_d') (Rmin H_u' H_d'))) by ring.
    replace (- (-1 * F (weir_effective_head cr (Rmax H_u H_d) (Rmin H_u H_d))))
      with (F (weir_effective_head cr (Rmax H_u H_d) (Rmin H_u H_d))) by ring.
    rewrite !Rmax_right, !Rmin_left in * by lra. apply Fm. split; auto.
    unfold weir_effective_head. dR; lra.
Qed.

(** ** C37  Pumps *)
Lemma pump_head_range H_u H_d M m : m <= M -> m <= pump_head H_u H_d M m <= M.
Proof. intros. unfold pump_head. dR; lra. Qed.
Lemma pump_head_id H_u H_d M m : m <= H_d - H_u <= M -> pump_head H_u H_d M m = H_d - H_u.
Proof.
  intros H. unfold pump_head. destruct (Rltb_spec M (H_d - H_u)); [lra|]. destruct (Rltb_spec (H_d - H_u) m); lra.
Qed.
Lemma fpow_nonneg x y : 0 <= x -> 0 <= fpow x y.
Proof.
  intros Hx. unfold fpow. destruct (Reqb_spec x 0); [destruct (Reqb_spec y 0); lra|].
  left. apply exp_pos.
Qed.
Lemma fpow_le x x' y : 0 <= x <= x' -> 0 < y -> fpow x y <= fpow x' y.
Proof.
  intros Hx Hy. unfold fpow. destruct (Reqb_spec x 0); destruct (Reqb_spec x' 0); destruct (Reqb_spec y 0); try lra.
  - left; apply exp_pos.
  - apply Rle_Rpower_l; lra.
Qed.

(** For a proper pump curve (b, c > 0, head differences up to dH_max <= a) and control signal u >= 0: the flow is never
    negative, zero when the upstream head is not above the inlet or the pump is off, between the curve's values at the
    ends of its range otherwise, and on the curve [dH = a - b Q^c / u] inside the range. *)
Theorem C37_pump_flow :
  forall H_u H_d u z_inv z_p dH_max dH_min a b c,
  0 <= u -> 0 < b -> 0 < c -> dH_min <= dH_max -> dH_max <= a ->
  let Q := pump_discharge H_u H_d u z_inv z_p dH_max dH_min a b c in
  let curve d := fpow (u / b * (a - d)) (1 / c) in
  0 <= Q /\
  (H_u <= z_inv + z_p -> Q = 0) /\ (u = 0 -> Q = 0) /\
  (z_inv + z_p < H_u -> curve dH_max <= Q <= curve dH_min) /\
  (z_inv + z_p < H_u -> dH_min <= H_d - H_u <= dH_max -> 0 < u -> b * fpow Q c = u * (a - (H_d - H_u))).
Proof.
  intros H_u H_d u z_inv z_p dH_max dH_min a b c Hu Hb Hc Hm Ha Q curve.
  pose proof (pump_head_range H_u H_d dH_max dH_min Hm) as Hr.
  set (d := pump_head H_u H_d dH_max dH_min) in *.
  assert (EQ : Q = if Rltb (z_inv + z_p) H_u then curve d else 0).
  { unfold Q, pump_discharge. fold d. destruct (Rltb (z_inv + z_p) H_u); reflexivity. }
  assert (Hub : 0 <= u / b) by (apply Rmult_le_pos; [auto|left; now apply Rinv_0_lt_compat]).
  assert (Hic : 0 < 1 / c) by (apply Rmult_lt_0_compat; [lra|now apply Rinv_0_lt_compat]).
  assert (Hmono : forall d1 d2, d1 <= d2 -> d2 <= a -> curve d2 <= curve d1).
  { intros d1 d2 H12 H2. unfold curve. apply fpow_le; auto. split; [nra|]. apply Rmult_le_compat_l; lra. }
  split; [|split; [|split; [|split]]].
  - rewrite EQ. destruct (Rltb (z_inv + z_p) H_u); [|lra]. apply fpow_nonneg. nra.
  - intros H. rewrite EQ. destruct (Rltb_spec (z_inv + z_p) H_u); lra.
  - intros ->. rewrite EQ. destruct (Rltb (z_inv + z_p) H_u); [|lra]. unfold curve.
    replace (0 / b * (a - d)) with 0 by (field; lra). unfold fpow. destruct (Reqb_spec 0 0); [|lra]. destruct (Reqb_spec (1 / c) 0); lra.
  - intros H. rewrite EQ. destruct (Rltb_spec (z_inv + z_p) H_u); [|lra]. split; apply Hmono; lra.
  - intros H Hd Hu0. rewrite EQ. destruct (Rltb_spec (z_inv + z_p) H_u); [|lra].
    assert (Ed : d = H_d - H_u) by (apply pump_head_id; lra). rewrite Ed. unfold curve.
    destruct (Req_dec (a - (H_d - H_u)) 0) as [E0|E0].
    + rewrite E0, !Rmult_0_r. assert (fpow 0 (1 / c) = 0) as -> by (unfold fpow; destruct (Reqb_spec 0 0); [|lra]; destruct (Reqb_spec (1 / c) 0); lra).
      unfold fpow. destruct (Reqb_spec 0 0); [|lra]. destruct (Reqb_spec c 0); lra.
    + set (x := u / b * (a - (H_d - H_u))).
      assert (Hx : 0 < x).
      { unfold x. apply Rmult_lt_0_compat; [|lra]. apply Rmult_lt_0_compat; [auto|now apply Rinv_0_lt_compat]. }
      unfold fpow at 2. destruct (Reqb_spec x 0); [lra|]. unfold fpow.
      assert (0 < Rpower x (1 / c)) by apply exp_pos. destruct (Reqb_spec (Rpower x (1 / c)) 0); [lra|].
      rewrite Rpower_mult. replace (1 / c * c) with 1 by (field; lra). rewrite Rpower_1 by auto. unfold x. field. lra.
Qed.

(** ** C35  Linearised controls *)

(** At the heads at which the discharge was computed, the linear law used in the matrix returns exactly that discharge. *)
Theorem C35_linearised_orifice_reproduces_its_discharge :
  forall A C H_u H_d u z_inv z_o tau y_max oneway,
  0 <= tau * y_max * u ->
  let Q := orifice_discharge A C H_u H_d u z_inv z_o tau y_max oneway in
  let '(al, be, ch) := orifice_flow_coefficients Q A C H_u H_d u z_inv z_o tau y_max oneway in
  al * H_u + be * H_d + ch = Q.
Proof.
  intros A C H_u H_d u z_inv z_o tau y_max oneway Hy Q. unfold orifice_flow_coefficients.
  pose proof (orifice_linear (gamma_o Q A C) H_u H_d u z_inv z_o tau y_max oneway Hy) as E.
  destruct (orifice_coeffs _ _ _ _ _ _ _ _ _) as [[al be] ch]. rewrite E. clear E al be ch.
  unfold Q in *. rewrite C33_orifice_discharge_is_the_law by auto. unfold orifice_law.
  destruct (oneway && Rleb H_u H_d)%bool eqn:E1; [reflexivity|]. rewrite <- flip_omega.
  set (h := orifice_head (z_inv + z_o) (tau * y_max * u) (Rmax H_u H_d) (Rmin H_u H_d)).
  assert (Hh : 0 <= h) by (apply orifice_head_nonneg; auto; apply min_le_max).
  set (m := Rabs (C * A) * sqrt (2 * g * Rabs h)). f_equal.
  unfold gamma_o. rewrite Rabs_mult, flip_abs, Rmult_1_l.
  assert (Hm : 0 <= m) by (apply Rmult_le_pos; [apply Rabs_pos|apply sqrt_pos]). rewrite Rabs_pos_eq by auto.
  assert (Em : m * m = 2 * g * C ^ 2 * A ^ 2 * h).
  { unfold m. pose proof g_pos. rewrite (Rabs_pos_eq h) by auto.
    replace (Rabs (C * A) * sqrt (2 * g * h) * (Rabs (C * A) * sqrt (2 * g * h)))
      with ((Rabs (C * A) * Rabs (C * A)) * (sqrt (2 * g * h) * sqrt (2 * g * h))) by ring.
    rewrite sqrt_sqrt by nra. rewrite <- Rabs_mult, Rabs_pos_eq by nra. ring. }
  unfold safe_divide. destruct (Reqb_spec m 0) as [E|E]; [lra|].
  replace (2 * g * C ^ 2 * A ^ 2 / m * h) with (2 * g * C ^ 2 * A ^ 2 * h / m) by (field; auto). rewrite <- Em. field; auto.
Qed.

(** Value of the linear weir law. *)
Lemma weir_linear gam H_u H_d u z_inv z_w y_max :
  let '(al, be, ch) :=
      let w := omega H_u H_d in let '(cond_0, cond_1) := weir_conds H_u H_d u z_inv z_w y_max in
      if negb cond_0 then (0, 0, 0)
      else if (cond_0 && negb cond_1)%bool then
        (gam * w * flip w, gam * (1 - w) * flip w, gam * flip w * (- z_inv - z_w - (1 - u) * y_max))
      else (gam, - gam, 0) in
  al * H_u + be * H_d + ch = flip (omega H_u H_d) * (gam * weir_head H_u H_d u z_inv z_w y_max).
Proof.
  rewrite weir_head_law. unfold weir_conds. cbv zeta.
  pose proof (omega_hi H_u H_d) as EH. pose proof (omega_lo H_u H_d) as EL.
  unfold weir_effective_head. rewrite !EH, !EL.
  pose proof (min_le_max H_u H_d) as HL.
  set (hi := Rmax H_u H_d) in *. set (lo := Rmin H_u H_d) in *.
  assert (FO : flip (omega H_u H_d) = 2 * omega H_u H_d - 1).
  { rewrite flip_omega. unfold omega. destruct (Rleb H_d H_u); lra. }
  assert (OO : omega H_u H_d * omega H_u H_d = omega H_u H_d) by (unfold omega; destruct (Rleb H_d H_u); lra).
  set (w := omega H_u H_d) in *. rewrite FO.
  destruct (Rltb_spec (z_w + z_inv + (1 - u) * y_max) hi); destruct (Rltb_spec (z_w + z_inv + (1 - u) * y_max) lo);
  cbn [negb andb]; destruct (Rleb_spec hi (z_inv + z_w + (1 - u) * y_max)); try lra;
  destruct (Rltb_spec (z_inv + z_w + (1 - u) * y_max) lo); try lra.
  all: rewrite <- EH, <- ?EL; clear - OO; nsatz.
Qed.

Theorem C35_linearised_weir_reproduces_its_discharge :
  forall H_u H_d u z_inv z_w y_max L s Cr Ct,
  let Q := weir_discharge H_u H_d u z_inv z_w y_max L s Cr Ct in
  let '(al, be, ch) := weir_flow_coefficients Q H_u H_d u z_inv z_w y_max L s Cr Ct in
  al * H_u + be * H_d + ch = Q.
Proof.
  intros H_u H_d u z_inv z_w y_max L s Cr Ct Q.
  set (gam := gamma_w Q (weir_head H_u H_d u z_inv z_w y_max) L s Cr Ct).
  pose proof (weir_linear gam H_u H_d u z_inv z_w y_max) as EL. unfold weir_flow_coefficients. fold gam. cbv zeta in *.
  destruct (weir_conds H_u H_d u z_inv z_w y_max) as [c0 c1]. rewrite (surjective_pairing (if negb c0 then _ else _)) in EL |- *.
  rewrite (surjective_pairing (fst (if negb c0 then _ else _))) in EL |- *. rewrite EL.
  clear EL. unfold Q, weir_discharge in *. set (h := weir_head H_u H_d u z_inv z_w y_max) in *. f_equal.
  assert (Hh : 0 <= h) by (unfold h; rewrite weir_head_law; apply weir_effective_nonneg, min_le_max).
  set (p := (Cr * L * h + Ct * s * h ^ 2) ^ 2) in *. assert (Hp : 0 <= p) by apply pow2_ge_0.
  set (m := sqrt (p * h)) in *. assert (Hm : 0 <= m) by apply sqrt_pos.
  assert (Em : m * m = p * h) by (apply sqrt_sqrt; nra).
  unfold gam, gamma_w. fold p. rewrite Rabs_mult, flip_abs, Rmult_1_l, Rabs_pos_eq by auto.
  unfold safe_divide. destruct (Reqb_spec m 0) as [E|E]; [lra|].
  replace (p / m * h) with (p * h / m) by (field; auto). rewrite <- Em. field; auto.
Qed.

(** Around any last flow (it need not be the discharge at the present heads). *)
Definition linear_orifice (Q A C H_u H_d u z_inv z_o tau y_max : R) (oneway : bool) (Hu Hd : R) : R :=
  let '(al, be, ch) := orifice_flow_coefficients Q A C H_u H_d u z_inv z_o tau y_max oneway in al * Hu + be * Hd + ch.
Definition linear_weir (Q H_u H_d u z_inv z_w y_max L s Cr Ct Hu Hd : R) : R :=
  let '(al, be, ch) := weir_flow_coefficients Q H_u H_d u z_inv z_w y_max L s Cr Ct in al * Hu + be * Hd + ch.

Theorem C35_linearised_orifice_around_any_flow : forall Q A C H_u H_d u z_inv z_o tau y_max oneway,
  0 <= tau * y_max * u ->
  linearises (orifice_law A C (z_inv + z_o) (tau * y_max * u) H_u H_d oneway) Q H_u H_d
    (linear_orifice Q A C H_u H_d u z_inv z_o tau y_max oneway).
Proof.
  intros Q A C H_u H_d u z_inv z_o tau y_max oneway Hy. unfold linear_orifice, orifice_flow_coefficients.
  pose proof (orifice_linear (gamma_o Q A C) H_u H_d u z_inv z_o tau y_max oneway Hy) as E.
  destruct (orifice_coeffs (gamma_o Q A C) _ _ _ _ _ _ _ _) as [[al be] ch] eqn:Eo.
  assert (Hg : 0 <= gamma_o Q A C).
  { unfold gamma_o, safe_divide. destruct (Reqb_spec (Rabs Q) 0); [lra|]. pose proof g_pos. pose proof (Rabs_pos Q).
    apply Rmult_le_pos; [|left; apply Rinv_0_lt_compat; lra].
    pose proof (pow2_ge_0 C). pose proof (pow2_ge_0 A). apply Rmult_le_pos; [|auto]. apply Rmult_le_pos; [lra|auto]. }
  assert (W : flip (omega H_u H_d) = 2 * omega H_u H_d - 1 /\ (omega H_u H_d = 0 \/ omega H_u H_d = 1)).
  { rewrite flip_omega. unfold omega. destruct (Rleb H_d H_u); split; auto; lra. }
  destruct W as [W1 W2]. split; [|split].
  - exists al, be, ch. unfold orifice_coeffs in Eo.
    repeat match type of Eo with context [if ?c then _ else _] => destruct c end; injection Eo as <- <- <-;
      rewrite ?W1; (split; [|split]); auto; destruct W2 as [W3|W3]; rewrite ?W3; lra.
  - intros -> Hu Hd. unfold gamma_o, safe_divide, orifice_coeffs in Eo. rewrite Rabs_R0 in Eo. destruct (Reqb_spec 0 0); [|lra].
    repeat match type of Eo with context [if ?c then _ else _] => destruct c end; injection Eo as <- <- <-; ring.
  - intros HQ. rewrite E. unfold orifice_law. destruct (oneway && Rleb H_u H_d)%bool; [rewrite Rabs_R0; ring|]. rewrite <- flip_omega.
    set (h := orifice_head _ _ _ _). assert (Hh : 0 <= h) by (apply orifice_head_nonneg; auto; apply min_le_max).
    rewrite (Rabs_mult (flip (omega H_u H_d))), flip_abs, Rmult_1_l. pose proof g_pos.
    assert (Hm : 0 <= Rabs (C * A) * sqrt (2 * g * Rabs h)) by (apply Rmult_le_pos; [apply Rabs_pos|apply sqrt_pos]).
    rewrite (Rabs_pos_eq (Rabs (C * A) * _)) by auto. rewrite (Rabs_pos_eq h) by auto.
    replace (flip (omega H_u H_d) * (Rabs (C * A) * sqrt (2 * g * h)) * (Rabs (C * A) * sqrt (2 * g * h)))
      with (flip (omega H_u H_d) * ((Rabs (C * A) * Rabs (C * A)) * (sqrt (2 * g * h) * sqrt (2 * g * h)))) by ring.
    rewrite sqrt_sqrt by nra. rewrite <- (Rabs_mult (C * A)), (Rabs_pos_eq (C * A * _)) by nra.
    unfold gamma_o, safe_divide. destruct (Reqb_spec (Rabs Q) 0); [exfalso; now apply (Rabs_no_R0 Q)|]. field. auto.
Qed.

Theorem C35_linearised_weir_around_any_flow : forall Q H_u H_d u z_inv z_w y_max L s Cr Ct,
  linearises (weir_law L s Cr Ct (z_inv + z_w + (1 - u) * y_max) H_u H_d) Q H_u H_d
    (linear_weir Q H_u H_d u z_inv z_w y_max L s Cr Ct).
Proof.
  intros Q H_u H_d u z_inv z_w y_max L s Cr Ct. unfold linear_weir, weir_flow_coefficients. cbv zeta.
  set (gam := gamma_w Q (weir_head H_u H_d u z_inv z_w y_max) L s Cr Ct).
  pose proof (weir_linear gam H_u H_d u z_inv z_w y_max) as E. cbv zeta in E.
  assert (Hg : 0 <= gam).
  { unfold gam, gamma_w, safe_divide. destruct (Reqb_spec (Rabs Q) 0); [lra|]. pose proof (Rabs_pos Q).
    apply Rmult_le_pos; [apply pow2_ge_0|left; apply Rinv_0_lt_compat; lra]. }
  assert (W : flip (omega H_u H_d) = 2 * omega H_u H_d - 1 /\ (omega H_u H_d = 0 \/ omega H_u H_d = 1)).
  { rewrite flip_omega. unfold omega. destruct (Rleb H_d H_u); split; auto; lra. }
  destruct W as [W1 W2]. destruct (weir_conds H_u H_d u z_inv z_w y_max) as [c0 c1].
  destruct (if negb c0 then _ else _) as [[al be] ch] eqn:Eo. split; [|split].
  - exists al, be, ch.
    repeat match type of Eo with context [if ?c then _ else _] => destruct c end; injection Eo as <- <- <-;
      rewrite ?W1; (split; [|split]); auto; destruct W2 as [W3|W3]; rewrite ?W3; lra.
  - intros -> Hu Hd. assert (G0 : gam = 0) by (unfold gam, gamma_w, safe_divide; rewrite Rabs_R0; destruct (Reqb_spec 0 0); lra).
    rewrite G0 in Eo. repeat match type of Eo with context [if ?c then _ else _] => destruct c end; injection Eo as <- <- <-; ring.
  - intros HQ. rewrite E. unfold weir_law. rewrite <- flip_omega, <- weir_head_law.
    set (h := weir_head H_u H_d u z_inv z_w y_max) in *.
    assert (Hh : 0 <= h) by (unfold h; rewrite weir_head_law; apply weir_effective_nonneg, min_le_max).
    rewrite (Rabs_mult (flip (omega H_u H_d))), flip_abs, Rmult_1_l. set (k := Cr * L * h + Ct * s * h ^ 2) in *.
    rewrite (Rabs_pos_eq (Rabs k * sqrt h)) by (apply Rmult_le_pos; [apply Rabs_pos|apply sqrt_pos]).
    replace (flip (omega H_u H_d) * (Rabs k * sqrt h) * (Rabs k * sqrt h))
      with (flip (omega H_u H_d) * ((Rabs k * Rabs k) * (sqrt h * sqrt h))) by ring.
    rewrite sqrt_sqrt by auto. rewrite <- (Rabs_mult k), (Rabs_pos_eq (k * k)) by nra.
    unfold gam, gamma_w, safe_divide. fold k. destruct (Reqb_spec (Rabs Q) 0); [exfalso; now apply (Rabs_no_R0 Q)|]. field. auto.
Qed.

Theorem C35_linearised_pump_reproduces_its_discharge :
  forall H_u H_d u z_inv z_p dH_max dH_min a b c,
  0 <= u -> 0 < b -> 0 < c -> dH_min <= dH_max -> dH_max <= a ->
  let Q := pump_discharge H_u H_d u z_inv z_p dH_max dH_min a b c in
  Q <> 0 ->
  let '(al, be, ch) := pump_flow_coefficients Q H_u H_d u z_inv z_p dH_max dH_min a b c in
  al * H_u + be * H_d + ch = Q.
Proof.
  intros H_u H_d u z_inv z_p dH_max dH_min a b c Hu Hb Hc Hm Ha Q HQ.
  pose proof (pump_head_range H_u H_d dH_max dH_min Hm) as Hr.
  unfold pump_flow_coefficients. unfold Q, pump_discharge in *. set (d := pump_head H_u H_d dH_max dH_min) in *.
  destruct (Rltb_spec (z_inv + z_p) H_u) as [Hup|Hup]; cbn [negb] in *; [|lra].
  set (x := u / b * (a - d)) in *.
  assert (Hx : 0 < x).
  { destruct (Req_dec x 0) as [E|E].
    - exfalso. apply HQ. rewrite E. unfold fpow. destruct (Reqb_spec 0 0); [|lra]. destruct (Reqb_spec (1 / c) 0); [|lra].
      exfalso. assert (0 < 1 / c) by (apply Rmult_lt_0_compat; [lra|now apply Rinv_0_lt_compat]). lra.
    - assert (0 <= x); [|lra]. unfold x. apply Rmult_le_pos; [|lra]. apply Rmult_le_pos; [auto|left; now apply Rinv_0_lt_compat]. }
  assert (EQ : fpow x (1 / c) = Rpower x (1 / c)) by (unfold fpow; destruct (Reqb_spec x 0); [lra|reflexivity]).
  rewrite EQ in *. clear HQ. set (q := Rpower x (1 / c)) in *. assert (Hq : 0 < q) by apply exp_pos.
  assert (Eq : gamma_p q b c u * (a - d) = q).
  { unfold gamma_p. rewrite Rabs_pos_eq by lra. unfold fpow. destruct (Reqb_spec q 0); [lra|].
    assert (Hq1 : 0 < Rpower q (c - 1)) by apply exp_pos.
    unfold safe_divide. destruct (Reqb_spec (b * Rpower q (c - 1)) 0); [nra|].
    assert (Ex : Rpower q (c - 1) * q = x).
    { rewrite <- (Rpower_1 q) at 2 by auto. rewrite <- Rpower_plus. replace (c - 1 + 1) with c by ring.
      unfold q. rewrite Rpower_mult. replace (1 / c * c) with 1 by (field; lra). apply Rpower_1; auto. }
    apply Rmult_eq_reg_l with (Rpower q (c - 1)); [|lra]. rewrite Ex. unfold x. field. split; lra. }
  destruct (Rltb dH_min (H_d - H_u) && Rltb (H_d - H_u) dH_max)%bool eqn:E1.
  - apply andb_true_iff in E1. destruct E1 as [E1 E2]. apply Rltb_true in E1, E2.
    assert (Ed : d = H_d - H_u) by (apply pump_head_id; lra). rewrite Ed in Eq.
    transitivity (gamma_p q b c u * (a - (H_d - H_u))); [ring|exact Eq].
  - rewrite Eq. ring.
Qed.

Definition linear_pump (Q H_u H_d u z_inv z_p dH_max dH_min a b c Hu Hd : R) : R :=
  let '(al, be, ch) := pump_flow_coefficients Q H_u H_d u z_inv z_p dH_max dH_min a b c in al * Hu + be * Hd + ch.
(** The linearised pump: affine and ordered, off when the inlet is dry, and equal to the last flow if that lay on the curve
    at the (limited) head difference. *)
Lemma linear_pump_law Q H_u H_d u z_inv z_p dH_max dH_min a b c : 0 <= u -> 0 < b -> 0 < c -> dH_min <= dH_max ->
  let q := linear_pump Q H_u H_d u z_inv z_p dH_max dH_min a b c in
  (exists al be ch, 0 <= al /\ be <= 0 /\ forall Hu Hd, q Hu Hd = al * Hu + be * Hd + ch) /\
  (H_u <= z_inv + z_p -> forall Hu Hd, q Hu Hd = 0) /\
  let dH := Rmax dH_min (Rmin dH_max (H_d - H_u)) in
  (z_inv + z_p < H_u -> 0 < Q -> b * fpow Q c = u * (a - dH) -> q H_u H_d = Q).
Proof.
  intros Hu Hb Hc Hm q. unfold q, linear_pump, pump_flow_coefficients.
  assert (Hg : 0 <= gamma_p Q b c u).
  { assert (0 <= b * fpow (Rabs Q) (c - 1)).
    { apply Rmult_le_pos; [lra|]. unfold fpow. destruct (Reqb (Rabs Q) 0); [destruct (Reqb (c - 1) 0); lra|left; apply exp_pos]. }
    unfold gamma_p, safe_divide. destruct (Reqb_spec (b * fpow (Rabs Q) (c - 1)) 0); [lra|].
    apply Rmult_le_pos; [auto|left; apply Rinv_0_lt_compat; lra]. }
  assert (Ed : Rmax dH_min (Rmin dH_max (H_d - H_u)) = pump_head H_u H_d dH_max dH_min).
  { unfold pump_head, Rmax, Rmin. destruct (Rltb_spec dH_max (H_d - H_u)); destruct (Rle_dec dH_max (H_d - H_u));
      match goal with |- context [Rltb ?x ?y] => destruct (Rltb_spec x y) end; match goal with |- context [Rle_dec ?x ?y] => destruct (Rle_dec x y) end; lra. }
  split; [|split].
  - destruct (negb _); [exists 0, 0, 0; repeat split; try lra; auto|]. destruct (_ && _)%bool.
    + exists (gamma_p Q b c u), (- gamma_p Q b c u), (gamma_p Q b c u * a). repeat split; try lra; auto.
    + exists 0, 0, (gamma_p Q b c u * (a - pump_head H_u H_d dH_max dH_min)). repeat split; try lra; auto.
  - intros L Hu' Hd'. destruct (Rltb_spec (z_inv + z_p) H_u); [lra|]. cbn [negb]. ring.
  - intros L HQ EQ. rewrite Ed in EQ. destruct (Rltb_spec (z_inv + z_p) H_u); [|lra]. cbn [negb].
    assert (Eg : gamma_p Q b c u * (a - pump_head H_u H_d dH_max dH_min) = Q).
    { unfold gamma_p. rewrite Rabs_pos_eq by lra. unfold fpow in *. destruct (Reqb_spec Q 0); [lra|].
      assert (P1 : 0 < Rpower Q (c - 1)) by apply exp_pos.
      assert (P2 : 0 < b * Rpower Q (c - 1)) by (apply Rmult_lt_0_compat; auto).
      unfold safe_divide. destruct (Reqb_spec (b * Rpower Q (c - 1)) 0); [lra|].
      assert (Ex : Rpower Q (c - 1) * Q = Rpower Q c).
      { rewrite <- (Rpower_1 Q) at 2 by auto. rewrite <- Rpower_plus. f_equal. ring. }
      apply Rmult_eq_reg_l with (b * Rpower Q (c - 1)); [|lra].
      replace (b * Rpower Q (c - 1) * (u / (b * Rpower Q (c - 1)) * (a - pump_head H_u H_d dH_max dH_min)))
        with (u * (a - pump_head H_u H_d dH_max dH_min)) by (field; split; lra).
      rewrite <- EQ, <- Ex. ring. }
    destruct (Rltb dH_min (H_d - H_u) && Rltb (H_d - H_u) dH_max)%bool eqn:E1.
    + apply andb_true_iff in E1. destruct E1 as [E1 E2]. apply Rltb_true in E1, E2.
      assert (E3 : pump_head H_u H_d dH_max dH_min = H_d - H_u) by (apply pump_head_id; lra). rewrite E3 in Eg.
      transitivity (gamma_p Q b c u * (a - (H_d - H_u))); [ring|exact Eg].
    + rewrite Eg. ring.
Qed.

(** All linearised controls satisfy the hypotheses of C27: flows grow with the upstream head and shrink with the downstream
    head, at any heads, last flows, openings (u >= 0 for pumps). *)
Theorem C35_linearised_controls_are_ordered :
  (forall O Q u H z, controls_ordered (orifice_controls O Q u H z)) /\
  (forall W Q u H z, controls_ordered (weir_controls W Q u H z)) /\
  (forall P Q u H z, (forall k, (k < p_n P)%nat -> 0 <= u k /\ 0 < p_b P k) -> controls_ordered (pump_controls P Q u H z)).
Proof.
  assert (SD : forall x y, 0 <= x -> 0 <= y -> 0 <= safe_divide x y).
  { intros x y Hx Hy. unfold safe_divide. destruct (Reqb_spec y 0); [lra|]. apply Rmult_le_pos; [auto|].
    left. apply Rinv_0_lt_compat. lra. }
  assert (WF : forall H_u H_d, let w := omega H_u H_d in 0 <= w * flip w /\ (1 - w) * flip w <= 0).
  { intros H_u H_d w. unfold w. rewrite flip_omega. unfold omega. destruct (Rleb H_d H_u); lra. }
  split; [|split].
  - intros O Q u H z k Hk. simpl. unfold orifice_flow_coefficients, orifice_coeffs.
    set (gam := gamma_o _ _ _).
    assert (Hg : 0 <= gam).
    { apply SD; [|apply Rabs_pos]. pose proof g_pos. pose proof (pow2_ge_0 (o_C O k)). pose proof (pow2_ge_0 (o_A O k)).
      apply Rmult_le_pos; [|auto]. apply Rmult_le_pos; [lra|auto]. }
    pose proof (WF (H (o_Ju O k)) (H (o_Jd O k))) as [W1 W2]. set (w := omega _ _) in *.
    repeat match goal with |- context [if ?c then _ else _] => destruct c end; cbn [fst snd]; rewrite ?Rmult_assoc; split; nra.
  - intros W Q u H z k Hk. simpl. unfold weir_flow_coefficients.
    set (gam := gamma_w _ _ _ _ _ _).
    assert (Hg : 0 <= gam) by (apply SD; [apply pow2_ge_0|apply Rabs_pos]).
    pose proof (WF (H (w_Ju W k)) (H (w_Jd W k))) as [W1 W2]. set (w := omega _ _) in *.
    destruct (weir_conds _ _ _ _ _ _) as [c0 c1].
    repeat match goal with |- context [if ?c then _ else _] => destruct c end; cbn [fst snd]; rewrite ?Rmult_assoc; split; nra.
  - intros P Q u H z Hp k Hk. simpl in *. destruct (Hp k Hk) as [Hu Hb]. unfold pump_flow_coefficients.
    set (gam := gamma_p _ _ _ _).
    assert (Hg : 0 <= gam).
    { apply SD; auto. apply Rmult_le_pos; [lra|]. apply fpow_nonneg, Rabs_pos. }
    repeat match goal with |- context [if ?c then _ else _] => destruct c end; cbn [fst snd]; split; lra.
Qed.

(** Witnesses: each branch of the laws is met. *)
Example C33_example_submerged :
  orifice_discharge 2 1 5 3 1 0 0 1 1 false = 2 * sqrt (2 * g * 2).
Proof.
  rewrite C33_orifice_discharge_is_the_law by lra. unfold orifice_law; simpl. rewrite Rmax_left, Rmin_right by lra.
  unfold orifice_head. dR; try lra. rewrite (Rabs_pos_eq (1 * 2)), (Rabs_pos_eq (5 - 3)) by lra.
  replace (5 - 3) with 2 by lra. ring.
Qed.
Example C36_example_free : weir_discharge 3 0 1 0 2 1 1 0 1 0 = 1.
Proof.
  rewrite C36_weir_discharge_is_the_law. unfold weir_law, weir_effective_head. rewrite Rmax_left, Rmin_right by lra.
  dR; try lra. replace (3 - (0 + 2 + (1 - 1) * 1)) with 1 by lra. rewrite sqrt_1, Rabs_pos_eq by lra. lra.
Qed.
Example C37_example : pump_discharge 2 3 1 0 1 4 0 5 2 1 = 2.
Proof.
  unfold pump_discharge. rewrite pump_head_id by lra. destruct (Rltb_spec (0 + 1) 2); [|lra]. simpl.
  unfold fpow. destruct (Reqb_spec (1 / 2 * (5 - (3 - 2))) 0); [lra|].
  replace (1 / 1) with 1 by lra. rewrite Rpower_1; lra.
Qed.

(** ** C28  Controls at one water level *)

(** Which controls are idle when every junction is at the level H0: weirs always; pumps that are off; orifices that are
    drowned, dry, closed or had no flow in the last step.  A partly submerged orifice is not (see
    C33_equal_heads_give_no_flow_refuted). *)
Theorem C28_controls_idle_at_rest :
  forall H0,
  (forall W Q u z, idle (weir_controls W Q u (fun _ => H0) z) H0) /\
  (forall O Q u z,
     (forall k, (k < o_n O)%nat -> 0 <= o_tau O k * o_ymax O k * u k /\
        (Q k = 0 \/ o_A O k = 0 \/ H0 <= z (o_Ju O k) + o_z O k \/
         z (o_Ju O k) + o_z O k + o_tau O k * o_ymax O k * u k < H0)) ->
     idle (orifice_controls O Q u (fun _ => H0) z) H0) /\
  (forall P Q u z, (forall k, (k < p_n P)%nat -> u k = 0) -> idle (pump_controls P Q u (fun _ => H0) z) H0).
Proof.
  intros H0. split; [|split].
  - intros W Q u z k Hk. simpl. unfold weir_flow_coefficients.
    set (gam := gamma_w _ _ _ _ _ _).
    pose proof (weir_linear gam H0 H0 (u k) (z (w_Ju W k)) (w_z W k) (w_ymax W k)) as EL. cbv zeta in EL.
    destruct (weir_conds H0 H0 (u k) (z (w_Ju W k)) (w_z W k) (w_ymax W k)) as [c0 c1].
    rewrite (surjective_pairing (if negb c0 then _ else _)) in EL.
    rewrite (surjective_pairing (fst (if negb c0 then _ else _))) in EL. rewrite EL.
    rewrite weir_head_law. unfold weir_effective_head. rewrite Rmax_left, Rmin_left by lra. dR; try lra.
    all: replace (H0 - H0) with 0 by ring; ring.
  - intros O Q u z Ho k Hk. simpl in *. destruct (Ho k Hk) as [Hy Hc].
    unfold orifice_flow_coefficients.
    pose proof (orifice_linear (gamma_o (Q k) (o_A O k) (o_C O k)) H0 H0 (u k) (z (o_Ju O k)) (o_z O k) (o_tau O k) (o_ymax O k)
                  (o_oneway O k) Hy) as E.
    destruct (orifice_coeffs _ _ _ _ _ _ _ _ _) as [[a b] c]. cbn [fst snd]. rewrite E.
    destruct (o_oneway O k && Rleb H0 H0)%bool; [reflexivity|].
    assert (X : gamma_o (Q k) (o_A O k) (o_C O k) = 0 \/
                orifice_head (z (o_Ju O k) + o_z O k) (o_tau O k * o_ymax O k * u k) (Rmax H0 H0) (Rmin H0 H0) = 0).
    { rewrite Rmax_left, Rmin_left by lra. destruct Hc as [Hc|[Hc|[Hc|Hc]]].
      - left. unfold gamma_o, safe_divide. rewrite Hc, Rabs_R0. destruct (Reqb_spec 0 0); lra.
      - left. unfold gamma_o, safe_divide. destruct (Reqb_spec (Rabs (Q k)) 0); auto. rewrite Hc. field; auto.
      - right. unfold orifice_head. dR; lra.
      - right. unfold orifice_head. dR; lra. }
    destruct X as [-> | ->]; ring.
  - intros P Q u z Hp k Hk. simpl in *. unfold pump_flow_coefficients.
    assert (X : gamma_p (Q k) (p_b P k) (p_c P k) (u k) = 0).
    { rewrite (Hp k Hk). unfold gamma_p, safe_divide. match goal with |- context [Reqb ?x 0] => destruct (Reqb_spec x 0) end; [auto|unfold Rdiv; apply Rmult_0_l]. }
    rewrite X. repeat match goal with |- context [if ?c then _ else _] => destruct c end; cbn [fst snd]; ring.
Qed.
