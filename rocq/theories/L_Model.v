From Verif Require Import Prelude M_Numerics M_Coeffs M_Recurrence M_Assembly M_Step M_Geometry M_Storage M_Controls M_Simulation M_Model
  S_Numerics S_Geometry S_Superlink S_Network S_Step S_Model L_Interp L_Geometry P_Geometry P_Storage
  L_Coeffs L_Assembly P_Assembly P_Wellposed L_Step P_Limits P_Controls.

Lemma interp_nonneg zs fs h : ascending zs -> (2 <= length zs)%nat -> length fs = length zs -> positive_above_bottom fs ->
  exists v, interpolate_sample h zs fs 1 = Some v /\ 0 <= v.
Proof.
  intros Ha Hn Hl Hp. destruct (interp_total zs fs h Ha) as (v & i & j & a & b & E & Ea & Eb & B); auto.
  { intros ->. simpl in Hn. lia. }
  exists v; split; auto. destruct (Hp i a Ea). lra.
Qed.

Lemma interp_positive zs fs h : ascending zs -> (2 <= length zs)%nat -> nth_error zs 0 = Some 0 -> length fs = length zs ->
  positive_above_bottom fs -> 0 < h -> exists v, interpolate_sample h zs fs 1 = Some v /\ 0 < v.
Proof.
  intros Ha Hn H0 Hl Hp Hh. assert (Hne : zs <> []) by (intros ->; simpl in Hn; lia).
  destruct (locate zs h Ha Hne) as [(x0 & E0 & Hx)|[(xn & En & Hx)|(i & xl & xr & El & Er & Hx)]].
  - rewrite H0 in E0. injection E0 as <-. lra.
  - destruct (nth_some fs (length fs - 1)) as [v Ev]; [lia|]. exists v. split.
    + rewrite (interp_right zs fs h xn); auto; lra.
    + apply (Hp _ _ Ev). lia.
  - assert (Li : (S i < length zs)%nat) by (apply nth_error_Some; congruence).
    destruct (nth_some fs i) as [fl Efl]; [lia|]. destruct (nth_some fs (S i)) as [fr Efr]; [lia|].
    rewrite (interp_affine zs fs h i xl xr fl fr) by (auto; lra). eexists; split; [reflexivity|].
    destruct (Hp _ _ Efl) as [F1 _]. destruct (Hp _ _ Efr) as [_ F2]. specialize (F2 ltac:(lia)).
    assert (E : fl + (fr - fl) / (xr - xl) * (h - xl) = (fl * (xr - h) + fr * (h - xl)) / (xr - xl)) by (field; lra).
    rewrite E. apply Rmult_lt_0_compat; [|apply Rinv_0_lt_compat; lra]. nra.
Qed.

Lemma Rik_pos a p : 0 < a -> 0 < p -> 0 < R_ik a p.
Proof. intros. unfold R_ik. destruct (Rltb_spec 0 p); [|lra]. apply Rmult_lt_0_compat; auto. now apply Rinv_0_lt_compat. Qed.

Lemma floor0_pos y : 0 < y -> floor0 y = y.
Proof. intros. unfold floor0. dR; lra. Qed.
Lemma floor0_nonneg y : 0 <= floor0 y.
Proof. unfold floor0. dR; lra. Qed.
Lemma cap_pos t y : 0 < t -> 0 < y -> 0 < cap t y.
Proof. intros. unfold cap. dR; lra. Qed.
Lemma cap_floor_range t y : 0 < t -> 0 <= cap t (floor0 y) <= t.
Proof. intros. unfold cap, floor0. dR; lra. Qed.
Lemma mult_pos x y : 0 < x -> 0 < y -> 0 < x * y.
Proof. apply Rmult_lt_0_compat. Qed.

Lemma circle_theta_some d y : 0 < d -> 0 <= y -> exists t, circle_theta d y = Some t /\ 0 <= t <= PI /\ (0 < y -> 0 < t) /\ (0 < y < d -> t < PI).
Proof.
  intros Hd Hy. destruct (Rle_or_lt d y) as [L|L].
  - rewrite circle_theta_above by auto. exists PI. pose proof PI_RGT_0. repeat split; auto; try lra.
  - rewrite circle_theta_eq by lra. eexists; split; [reflexivity|].
    pose proof (acos_bound (1 - y / (d / 2))) as B. split; auto.
    destruct (Req_dec y 0) as [->|Ny]; [split; intros; lra|].
    pose proof (circ_inner d y Hd ltac:(lra)) as I. pose proof (acos_bound_lt _ I). split; intros; lra.
Qed.

Lemma seg_pos t : 0 < t -> t <= PI -> 0 < t - cos t * sin t.
Proof.
  intros H1 H2. pose proof (sin_lt_x t H1). pose proof (sin_ge_0 t ltac:(lra) H2). pose proof (COS_bound t). nra.
Qed.

Lemma sqrt_ge_1 x : 0 <= x -> 1 <= sqrt (1 + x).
Proof. intros. rewrite <- sqrt_1 at 1. apply sqrt_le_1_alt. lra. Qed.

Lemma parabolic_pe_some h0 h1 a b : 0 < a -> 0 < b -> exists p, Parabolic_Pe_ik h0 h1 a b = Some p /\ 0 < p.
Proof.
  intros Ha Hb. unfold Parabolic_Pe_ik. set (y := cap a _).
  assert (Hy : 0 < y).
  { unfold y. apply cap_pos; auto. destruct (Rleb_spec (mid h0 h1) 0); [|lra].
    unfold geom_eps. apply Rinv_0_lt_compat. apply pow_lt; lra. }
  assert (Hx : 0 < 4 * y / b) by (apply Rmult_lt_0_compat; [lra|apply Rinv_0_lt_compat; auto]).
  rewrite div_some by lra. cbn [bind]. rewrite div_some by lra. cbn [bind]. eexists; split; [reflexivity|].
  set (x := 4 * y / b) in *. pose proof (sqrt_ge_1 (x ^ 2) (pow2_ge_0 x)). pose proof (ln_pos x Hx).
  assert (0 < 1 / x) by (apply Rmult_lt_0_compat; [lra|apply Rinv_0_lt_compat; auto]).
  apply Rmult_lt_0_compat; [lra|]. assert (0 <= 1 / x * ln (x + sqrt (1 + x ^ 2))) by (apply Rmult_le_pos; lra). lra.
Qed.

(** A section that conveys water gives a result at any depth, with a non-negative width, and positive values when wet. *)
Lemma conveying_geometry c h0 h1 old : conveying c ->
  exists gm, section_geometry c h0 h1 old = Some gm /\ 0 <= gm_B gm /\
    (0 < (h0 + h1) / 2 -> 0 < gm_A gm /\ 0 < gm_R gm /\ 0 < gm_B gm).
Proof.
  destruct c as [s|zs As Bs Pes Rs]; simpl.
  2:{ intros (Ha & Hn & H0 & L1 & L2 & L3 & L4 & P1 & P2 & P3).
      destruct (interp_nonneg zs As ((h0 + h1) / 2) Ha Hn L1 P1) as (a & Ea & _).
      destruct (interp_nonneg zs Bs ((h0 + h1) / 2) Ha Hn L2 P2) as (b & Eb & Nb).
      destruct (interp_total zs Pes ((h0 + h1) / 2) Ha) as (p & _ & _ & _ & _ & Ep & _); auto.
      { intros ->. simpl in Hn. lia. }
      destruct (interp_nonneg zs Rs ((h0 + h1) / 2) Ha Hn L4 P3) as (r & Er & _).
      rewrite Ea, Eb, Ep, Er. cbn [bind]. eexists; split; [reflexivity|]. cbn [gm_A gm_R gm_B]. split; auto.
      intros Hh.
      destruct (interp_positive zs As _ Ha Hn H0 L1 P1 Hh) as (a' & Ea' & ?).
      destruct (interp_positive zs Bs _ Ha Hn H0 L2 P2 Hh) as (b' & Eb' & ?).
      destruct (interp_positive zs Rs _ Ha Hn H0 L4 P3 Hh) as (r' & Er' & ?).
      rewrite Ea in Ea'. rewrite Eb in Eb'. rewrite Er in Er'. injection Ea' as <-. injection Eb' as <-. injection Er' as <-. auto. }
  unfold hydraulic_geometry. pose proof (floor0_nonneg (mid h0 h1)) as F0.
  assert (FP : 0 < (h0 + h1) / 2 -> floor0 (mid h0 h1) = (h0 + h1) / 2) by (intros; apply floor0_pos; auto).
  destruct (shape s) as [|[|[|[|[|[|[|[|[|[|[|n]]]]]]]]]]] eqn:Es; try contradiction.
  - (* circular *)
    intros [G1 G2]. unfold Circular_A_ik, Circular_Pe_ik, Circular_B_ik.
    pose proof (cap_floor_range (g1 s) (mid h0 h1) G1) as CR.
    destruct (circle_theta_some (g1 s) (cap (g1 s) (floor0 (mid h0 h1))) G1 ltac:(lra)) as (t & Et & Ht & Htp & _).
    destruct (circle_theta_some (g1 s) (floor0 (mid h0 h1)) G1 F0) as (t' & Et' & Ht' & Htp' & Htl').
    rewrite Et, Et'. cbn [bind]. eexists; split; [reflexivity|]. cbn [gm_A gm_R gm_B]. split.
    { destruct (Rltb_spec (floor0 (mid h0 h1)) (g1 s)); [|left; now apply mult_pos].
      apply Rmult_le_pos; [lra|]. apply sin_ge_0; lra. }
    intros Hh. pose proof (FP Hh) as E. rewrite E in *.
    assert (T : 0 < t) by (apply Htp, cap_pos; auto). pose proof (seg_pos t T ltac:(lra)) as Sg.
    assert (A : 0 < (g1 s / 2) ^ 2 * (t - cos t * sin t)) by (apply mult_pos; [apply pow_lt; lra|auto]).
    split; auto. split.
    { apply Rik_pos; auto. apply mult_pos; lra. }
    destruct (Rltb_spec ((h0 + h1) / 2) (g1 s)); [|now apply mult_pos].
    apply mult_pos; [lra|]. apply sin_gt_0; [apply Htp'; lra|apply Htl'; lra].
  - (* closed rectangle *)
    intros (G1 & G2 & G3). eexists; split; [reflexivity|]. cbn [gm_A gm_R gm_B]. unfold Rect_Closed_A_ik, Rect_Closed_Pe_ik, Rect_Closed_B_ik.
    pose proof (cap_floor_range (g1 s) (mid h0 h1) G1) as CR.
    assert (B : 0 < (if Rltb (floor0 (mid h0 h1)) (g1 s) then g2 s else g3 s * g2 s)) by (destruct (Rltb _ _); [auto|now apply mult_pos]).
    split; [lra|]. intros Hh. assert (Y : 0 < cap (g1 s) (floor0 (mid h0 h1))) by (apply cap_pos; auto; rewrite FP; auto).
    split; [now apply mult_pos|]. split; auto. apply Rik_pos; [now apply mult_pos|lra].
  - (* open rectangle *)
    intros (G1 & G2). eexists; split; [reflexivity|]. cbn [gm_A gm_R gm_B]. unfold Rect_Open_A_ik, Rect_Open_Pe_ik, Rect_Open_B_ik.
    pose proof (cap_floor_range (g1 s) (mid h0 h1) G1) as CR.
    split; [lra|]. intros Hh. assert (Y : 0 < cap (g1 s) (floor0 (mid h0 h1))) by (apply cap_pos; auto; rewrite FP; auto).
    split; [now apply mult_pos|]. split; auto. apply Rik_pos; [now apply mult_pos|lra].
  - (* triangle *)
    intros (G1 & G2). eexists; split; [reflexivity|]. cbn [gm_A gm_R gm_B]. unfold Triangular_A_ik, Triangular_Pe_ik, Triangular_B_ik.
    pose proof (cap_floor_range (g1 s) (mid h0 h1) G1) as CR.
    pose proof (sqrt_ge_1 (g2 s ^ 2) (pow2_ge_0 _)) as SQ.
    split.
    { destruct (Rltb _ _); apply Rmult_le_pos; lra. }
    intros Hh. assert (Y : 0 < cap (g1 s) (floor0 (mid h0 h1))) by (apply cap_pos; auto; rewrite FP; auto).
    assert (A : 0 < g2 s * cap (g1 s) (floor0 (mid h0 h1)) ^ 2) by (apply mult_pos; auto; apply pow_lt; auto).
    split; auto. split; [apply Rik_pos; auto; apply mult_pos; lra|]. rewrite FP by auto.
    destruct (Rltb _ _); apply mult_pos; lra.
  - (* trapezoid *)
    intros (G1 & G2 & G3 & G4). eexists; split; [reflexivity|]. cbn [gm_A gm_R gm_B]. unfold Trapezoidal_A_ik, Trapezoidal_Pe_ik, Trapezoidal_B_ik.
    pose proof (cap_floor_range (g1 s) (mid h0 h1) G1) as CR.
    pose proof (sqrt_ge_1 (g3 s ^ 2) (pow2_ge_0 _)) as SQ.
    split.
    { assert (0 <= g3 s * floor0 (mid h0 h1)) by (apply Rmult_le_pos; auto). assert (0 <= g3 s * g1 s) by (apply Rmult_le_pos; lra).
      destruct (Rltb _ _); lra. }
    intros Hh. assert (Y : 0 < cap (g1 s) (floor0 (mid h0 h1))) by (apply cap_pos; auto; rewrite FP; auto).
    assert (W : forall y, 0 < y -> 0 < g2 s + g3 s * y).
    { intros y Hy. destruct (Rle_lt_or_eq_dec 0 (g2 s) G2) as [L|L].
      - assert (0 <= g3 s * y) by (apply Rmult_le_pos; lra). lra.
      - rewrite <- L in *. assert (0 < g3 s * y) by (apply mult_pos; lra). lra. }
    assert (A : 0 < cap (g1 s) (floor0 (mid h0 h1)) * (g2 s + g3 s * cap (g1 s) (floor0 (mid h0 h1)))) by (apply mult_pos; auto).
    split; auto. split.
    { apply Rik_pos; auto. assert (0 < cap (g1 s) (floor0 (mid h0 h1)) * sqrt (1 + g3 s ^ 2)) by (apply mult_pos; lra). lra. }
    rewrite FP by auto. pose proof (W _ Hh). pose proof (W _ G1).
    assert (0 <= g3 s * ((h0 + h1) / 2)) by (apply Rmult_le_pos; lra). assert (0 <= g3 s * g1 s) by (apply Rmult_le_pos; lra).
    destruct (Rltb _ _); lra.
  - (* parabola *)
    intros (G1 & G2). destruct (parabolic_pe_some h0 h1 _ _ G1 G2) as (p & Ep & Pp). rewrite Ep. cbn [bind].
    unfold Parabolic_B_ik. rewrite div_some by lra. cbn [bind]. eexists; split; [reflexivity|]. cbn [gm_A gm_R gm_B].
    assert (Q : 0 <= floor0 (mid h0 h1) / g1 s) by (apply Rmult_le_pos; [auto|left; apply Rinv_0_lt_compat; auto]).
    split; [apply Rmult_le_pos; [lra|apply sqrt_pos]|].
    intros Hh. unfold Parabolic_A_ik. assert (Y : 0 < cap (g1 s) (floor0 (mid h0 h1))) by (apply cap_pos; auto; rewrite FP; auto).
    assert (A : 0 < 2 * g2 s * cap (g1 s) (floor0 (mid h0 h1)) / 3).
    { apply Rmult_lt_0_compat; [|lra]. apply mult_pos; lra. }
    split; auto. split; [apply Rik_pos; auto|]. apply mult_pos; auto. apply sqrt_lt_R0. rewrite FP by auto.
    apply mult_pos; auto. apply Rinv_0_lt_compat; auto.
  - (* wide *)
    intros (G1 & G2). eexists; split; [reflexivity|]. cbn [gm_A gm_R gm_B]. unfold Wide_A_ik, Wide_Pe_ik, Wide_B_ik.
    split; [lra|]. intros Hh. assert (Y : 0 < cap (g1 s) (floor0 (mid h0 h1))) by (apply cap_pos; auto; rewrite FP; auto).
    split; [now apply mult_pos|]. split; auto. apply Rik_pos; [now apply mult_pos|lra].
  - (* force main *)
    intros (G1 & G2). eexists; split; [reflexivity|]. cbn [gm_A gm_R gm_B]. unfold Force_Main_A_ik, Force_Main_Pe_ik, Force_Main_B_ik.
    pose proof PI_RGT_0 as P.
    split; [left; now apply mult_pos|]. intros _.
    assert (A : 0 < PI * (g1 s / 2) ^ 2) by (apply mult_pos; auto; apply pow_lt; lra).
    split; auto. split; [apply Rik_pos; auto; now apply mult_pos|now apply mult_pos].
  - (* floodplain *)
    intros (G1 & G2 & G3 & G4 & G5 & G6 & G7 & GP). eexists; split; [reflexivity|]. cbn [gm_A gm_R gm_B].
    pose proof (cap_floor_range (g1 s) (mid h0 h1) G1) as CR.
    assert (FB : forall y, 0 <= y -> 0 <= g5 s * y /\ 0 <= g6 s * y /\ 0 <= g4 s * y /\ 0 <= g7 s * y).
    { intros y Hy. repeat split; apply Rmult_le_pos; auto. }
    unfold Floodplain_A_ik, Floodplain_Pe_ik, Floodplain_B_ik.
    set (y := cap (g1 s) (floor0 (mid h0 h1))) in *.
    assert (N7 : 0 <= g7 s * num (Rltb 0 y)) by (apply Rmult_le_pos; auto; unfold num; destruct (Rltb _ _); lra).
    split.
    { destruct (FB y) as (B1 & B2 & B3 & B4); [lra|]. destruct (FB (g2 s) G2) as (C1 & C2 & C3 & C4).
      destruct (FB (g3 s) G3) as (K1 & K2 & K3 & K4).
      destruct (Rltb_spec y (g2 s)); [lra|]. cbn [andb]. destruct (Rleb_spec (g2 s) y); [|exfalso; lra]. cbn [andb].
      destruct (Rltb_spec y (g2 s + g3 s)).
      - destruct (FB (y - g2 s)) as (X1 & X2 & X3 & X4); [lra|]. lra.
      - destruct (FB (y - (g2 s + g3 s))) as (X1 & X2 & X3 & X4); [lra|].
        replace (g2 s + g3 s - g2 s) with (g3 s) by ring. lra. }
    intros Hh. assert (Y : 0 < y) by (unfold y; apply cap_pos; auto; rewrite FP; auto).
    destruct (Rltb_spec 0 y); [|lra]. unfold num in *.
    pose proof (sqrt_ge_1 (g5 s ^ 2) (pow2_ge_0 _)) as S5. pose proof (sqrt_ge_1 (g6 s ^ 2) (pow2_ge_0 _)) as S6.
    pose proof (sqrt_ge_1 (g4 s ^ 2) (pow2_ge_0 _)) as S4.
    destruct (Rltb_spec y (g2 s)) as [L|L].
    + assert (Q : 0 < g5 s * y + g7 s).
      { destruct (FB y) as (B1 & _); [lra|]. destruct GP as [GP|[GP _]]; [lra|]. assert (0 < g5 s * y) by (apply mult_pos; auto). lra. }
      assert (A : 0 < y * (g5 s * y) + 0 * (0 + g6 s * 0) + 0 * (0 + g4 s * 0) + g7 s * y * 1).
      { assert (0 < y * (g5 s * y + g7 s)) by (apply mult_pos; lra). lra. }
      split; auto. destruct (FB y) as (B1 & _); [lra|]. split; [|lra].
      apply Rik_pos; auto. assert (0 < y * sqrt (1 + g5 s ^ 2)) by (apply mult_pos; lra). lra.
    + cbn [andb]. destruct (Rleb_spec (g2 s) y); [|exfalso; lra]. cbn [andb].
      assert (Q : 0 < g5 s * g2 s + g7 s).
      { destruct (FB (g2 s) G2) as (B1 & _). destruct GP as [GP|[GP GQ]]; [lra|]. assert (0 < g5 s * g2 s) by (apply mult_pos; auto). lra. }
      assert (Q5 : 0 <= g5 s * g2 s) by (apply Rmult_le_pos; auto).
      destruct (Rltb_spec y (g2 s + g3 s)) as [L2|L2].
      * assert (M : 0 <= g6 s * (y - g2 s)) by (apply Rmult_le_pos; lra).
        assert (A : 0 < g2 s * (g5 s * g2 s) + (y - g2 s) * (2 * g5 s * g2 s + g6 s * (y - g2 s)) + 0 * (0 + g4 s * 0) + g7 s * y * 1).
        { assert (0 <= (y - g2 s) * (g6 s * (y - g2 s))) by (apply Rmult_le_pos; lra).
          assert (0 <= (y - g2 s) * (g5 s * g2 s)) by (apply Rmult_le_pos; lra).
          assert (0 < y * (g5 s * g2 s + g7 s)) by (apply mult_pos; lra). lra. }
        split; auto. split; [|lra]. apply Rik_pos; auto.
        assert (0 <= g2 s * (sqrt (1 + g5 s ^ 2) - 1)) by (apply Rmult_le_pos; lra).
        assert (0 <= (y - g2 s) * (sqrt (1 + g6 s ^ 2) - 1)) by (apply Rmult_le_pos; lra). lra.
      * replace (g2 s + g3 s - g2 s) with (g3 s) by ring.
        set (t := y - (g2 s + g3 s)) in *. assert (Ht : 0 <= t) by (unfold t; lra).
        assert (M : 0 <= g6 s * g3 s) by (apply Rmult_le_pos; lra). assert (M4 : 0 <= g4 s * t) by (apply Rmult_le_pos; lra).
        assert (A : 0 < g2 s * (g5 s * g2 s) + g3 s * (2 * g5 s * g2 s + g6 s * g3 s) + t * (2 * g5 s * g2 s + 2 * g6 s * g3 s + g4 s * t) + g7 s * y * 1).
        { assert (0 <= g3 s * (g6 s * g3 s)) by (apply Rmult_le_pos; lra).
          assert (0 <= t * (g6 s * g3 s)) by (apply Rmult_le_pos; lra). assert (0 <= t * (g4 s * t)) by (apply Rmult_le_pos; lra).
          assert (0 <= t * (g5 s * g2 s)) by (apply Rmult_le_pos; lra). assert (0 <= g3 s * (g5 s * g2 s)) by (apply Rmult_le_pos; lra).
          assert (E : y = g2 s + g3 s + t) by (unfold t; ring).
          assert (0 < y * (g5 s * g2 s + g7 s)) by (apply mult_pos; lra). rewrite E in *. lra. }
        split; auto. split; [|lra]. apply Rik_pos; auto.
        assert (0 <= g2 s * (sqrt (1 + g5 s ^ 2) - 1)) by (apply Rmult_le_pos; lra).
        assert (0 <= g3 s * (sqrt (1 + g6 s ^ 2) - 1)) by (apply Rmult_le_pos; lra).
        assert (0 <= t * (sqrt (1 + g4 s ^ 2) - 1)) by (apply Rmult_le_pos; lra). unfold t in *. lra.
Qed.

(** ** Storages *)
Lemma tabular_volume_some h hs As : ascending hs -> hs <> [] -> length As = length hs ->
  exists v, tabular_volume h hs As (volume_table hs As) = Some v.
Proof.
  intros Asc Ne L. unfold tabular_volume. destruct (Nat.eqb_spec (searchsorted hs h) 0) as [|N0]; [eauto|].
  destruct (Nat.leb_spec (length hs) (searchsorted hs h)); [eauto|]. set (ix := searchsorted hs h) in *.
  assert (Lv : length (volume_table hs As) = length hs) by (apply cumtrapz_length; auto).
  unfold cell. destruct (nth_some hs (ix - 1)) as [hl El]; [lia|]. destruct (nth_some hs ix) as [hr Er]; [lia|].
  destruct (nth_some (volume_table hs As) (ix - 1)) as [vl Evl]; [lia|]. destruct (nth_some (volume_table hs As) ix) as [vr Evr]; [lia|].
  rewrite El, Er, Evl, Evr. cbv zeta. rewrite div_some; [cbn [bind]; eauto|].
  assert (hl < h) by (apply (ss_lt hs h (ix - 1)); auto; fold ix; lia).
  assert (h <= hr) by (apply (ss_ge hs h Asc ix); auto; fold ix; lia). lra.
Qed.
Lemma holding_area s h : holding s -> 0 < h -> exists a, storage_area s h = Some a /\ 0 < a.
Proof.
  destruct s as [a b c|hs As]; simpl.
  - intros (Ha & Hc & Hs & Hb) Hh. eexists; split; [reflexivity|]. unfold functional_area.
    destruct (Rltb_spec h 0); [lra|]. destruct (fpow_pos h b Hh) as [_ P].
    destruct (Rle_lt_or_eq_dec 0 a Ha) as [L|<-]; [|lra]. assert (0 < a * fpow h b) by now apply mult_pos. lra.
  - intros (Asc & Ne & L & P) Hh. destruct (C11_tabular_area_within_table h hs As Asc Ne L) as (v & i & j & a & b & E & Ea & Eb & B).
    exists v; split; auto. pose proof (P i a Ea). lra.
Qed.
Lemma holding_volume s h : holding s -> exists v, storage_volume s h = Some v.
Proof.
  destruct s as [a b c|hs As]; simpl.
  - intros (Ha & Hc & Hs & Hb). unfold functional_volume. destruct (Rltb _ _); [eauto|]. rewrite div_some by lra. cbn [bind]. eauto.
  - intros (Asc & Ne & L & P). now apply tabular_volume_some.
Qed.
Lemma orifice_geometry_some c u he d1 d2 d3 old : (c = 1%nat \/ c = 7%nat -> 0 < d1 /\ 0 < u) ->
  exists a, orifice_geometry c u he d1 d2 d3 old = Some a.
Proof.
  intros H. unfold orifice_geometry. destruct c as [|[|[|[|[|[|[|[|[|[|c]]]]]]]]]]; eauto.
  - destruct H as [H1 H2]; auto. assert (P : 0 < d1 * u) by now apply mult_pos. unfold Circular_A_ik.
    pose proof (cap_floor_range (d1 * u) (mid he he) P).
    destruct (circle_theta_some (d1 * u) (cap (d1 * u) (floor0 (mid he he))) P ltac:(lra)) as (t & -> & _). cbn [bind]. eauto.
  - destruct H as [H1 H2]; auto. assert (P : 0 < d1 * u) by now apply mult_pos. unfold Elliptical_A_ik. rewrite div_some by lra. cbn [bind]. eauto.
Qed.

(** ** Reachable systems: only the topology matters *)
Lemma same_network_sym K K' C C' : same_network K K' C C' -> same_network K' K C' C.
Proof. unfold same_network. intuition congruence. Qed.
Lemma same_network_trans K K' K'' C C' C'' : same_network K K' C C' -> same_network K' K'' C' C'' -> same_network K K'' C C''.
Proof. unfold same_network. intros (A1 & A2 & A3 & A4 & A5 & A6) (B1 & B2 & B3 & B4 & B5 & B6). repeat split; congruence. Qed.
Lemma reachable_transfer M bc K CO CW CP K' CO' CW' CP' s :
  same_network K K' [CO; CW; CP] [CO'; CW'; CP'] -> reachable M bc K CO CW CP s -> reachable M bc K' CO' CW' CP' s.
Proof.
  intros Hs. induction 1 as [|s K2 CO2 CW2 CP2 A_sj H_prev H_bc Q_0j dt Hr IH H2]; [constructor|].
  apply reach_step; auto. eapply same_network_trans; [apply same_network_sym; exact Hs|exact H2].
Qed.

(** ** One step of the whole object *)
Section Object.
Variable D : design.
Local Notation N := (d_net D).
Hypothesis HD : sound D.

(** The network with all coefficients 0: names its topology. *)
Definition blank_links : superlinks := mkSuperlinks (n_K N) (n_Ju N) (n_Jd N) zeros zeros zeros zeros zeros zeros (n_dxu N) zeros zeros (n_dxd N) zeros zeros.
Definition blank (n : nat) (Ju Jd : nat -> nat) : controls := mkControls n Ju Jd zeros zeros zeros.
Definition blank_or := blank (o_n (d_or D)) (o_Ju (d_or D)) (o_Jd (d_or D)).
Definition blank_we := blank (w_n (d_we D)) (w_Ju (d_we D)) (w_Jd (d_we D)).
Definition blank_pu := blank (p_n (d_pu D)) (p_Ju (d_pu D)) (p_Jd (d_pu D)).
Definition reached (s : system) : Prop := reachable (n_M N) (n_bc N) blank_links blank_or blank_we blank_pu s.

Lemma geometries_total b : watered D (b_st b) ->
  exists b', geometries D b = Some b' /\ wet N (geometry_of b') /\ (forall j, (j < n_M N)%nat -> 0 < b_As b' j) /\
    b_st b' = b_st b /\ b_sys b' = b_sys b /\ b_Qo b' = b_Qo b /\ b_Qw b' = b_Qw b /\ b_Qp b' = b_Qp b.
Proof.
  intros Hw. destruct HD as [Wf Z Mn Ln Nd En St Or We Pu]. unfold geometries.
  destruct (all_entries_total (n_L N) (b_gl b) (fun i =>
    let h0 := h_h (b_st b) (d_Ik D i) in
    let h1 := h_h (b_st b) (d_Ik D i + 1)%nat in
    section_geometry (d_sec D i) h0 h1 (with_perimeter (d_sec D i) (d_ell D) h0 h1 (b_gl b i)))) as [gl El].
  { intros i Hi. destruct (Ln i Hi) as (Cv & _). cbv zeta.
    edestruct (conveying_geometry (d_sec D i)) as (gm & E & _); eauto. }
  destruct (all_entries_total (n_K N) (b_gu b) (fun k =>
    section_geometry (d_sec D (n_i1 N k)) (h_h (b_st b) (n_I1 N k)) (b_thu b k * (h_H (b_st b) (n_Ju N k) - n_zu N k)) (b_gu b k))) as [gu Eu].
  { intros k Hk. destruct (wf_range _ Wf k Hk) as [R1 _]. pose proof (proj1 (wf_layout _ Wf) k Hk).
    destruct (Ln (n_i1 N k) ltac:(lia)) as (Cv & _).
    edestruct (conveying_geometry (d_sec D (n_i1 N k))) as (gm & E & _); eauto. }
  destruct (all_entries_total (n_K N) (b_gd b) (fun k =>
    section_geometry (d_sec D (n_i1 N k + n_nk N k - 1)%nat) (h_h (b_st b) (n_I1 N k + n_nk N k)%nat)
                     (b_thd b k * (h_H (b_st b) (n_Jd N k) - n_zd N k)) (b_gd b k))) as [gd Ed].
  { intros k Hk. destruct (wf_range _ Wf k Hk) as [R1 _]. pose proof (proj1 (wf_layout _ Wf) k Hk).
    destruct (Ln (n_i1 N k + n_nk N k - 1)%nat ltac:(lia)) as (Cv & _).
    edestruct (conveying_geometry (d_sec D (n_i1 N k + n_nk N k - 1)%nat)) as (gm & E & _); eauto. }
  assert (Dp : forall j, 0 < storage_depth (h_H (b_st b) j) (n_zj N j) (n_min N)).
  { intros j. unfold storage_depth. pose proof (Rmax_r (h_H (b_st b) j - n_zj N j) (n_min N)). lra. }
  destruct (all_entries_total (n_M N) (b_As b) (fun j => storage_area (d_store D j) (storage_depth (h_H (b_st b) j) (n_zj N j) (n_min N)))) as [As EA].
  { intros j Hj. destruct (holding_area _ _ (St j Hj) (Dp j)) as (a & E & _). eauto. }
  pose proof El as El'. change (link_geometry D (b_st b) (b_gl b) = Some gl) in El'.
  pose proof Eu as Eu'. change (upstream_geometry D (b_st b) (b_thu b) (b_gu b) = Some gu) in Eu'.
  pose proof Ed as Ed'. change (downstream_geometry D (b_st b) (b_thd b) (b_gd b) = Some gd) in Ed'.
  pose proof EA as EA'. change (storage_areas D (b_st b) (b_As b) = Some As) in EA'.
  rewrite El'. cbn [bind]. rewrite Eu'. cbn [bind]. rewrite Ed'. cbn [bind]. rewrite EA'. cbn [bind].
  eexists; split; [reflexivity|]. cbn [b_st b_sys b_Qo b_Qw b_Qp b_As]. split; [|split; [|auto]].
  - constructor; cbn [geometry_of g_A g_R g_B g_Bu g_Bd b_gl b_gu b_gd].
    + intros i Hi. destruct (Ln i Hi) as (Cv & P1 & P2 & P3 & P4). pose proof (all_entries_spec _ _ _ _ El i Hi) as E. cbv beta zeta in E.
      match type of E with section_geometry _ ?x ?y ?o = _ => destruct (conveying_geometry _ x y o Cv) as (gm & E' & _ & Q) end.
      rewrite E in E'. injection E' as <-. destruct Q as (Q1 & Q2 & Q3).
      { pose proof (Hw i Hi). lra. }
      auto 10.
    + auto.
    + intros k Hk. destruct (wf_range _ Wf k Hk) as [R1 _]. pose proof (proj1 (wf_layout _ Wf) k Hk).
      destruct (En k Hk) as (E1 & E2 & _).
      pose proof (all_entries_spec _ _ _ _ Eu k Hk) as F1. pose proof (all_entries_spec _ _ _ _ Ed k Hk) as F2. cbv beta in F1, F2.
      destruct (Ln (n_i1 N k) ltac:(lia)) as (C1 & _). destruct (Ln (n_i1 N k + n_nk N k - 1)%nat ltac:(lia)) as (C2 & _).
      match type of F1 with section_geometry _ ?x ?y ?o = _ => destruct (conveying_geometry _ x y o C1) as (g1' & G1 & B1 & _) end.
      match type of F2 with section_geometry _ ?x ?y ?o = _ => destruct (conveying_geometry _ x y o C2) as (g2' & G2 & B2 & _) end.
      rewrite F1 in G1. rewrite F2 in G2. injection G1 as <-. injection G2 as <-. auto.
    + intros k Hk. destruct (En k Hk) as (_ & _ & E1 & E2). auto.
  - intros j Hj. pose proof (all_entries_spec _ _ _ _ EA j Hj) as E. cbv beta in E.
    destruct (holding_area _ _ (St j Hj) (Dp j)) as (a & E' & P). rewrite E in E'. injection E' as <-. auto.
Qed.

Variable slv : mat -> arr -> option arr.
Hypothesis Hslv : solver (n_M N) slv.

(** The assembled system has exactly one solution. *)
Definition solvable (b : body) : Prop :=
  let l := system_matrix (o_n (d_or D)) (w_n (d_we D)) (p_n (d_pu D)) (b_sys b) in
  (exists H, solves (n_M N) l (s_b (b_sys b)) H) /\
  (forall H H', solves (n_M N) l (s_b (b_sys b)) H -> solves (n_M N) l (s_b (b_sys b)) H' -> forall j, (j < n_M N)%nat -> H j = H' j).

Lemma setup_body_total i dt sv b : admissible D i dt -> watered D (b_st b) -> reached (b_sys b) ->
  exists b', setup_body D i dt sv b = Some b' /\ b_st b' = b_st b /\ reached (b_sys b') /\ solvable b'.
Proof.
  intros (Hdt & Hup & Huo) Hw Hr. destruct (geometries_total b Hw) as (b1 & E1 & Wt & PA & Es & Esys & Eo & Ew & Ep).
  unfold setup_body. rewrite E1. cbn [bind]. destruct HD as [Wf Z Mn Ln Nd En St Or We Pu].
  destruct (all_entries_total (n_M N) (b_Vs b1) (fun j => storage_volume (d_store D j) (storage_depth (h_H (b_st b1) j) (n_zj N j) (n_min N)))) as [Vs EV].
  { intros j Hj. apply holding_volume; auto. }
  change (storage_volumes D (b_st b1) (b_Vs b1) = Some Vs) in EV. rewrite EV. cbn [bind].
  destruct Or as [Or Od].
  destruct (all_entries_total (o_n (d_or D)) (b_Ao b1) (fun o =>
    let O := d_or D in
    orifice_geometry (d_ocode D o) (i_uo i o)
      (orifice_depth (h_H (b_st b1) (o_Ju O o)) (h_H (b_st b1) (o_Jd O o)) (n_zj N (o_Ju O o)) (o_z O o))
      (d_o1 D o) (d_o2 D o) (d_o3 D o) (b_Ao b1 o))) as [Ao EO].
  { intros o Ho. cbv zeta. apply orifice_geometry_some. intros C. split; [apply Od|apply Huo]; auto. }
  change (orifice_areas D (b_st b1) (i_uo i) (b_Ao b1) = Some Ao) in EO. rewrite EO. cbn [bind].
  destruct (setup_total N (geometry_of b1) (work_of (b_cf b1)) (b_st b1) sv (i_Q0 i) dt Wf Wt Hdt (or_introl Z)) as [u Eu].
  rewrite Eu. cbn [bind]. unfold controls_of.
  destruct C35_linearised_controls_are_ordered as (O1 & O2 & O3).
  set (CO := orifice_controls _ _ _ _ _). set (CW := weir_controls _ _ _ _ _). set (CP := pump_controls _ _ _ _ _).
  set (K := superlinks_of N (geometry_of b1) u).
  assert (SN : same_network blank_links K [blank_or; blank_we; blank_pu] [CO; CW; CP]) by (repeat split; reflexivity).
  rewrite <- Esys in Hr.
  eexists; split; [reflexivity|]. cbn [b_st b_sys]. split; [exact Es|]. split.
  - unfold reached. apply reach_step; auto.
  - unfold solvable. cbn [b_sys].
    refine (C27_solved_system_has_exactly_one_solution (n_M N) (n_bc N) K CO CW CP (b_As b1) (h_H sv) (i_Hbc i) (i_Qin i) dt (b_sys b1)
              _ _ Hdt _ (O1 _ _ _ _ _) (O2 _ _ _ _ _) (O3 _ _ _ _ _ _) _ _).
    + apply (reachable_transfer _ _ _ _ _ _ _ _ _ _ _ SN Hr).
    + split; [apply Wf|]. split; [exact Or|]. split; [exact We|apply Pu].
    + apply (setup_ordered N (geometry_of b1) (work_of (b_cf b1)) (b_st b1) sv (i_Q0 i) dt Wf Wt Hdt (or_introl Z)); auto.
    + intros k Hk. split; [auto|]. apply Pu; auto.
    + intros j Hj _. unfold attached_area.
      assert (S1 : forall p dx B th, (forall k, (k < n_K N)%nat -> 0 <= dx k * B k * th k / 2) ->
                   0 <= sum_if p (fun k => dx k * B k * th k / 2) (n_K N)).
      { intros p dx B th Hk. unfold sum_if. apply sum_n_nonneg. intros k Hk'. destruct (p k); [auto|lra]. }
      assert (0 < b_As b1 j) by auto.
      assert (T : forall k, (k < n_K N)%nat -> 0 <= hl (u_hu u k) /\ 0 <= hl (u_hd u k)).
      { intros k Hk. destruct (setup_head_signs N (geometry_of b1) (work_of (b_cf b1)) (b_st b1) sv (i_Q0 i) dt Wt Hdt (or_introl Z) u Eu k Hk) as (_ & _ & ? & ?). auto. }
      assert (0 <= sum_if (fun k => Nat.eqb (n_Ju N k) j) (fun k => n_dxu N k * g_Bu (geometry_of b1) k * hl (u_hu u k) / 2) (n_K N)).
      { apply S1. intros k Hk. destruct (wet_ends _ _ Wt k Hk) as (B1 & B2 & X1 & X2). destruct (T k Hk).
        apply Rmult_le_pos; [|lra]. apply Rmult_le_pos; auto. apply Rmult_le_pos; auto. }
      assert (0 <= sum_if (fun k => Nat.eqb (n_Jd N k) j) (fun k => n_dxd N k * g_Bd (geometry_of b1) k * hl (u_hd u k) / 2) (n_K N)).
      { apply S1. intros k Hk. destruct (wet_ends _ _ Wt k Hk) as (B1 & B2 & X1 & X2). destruct (T k Hk).
        apply Rmult_le_pos; [|lra]. apply Rmult_le_pos; auto. apply Rmult_le_pos; auto. }
      unfold K. cbn [superlinks_of k_n k_Ju k_Jd k_dxu k_Bu k_thu k_dxd k_Bd k_thd]. lra.
Qed.

Lemma solve_body_total i dt b : solvable b -> reached (b_sys b) ->
  exists b', solve_body D slv i dt b = Some b' /\ watered D (b_st b') /\ reached (b_sys b') /\ within_limits N (b_st b').
Proof.
  intros [Ex Un] Hr. unfold solve_body. destruct (Hslv _ _ Ex Un) as (H & -> & _). cbn [bind].
  eexists; split; [reflexivity|]. cbn [b_st b_sys].
  pose proof (solve_step_within N (b_cf b) (b_st b) H (wf_layout _ (sd_wf _ HD))) as W.
  split; [|split]; auto. intros i0 Hi. pose proof (wl_depths _ _ W (d_Ik D i0)). pose proof (wl_depths _ _ W (d_Ik D i0 + 1)%nat).
  pose proof (sd_min _ HD). lra.
Qed.
End Object.
