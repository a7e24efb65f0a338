(** C06-C09: areas, widths, perimeters and hydraulic radii of link cross-sections; closed orifices (C33). *)
From Verif Require Import Prelude M_Coeffs M_Geometry S_Geometry L_Geometry M_Controls.
From Coq Require Import Ranalysis Ratan.

(** Flow area as a function of the depth of water in the section. *)
Definition area_at (s : section) (y : R) : R :=
  match shape s with
  | 1%nat => circ (g1 s) y
  | 2%nat | 3%nat | 8%nat => y * g2 s
  | 4%nat => g2 s * y ^ 2
  | 5%nat => y * (g2 s + g3 s * y)
  | 6%nat => 2 * g2 s * y / 3
  | 7%nat => elli (g1 s) (g2 s) y
  | 9%nat => PI * (g1 s / 2) ^ 2
  | 10%nat => flood s y
  | _ => 0
  end.

Ltac shapes s :=
  match goal with H : dims_ok s |- _ => unfold dims_ok in H end;
  destruct (shape s) as [|[|[|[|[|[|[|[|[|[|[|n]]]]]]]]]]] eqn:Es; try contradiction.

Lemma dims_g1 s : dims_ok s -> 0 < g1 s.
Proof. intros H. shapes s; intuition. Qed.

Lemma div_some x y : y <> 0 -> div x y = Some (x / y).
Proof. intros H; unfold div; destruct (Reqb_spec y 0); [contradiction|reflexivity]. Qed.

Lemma geometry_value s h0 h1 old : dims_ok s ->
  exists gm, hydraulic_geometry s h0 h1 old = Some gm /\ gm_A gm = area_at s (depth_in s h0 h1).
Proof.
  intros H. pose proof (dims_g1 s H) as G. pose proof (depth_in_range s h0 h1 G) as D.
  unfold hydraulic_geometry, area_at. shapes s.
  - assert (E : exists t, circle_theta (g1 s) (floor0 (mid h0 h1)) = Some t).
    { rewrite floor0_max. destruct (Rle_or_lt (g1 s) (Rmax (mid h0 h1) 0)).
      - eexists; apply circle_theta_above; auto.
      - eexists; apply circle_theta_eq; auto. split; [apply Rmax_r|lra]. }
    destruct E as [t Et].
    unfold Circular_A_ik, Circular_Pe_ik, Circular_B_ik. rewrite clip_depth.
    rewrite circle_theta_eq by auto. rewrite Et. cbn [bind]. eexists; split; [reflexivity|]. reflexivity.
  - eexists; split; [reflexivity|]. cbn [gm_A]. unfold Rect_Closed_A_ik; rewrite clip_depth; reflexivity.
  - eexists; split; [reflexivity|]. cbn [gm_A]. unfold Rect_Open_A_ik; rewrite clip_depth; reflexivity.
  - eexists; split; [reflexivity|]. cbn [gm_A]. unfold Triangular_A_ik; rewrite clip_depth; reflexivity.
  - eexists; split; [reflexivity|]. cbn [gm_A]. unfold Trapezoidal_A_ik; rewrite clip_depth; reflexivity.
  - assert (Ey : exists y, 0 < y /\ cap (g1 s) (if Rleb (mid h0 h1) 0 then geom_eps else mid h0 h1) = y).
    { eexists; split; [|reflexivity]. unfold cap. assert (0 < geom_eps) by (unfold geom_eps; lra). dR; lra. }
    destruct Ey as (y & Hy & Ey). unfold Parabolic_Pe_ik, Parabolic_B_ik. cbv zeta. rewrite Ey.
    rewrite (div_some (4 * y)) by lra. cbn [bind].
    rewrite (div_some 1). 2:{ apply Rgt_not_eq. apply Rmult_lt_0_compat; [lra|apply Rinv_0_lt_compat; lra]. }
    cbn [bind]. rewrite div_some by lra. cbn [bind].
    eexists; split; [reflexivity|]. cbn [gm_A]. unfold Parabolic_A_ik; rewrite clip_depth; reflexivity.
  - unfold Elliptical_A_ik, Elliptical_B_ik. rewrite clip_depth, div_some by lra. cbn [bind].
    eexists; split; [reflexivity|]. cbn [gm_A]. unfold elli, eseg. ring.
  - eexists; split; [reflexivity|]. cbn [gm_A]. unfold Wide_A_ik; rewrite clip_depth; reflexivity.
  - eexists; split; [reflexivity|]. reflexivity.
  - eexists; split; [reflexivity|]. cbn [gm_A]. unfold Floodplain_A_ik. rewrite clip_depth. cbv zeta.
    apply flood_eq; intuition.
Qed.

Lemma area_at_mono s y y' : dims_ok s -> 0 <= y -> y <= y' -> y' <= g1 s -> area_at s y <= area_at s y'.
Proof.
  intros H H0 H1 H2. pose proof (dims_g1 s H) as G. unfold area_at. shapes s.
  - apply circ_mono; auto.
  - apply Rmult_le_compat_r; lra.
  - apply Rmult_le_compat_r; lra.
  - apply Rmult_le_compat_l; [lra|]. nra.
  - destruct H as (? & ? & ?). assert (0 <= g3 s * y) by (apply Rmult_le_pos; lra).
    assert (g3 s * y <= g3 s * y') by (apply Rmult_le_compat_l; lra).
    apply Rmult_le_compat; lra.
  - assert (g2 s * y <= g2 s * y') by (apply Rmult_le_compat_l; lra). lra.
  - apply elli_mono; intuition.
  - apply Rmult_le_compat_r; lra.
  - lra.
  - apply flood_mono; intuition.
Qed.
Lemma area_at_full s : dims_ok s -> area_at s (g1 s) = full_area s.
Proof.
  intros H. pose proof (dims_g1 s H) as G. unfold area_at, full_area. shapes s.
  - apply circ_full; auto.
  - ring.
  - ring.
  - ring.
  - ring.
  - field.
  - apply elli_full; auto.
  - ring.
  - ring.
  - unfold flood, ramp. destruct H as (? & ? & ? & ? & ? & ? & ?). cbv zeta.
    unfold Rmin, Rmax; repeat destruct Rle_dec; try lra; try nra.
Qed.
Lemma area_at_0 s : dims_ok s -> shape s <> 9%nat -> area_at s 0 = 0.
Proof.
  intros H N. pose proof (dims_g1 s H) as G. unfold area_at. shapes s; try ring; try lia.
  - apply circ_0.
  - field.
  - apply elli_0; auto.
  - unfold flood, ramp. destruct H as (? & ? & ? & ? & ? & ? & ?).
    rewrite !Rmax_right by lra. ring.
Qed.

(** C06: the geometry is always computed (no exception), its flow area is between 0 and the full-section area, is the
    full-section area once the mean depth reaches the crown and 0 (but for always-full force mains) when dry. *)
Theorem C06_area_bounded s h0 h1 old : dims_ok s ->
  exists gm, hydraulic_geometry s h0 h1 old = Some gm /\
    0 <= gm_A gm <= full_area s /\
    (g1 s <= (h0 + h1) / 2 -> gm_A gm = full_area s) /\
    (shape s <> 9%nat -> (h0 + h1) / 2 <= 0 -> gm_A gm = 0).
Proof.
  intros H. destruct (geometry_value s h0 h1 old H) as (gm & E & V).
  pose proof (dims_g1 s H) as G. pose proof (depth_in_range s h0 h1 G) as D.
  exists gm; split; auto. rewrite V.
  split; [split|split].
  - destruct (Nat.eq_dec (shape s) 9) as [N|N].
    + unfold area_at; rewrite N. apply Rmult_le_pos; [apply Rlt_le, PI_RGT_0|apply pow2_ge_0].
    + rewrite <- (area_at_0 s H N). apply area_at_mono; auto; lra.
  - rewrite <- (area_at_full s H). apply area_at_mono; auto; lra.
  - intros F. rewrite depth_in_full by auto. apply area_at_full; auto.
  - intros N F. rewrite depth_in_dry by auto. apply area_at_0; auto.
Qed.

(** C06: the flow area does not decrease when either end depth rises. *)
Theorem C06_area_monotone s h0 h1 h0' h1' old old' gm gm' : dims_ok s -> h0 <= h0' -> h1 <= h1' ->
  hydraulic_geometry s h0 h1 old = Some gm -> hydraulic_geometry s h0' h1' old' = Some gm' ->
  gm_A gm <= gm_A gm'.
Proof.
  intros H H0 H1 E E'.
  destruct (geometry_value s h0 h1 old H) as (m & Em & V).
  destruct (geometry_value s h0' h1' old' H) as (m' & Em' & V').
  rewrite Em in E; injection E as <-. rewrite Em' in E'; injection E' as <-.
  rewrite V, V'. pose proof (dims_g1 s H) as G.
  pose proof (depth_in_range s h0 h1 G). pose proof (depth_in_range s h0' h1' G).
  apply area_at_mono; auto; try lra. apply depth_in_mono; auto.
Qed.

(** The area the solver computes for uniform depth y. *)
Definition code_area (s : section) (old : geom) (y : R) : R :=
  match hydraulic_geometry s y y old with Some gm => gm_A gm | None => 0 end.
Definition code_width (s : section) (old : geom) (y : R) : R :=
  match hydraulic_geometry s y y old with Some gm => gm_B gm | None => 0 end.

Lemma code_area_eq s old y : dims_ok s -> 0 < y < g1 s -> code_area s old y = area_at s y.
Proof.
  intros H Hy. unfold code_area. destruct (geometry_value s y y old H) as (gm & E & V).
  rewrite E, V, depth_in_inside; auto.
Qed.

Lemma pow2_lim y : derivable_pt_lim (fun y => y ^ 2) y (2 * y).
Proof. replace (2 * y) with (INR 2 * y ^ pred 2) by (simpl; ring). apply derivable_pt_lim_pow. Qed.

(** C07: inside the section the flow area grows at the rate of the chord of the shape: every shape but the parabola and
    the force main.  With C06 (area 0 when dry) this makes the flow area the area below the water surface. *)
Theorem C07_area_derivative_is_chord s old y : dims_ok s -> shape s <> 6%nat -> shape s <> 9%nat -> 0 < y < g1 s ->
  derivable_pt_lim (code_area s old) y (chord s y).
Proof.
  intros H N6 N9 Hy. pose proof (dims_g1 s H) as G.
  apply lim_ext_loc with (f' := area_at s) (a := 0) (b := g1 s); auto.
  { intros t Ht. apply code_area_eq; auto. }
  unfold chord.
  assert (L : forall b, derivable_pt_lim (fun y => y * b) y b).
  { intros b. enough (D : derivable_pt_lim (fun y => y * b) y (1 * b + y * 0)) by
      (replace (1 * b + y * 0) with b in D by ring; exact D).
    apply (derivable_pt_lim_mult (fun y => y) (fun _ => b)); [apply derivable_pt_lim_id|apply derivable_pt_lim_const]. }
  assert (X : forall f, (forall t, area_at s t = f t) -> forall l, derivable_pt_lim f y l -> derivable_pt_lim (area_at s) y l).
  { intros f Ef l D. apply lim_ext_loc with (f' := f) (a := 0) (b := g1 s); auto. }
  shapes s; try lia.
  - apply (X (circ (g1 s))); [intros; unfold area_at; now rewrite Es|]. apply circ_lim; auto.
  - apply (X (fun y => y * g2 s)); [intros; unfold area_at; now rewrite Es|]. apply L.
  - apply (X (fun y => y * g2 s)); [intros; unfold area_at; now rewrite Es|]. apply L.
  - apply (X (fun y => g2 s * y ^ 2)); [intros; unfold area_at; now rewrite Es|].
    replace (2 * g2 s * y) with (g2 s * (2 * y)) by ring.
    apply (derivable_pt_lim_scal (fun y => y ^ 2)). apply pow2_lim.
  - apply (X (fun y => y * g2 s + g3 s * y ^ 2)); [intros; unfold area_at; rewrite Es; ring|].
    replace (2 * g3 s * y) with (g3 s * (2 * y)) by ring.
    apply (derivable_pt_lim_plus (fun y => y * g2 s) (fun y => g3 s * y ^ 2)); [apply L|].
    apply (derivable_pt_lim_scal (fun y => y ^ 2)). apply pow2_lim.
  - apply (X (elli (g1 s) (g2 s))); [intros; unfold area_at; now rewrite Es|]. apply elli_lim; auto.
  - apply (X (fun y => y * g2 s)); [intros; unfold area_at; now rewrite Es|]. apply L.
  - apply (X (flood s)); [intros; unfold area_at; now rewrite Es|]. apply flood_lim; intuition.
Qed.

(** C07: the reported top width is the chord of the shape: every shape but the ellipse and the force main. *)
Theorem C07_top_width_is_chord s old y : dims_ok s -> shape s <> 7%nat -> shape s <> 9%nat -> 0 < y < g1 s ->
  code_width s old y = chord s y.
Proof.
  intros H N7 N9 Hy. pose proof (dims_g1 s H) as G. unfold code_width.
  destruct (geometry_value s y y old H) as (gm & E & _). rewrite E. revert E.
  assert (M : mid y y = y) by (unfold mid; field).
  assert (F : floor0 y = y) by (unfold floor0; dR; lra).
  unfold hydraulic_geometry, chord. shapes s; try lia.
  - unfold Circular_A_ik, Circular_Pe_ik, Circular_B_ik. rewrite clip_depth, depth_in_inside by auto.
    rewrite M, F. rewrite circle_theta_eq by lra. cbn [bind]. intros E; injection E as <-. cbn [gm_B].
    destruct (Rltb_spec y (g1 s)); [|lra]. apply circ_sin; auto.
  - intros E; injection E as <-. cbn [gm_B]. unfold Rect_Closed_B_ik. rewrite M, F. dR; lra.
  - intros E; injection E as <-. reflexivity.
  - intros E; injection E as <-. cbn [gm_B]. unfold Triangular_B_ik. rewrite M, F. cbv zeta. dR; lra.
  - intros E; injection E as <-. cbn [gm_B]. unfold Trapezoidal_B_ik. rewrite M, F. cbv zeta. dR; lra.
  - match goal with |- bind ?e _ = _ -> _ => destruct e end; [|discriminate]. cbn [bind].
    unfold Parabolic_B_ik. rewrite M, F, div_some by lra. cbn [bind]. intros E; injection E as <-. reflexivity.
  - intros E; injection E as <-. reflexivity.
  - intros E; injection E as <-. cbn [gm_B]. unfold Floodplain_B_ik. rewrite clip_depth, depth_in_inside by auto.
    cbv zeta. destruct H as (? & ? & ? & ? & ? & ? & ?).
    unfold num. destruct (Rltb_spec 0 y); [|lra].
    unfold Rmin, Rmax; dR; cbn [andb]; repeat destruct Rle_dec; try lra; nra.
Qed.

Definition zero_geom : geom := {| gm_A := 0; gm_Pe := 0; gm_R := 0; gm_B := 0 |}.
Definition shape_of (c : nat) (a b : R) : section :=
  {| shape := c; g1 := a; g2 := b; g3 := 0; g4 := 0; g5 := 0; g6 := 0; g7 := 0 |}.
(** Finding (C07): the parabola's area formula is linear in depth, so it does not grow at the rate of the top width. *)
Theorem C07_parabolic_width_refuted : exists s y, dims_ok s /\ shape s = 6%nat /\ 0 < y < g1 s /\
  ~ derivable_pt_lim (code_area s zero_geom) y (code_width s zero_geom y).
Proof.
  exists (shape_of 6 1 1), (/ 4). split; [unfold dims_ok; simpl; lra|]. split; [reflexivity|]. split; [simpl; lra|].
  intros D. assert (H : dims_ok (shape_of 6 1 1)) by (unfold dims_ok; simpl; lra).
  rewrite C07_top_width_is_chord in D; [|auto|discriminate|discriminate|simpl; lra].
  unfold chord in D; simpl in D.
  assert (D' : derivable_pt_lim (code_area (shape_of 6 1 1) zero_geom) (/ 4) (2 / 3)).
  { apply lim_ext_loc with (f' := fun y => 2 / 3 * y) (a := 0) (b := 1); [lra| |].
    - intros t Ht. rewrite code_area_eq; [|auto|simpl; lra]. unfold area_at; simpl. field.
    - pose proof (derivable_pt_lim_scal id (2/3) (/4) 1 (derivable_pt_lim_id (/4))) as X.
      rewrite Rmult_1_r in X. exact X. }
  pose proof (uniqueness_limite _ _ _ _ D D') as U.
  replace (/ 4 / 1) with ((/ 2) * (/ 2)) in U by field. rewrite sqrt_square in U by lra. lra.
Qed.

(** Finding (C07): the ellipse's reported top width is not its chord (witness: height 2, width 4, depth 3/2) ... *)
Theorem C07_elliptical_width_refuted : exists s y, dims_ok s /\ shape s = 7%nat /\ 0 < y < g1 s /\
  ~ derivable_pt_lim (code_area s zero_geom) y (code_width s zero_geom y).
Proof.
  exists (shape_of 7 2 4), (3 / 2). assert (H : dims_ok (shape_of 7 2 4)) by (unfold dims_ok; simpl; lra).
  split; auto. split; [reflexivity|]. split; [simpl; lra|].
  intros D.
  assert (D' := C07_area_derivative_is_chord (shape_of 7 2 4) zero_geom (3 / 2) H ltac:(discriminate) ltac:(discriminate) ltac:(simpl; lra)).
  pose proof (uniqueness_limite _ _ _ _ D D') as U. clear D D'.
  unfold code_width, hydraulic_geometry, shape_of in U; cbn [shape g1 g2] in U.
  unfold Elliptical_A_ik, Elliptical_B_ik in U.
  assert (M : cap 2 (floor0 (mid (3/2) (3/2))) = 3 / 2).
  { unfold mid. replace ((3 / 2 + 3 / 2) / 2) with (3 / 2) by field. rewrite cap_min, floor0_max, Rmax_left, Rmin_left; lra. }
  rewrite M, div_some in U by lra. cbn [bind gm_B] in U.
  unfold chord in U; cbn [shape g1 g2] in U.
  replace ((3 / 2 - 2 / 2) / (2 / 2)) with (1 / 2) in U by field.
  rewrite sin_asin, cos_asin in U by lra.
  replace (1 - (1 / 2)²) with (3 / 4) in U by (unfold Rsqr; field).
  replace (1 - (1 / 2) ^ 2) with (3 / 4) in U by field.
  rewrite pow2_sqrt in U by lra.
  assert (P : 0 < sqrt (3 / 4)) by (apply sqrt_lt_R0; lra).
  set (q := sqrt ((4 / 2) ^ 2 * (3 / 4) + (2 / 2) ^ 2 * (1 / 2) ^ 2)) in U.
  assert (Q : q * q = 13 / 4) by (unfold q; rewrite sqrt_sqrt by lra; field).
  assert (q = 2) by nra. nra.
Qed.
(** ... and a positive part: an ellipse with equal axes reports its chord. *)
Theorem C07_circular_ellipse_width s old y : dims_ok s -> shape s = 7%nat -> g1 s = g2 s -> 0 < y < g1 s ->
  code_width s old y = chord s y.
Proof.
  intros H Es E12 Hy. pose proof (dims_g1 s H) as G. unfold code_width, hydraulic_geometry, chord. rewrite Es.
  unfold Elliptical_A_ik, Elliptical_B_ik. rewrite clip_depth, depth_in_inside, div_some by lra. cbn [bind gm_B].
  rewrite <- E12. pose proof (elli_inner (g1 s) y G Hy) as I. set (x := (y - g1 s / 2) / (g1 s / 2)) in *.
  rewrite sin_asin, cos_asin by lra.
  rewrite pow2_sqrt by (unfold Rsqr; nra).
  replace ((g1 s / 2) ^ 2 * (1 - x²) + (g1 s / 2) ^ 2 * x ^ 2) with ((g1 s / 2) ^ 2) by (unfold Rsqr; ring).
  rewrite sqrt_pow2 by lra. replace (x ^ 2) with (x²) by (unfold Rsqr; ring). field.
Qed.

Lemma side_eq m y : 0 <= y -> y * sqrt (1 + m ^ 2) = side m y.
Proof.
  intros Hy. unfold side. replace (y ^ 2 + (m * y) ^ 2) with (y ^ 2 * (1 + m ^ 2)) by ring.
  rewrite sqrt_mult_alt by apply pow2_ge_0. rewrite sqrt_pow2 by auto. reflexivity.
Qed.
Lemma side_nonneg m y : 0 <= side m y.
Proof. apply sqrt_pos. Qed.

Lemma ln_pos x : 0 < x -> 0 <= ln (x + sqrt (1 + x ^ 2)).
Proof.
  intros Hx. rewrite <- ln_1. assert (1 <= sqrt (1 + x ^ 2)).
  { rewrite <- sqrt_1 at 1. apply sqrt_le_1_alt. nra. }
  destruct (Rle_lt_or_eq_dec 1 (x + sqrt (1 + x ^ 2)) ltac:(lra)) as [L|L].
  - apply Rlt_le, ln_increasing; lra.
  - rewrite <- L. lra.
Qed.

(** C08: perimeter is the length of the wetted boundary (parabola: only known to be positive; ellipse: the perimeter
    computed beforehand), the hydraulic radius is area over perimeter, never negative, 0 when dry. *)
Theorem C08_perimeter_and_radius s h0 h1 old : dims_ok s -> 0 <= gm_Pe old ->
  exists gm, hydraulic_geometry s h0 h1 old = Some gm /\
    0 <= gm_Pe gm /\ 0 <= gm_R gm /\ wetted_perimeter s (depth_in s h0 h1) (gm_Pe gm) /\
    (shape s <> 7%nat -> gm_R gm * gm_Pe gm = gm_A gm) /\
    (shape s <> 9%nat -> (h0 + h1) / 2 <= 0 -> gm_R gm = 0).
Proof.
  intros H Ho. pose proof (dims_g1 s H) as G.
  destruct (C06_area_bounded s h0 h1 old H) as (gm & E & [A0 _] & _ & Dry).
  exists gm. split; auto.
  pose proof (depth_in_range s h0 h1 G) as D.
  assert (K : gm_R gm = R_ik (gm_A gm) (gm_Pe gm) /\ 0 <= gm_Pe gm /\ wetted_perimeter s (depth_in s h0 h1) (gm_Pe gm)
              /\ (shape s <> 7%nat -> gm_Pe gm = 0 -> gm_A gm = 0)).
  { revert E. clear A0 Dry. unfold hydraulic_geometry, wetted_perimeter. shapes s.
    - unfold Circular_A_ik, Circular_Pe_ik, Circular_B_ik. rewrite clip_depth.
      rewrite circle_theta_eq by auto. cbn [bind].
      destruct (circle_theta (g1 s) (floor0 (mid h0 h1))); [|discriminate]. cbn [bind].
      intros E; injection E as <-. cbn [gm_R gm_A gm_Pe].
      pose proof (acos_bound (1 - depth_in s h0 h1 / (g1 s / 2))) as Bd.
      pose proof (circ_arg (g1 s) (depth_in s h0 h1) G D) as Ar.
      split; [reflexivity|]. split; [|split].
      + apply Rmult_le_pos; lra.
      + eexists; split; [exact Bd|]. split; [rewrite cos_acos by lra; field; lra|ring].
      + intros _ Z. assert (T : acos (1 - depth_in s h0 h1 / (g1 s / 2)) = 0).
        { apply Rmult_integral in Z. destruct Z; lra. }
        rewrite T, sin_0. ring.
    - intros E; injection E as <-. cbn [gm_R gm_A gm_Pe]. unfold Rect_Closed_Pe_ik, Rect_Closed_A_ik. rewrite clip_depth.
      split; [reflexivity|]. split; [lra|]. split; [reflexivity|lra].
    - intros E; injection E as <-. cbn [gm_R gm_A gm_Pe]. unfold Rect_Open_Pe_ik, Rect_Open_A_ik. rewrite clip_depth.
      split; [reflexivity|]. split; [lra|]. split; [reflexivity|lra].
    - intros E; injection E as <-. cbn [gm_R gm_A gm_Pe]. unfold Triangular_Pe_ik, Triangular_A_ik. rewrite clip_depth.
      rewrite <- side_eq by lra. assert (1 <= sqrt (1 + g2 s ^ 2)).
      { rewrite <- sqrt_1 at 1. apply sqrt_le_1_alt. nra. }
      split; [reflexivity|]. split; [apply Rmult_le_pos; lra|]. split; [ring|].
      intros _ Z. apply Rmult_integral in Z. assert (Z' : depth_in s h0 h1 = 0) by (destruct Z; lra). rewrite Z'. ring.
    - intros E; injection E as <-. cbn [gm_R gm_A gm_Pe]. unfold Trapezoidal_Pe_ik, Trapezoidal_A_ik. rewrite clip_depth.
      rewrite <- side_eq by lra. assert (1 <= sqrt (1 + g3 s ^ 2)).
      { rewrite <- sqrt_1 at 1. apply sqrt_le_1_alt. nra. }
      assert (0 <= 2 * depth_in s h0 h1 * sqrt (1 + g3 s ^ 2)) by (apply Rmult_le_pos; lra).
      split; [reflexivity|]. split; [lra|]. split; [ring|].
      intros _ Z. assert (Z2 : 2 * depth_in s h0 h1 * sqrt (1 + g3 s ^ 2) = 0) by lra.
      apply Rmult_integral in Z2. assert (Z' : depth_in s h0 h1 = 0) by (destruct Z2; lra). cbv zeta; rewrite Z'. ring.
    - assert (Ey : exists y, 0 < y /\ cap (g1 s) (if Rleb (mid h0 h1) 0 then geom_eps else mid h0 h1) = y).
      { eexists; split; [|reflexivity]. unfold cap. assert (0 < geom_eps) by (unfold geom_eps; lra). dR; lra. }
      destruct Ey as (y & Hy & Ey). unfold Parabolic_Pe_ik, Parabolic_B_ik. cbv zeta. rewrite Ey.
      rewrite (div_some (4 * y)) by lra. cbn [bind].
      assert (X : 0 < 4 * y / g2 s) by (apply Rmult_lt_0_compat; [lra|apply Rinv_0_lt_compat; lra]).
      rewrite (div_some 1) by lra. cbn [bind]. rewrite div_some by lra. cbn [bind].
      intros E; injection E as <-. cbn [gm_R gm_A gm_Pe]. set (x := 4 * y / g2 s) in *.
      assert (1 <= sqrt (1 + x ^ 2)).
      { rewrite <- sqrt_1 at 1. apply sqrt_le_1_alt. nra. }
      assert (0 <= 1 / x * ln (x + sqrt (1 + x ^ 2))).
      { apply Rmult_le_pos; [|apply ln_pos; auto]. apply Rlt_le. apply Rmult_lt_0_compat; [lra|apply Rinv_0_lt_compat; lra]. }
      assert (0 < g2 s / 2 * (sqrt (1 + x ^ 2) + 1 / x * ln (x + sqrt (1 + x ^ 2)))) by (apply Rmult_lt_0_compat; lra).
      change (x * (x * 1)) with (x ^ 2).
      split; [reflexivity|]. split; [lra|]. split; [lra|intros; lra].
    - unfold Elliptical_A_ik, Elliptical_B_ik. rewrite clip_depth, div_some by lra. cbn [bind].
      intros E; injection E as <-. cbn [gm_R gm_A gm_Pe]. repeat split; auto. lia.
    - intros E; injection E as <-. cbn [gm_R gm_A gm_Pe]. unfold Wide_Pe_ik.
      split; [reflexivity|]. split; [lra|]. split; [reflexivity|lra].
    - intros E; injection E as <-. cbn [gm_R gm_A gm_Pe]. unfold Force_Main_Pe_ik.
      assert (0 < PI * g1 s) by (apply Rmult_lt_0_compat; [apply PI_RGT_0|lra]).
      split; [reflexivity|]. split; [lra|]. split; [reflexivity|lra].
    - intros E; injection E as <-. cbn [gm_R gm_A gm_Pe]. unfold Floodplain_Pe_ik, Floodplain_A_ik. rewrite clip_depth.
      destruct H as (? & ? & ? & ? & ? & ? & ?). cbv zeta. rewrite flood_eq by lra. set (y := depth_in s h0 h1) in *.
      match goal with |- R_ik _ ?p = _ /\ _ => set (P := p) end.
      assert (EP : P = 2 * side (g5 s) (Rmin y (g2 s)) + 2 * side (g6 s) (Rmin (Rmax (y - g2 s) 0) (g3 s))
              + 2 * side (g4 s) (Rmax (y - (g2 s + g3 s)) 0) + (if Rlt_dec 0 y then g7 s else 0)).
      { unfold P, num. rewrite <- !side_eq; [|apply Rmax_r|apply Rmin_glb; [apply Rmax_r|lra]|apply Rmin_glb; lra].
        destruct (Rlt_dec 0 y); (destruct (Rltb_spec 0 y); try lra); unfold Rmin, Rmax;
        (destruct (Rltb_spec y (g2 s)); [|destruct (Rleb_spec (g2 s) y); [|lra]; destruct (Rltb_spec y (g2 s + g3 s))]);
         cbn [andb]; repeat destruct Rle_dec; try lra; try ring.
        all: try (replace (y - g2 s) with (g3 s) by lra; replace (y - (g2 s + g3 s)) with 0 by lra; ring).
        all: try (replace (g2 s) with y by lra; ring).
        all: replace (g3 s) with 0 by lra; replace (g2 s) with y by lra; ring. }
      split; [reflexivity|]. rewrite EP.
      pose proof (side_nonneg (g5 s) (Rmin y (g2 s))). pose proof (side_nonneg (g6 s) (Rmin (Rmax (y - g2 s) 0) (g3 s))).
      pose proof (side_nonneg (g4 s) (Rmax (y - (g2 s + g3 s)) 0)).
      split; [destruct (Rlt_dec 0 y); lra|]. split; [reflexivity|].
      intros _ Z.
      assert (Z1 : side (g5 s) (Rmin y (g2 s)) = 0) by (destruct (Rlt_dec 0 y); lra).
      assert (Z2 : side (g6 s) (Rmin (Rmax (y - g2 s) 0) (g3 s)) = 0) by (destruct (Rlt_dec 0 y); lra).
      assert (Z3 : side (g4 s) (Rmax (y - (g2 s + g3 s)) 0) = 0) by (destruct (Rlt_dec 0 y); lra).
      assert (S0 : forall m x, 0 <= x -> side m x = 0 -> x = 0).
      { intros m x Hx Sx. rewrite <- side_eq in Sx by auto. apply Rmult_integral in Sx. destruct Sx as [|Sx]; auto.
        assert (1 <= sqrt (1 + m ^ 2)); [|lra]. rewrite <- sqrt_1 at 1. apply sqrt_le_1_alt. nra. }
      apply S0 in Z1; [|apply Rmin_glb; lra].
      apply S0 in Z2; [|apply Rmin_glb; [apply Rmax_r|lra]].
      apply S0 in Z3; [|apply Rmax_r].
      assert (Y : y = 0).
      { revert Z1 Z2 Z3. unfold Rmin, Rmax; repeat destruct Rle_dec; lra. }
      unfold flood, ramp. rewrite Y. rewrite !Rmax_right by lra. ring. }
  destruct K as (KR & KP & KW & KZ). rewrite KR.
  split; auto. split; [|split; [auto|split]].
  - unfold R_ik. dR; [|lra]. apply Rmult_le_pos; auto. apply Rlt_le, Rinv_0_lt_compat; auto.
  - intros N. unfold R_ik. dR; [field; lra|]. rewrite KZ by (auto; lra). ring.
  - intros N9 Hd. rewrite (Dry N9 Hd). unfold R_ik. dR; [|reflexivity]. unfold Rdiv; ring.
Qed.

(** C09: a full circular, closed rectangular or force-main conduit has top width slot * width with the slot the
    user gave, or 0.001 if they gave none; it is positive. *)
Definition slot_of (x w : R) : Prop := (x <> 0 /\ w = x) \/ (x = 0 /\ w = 1 / 1000).
Theorem C09_slot_width s h0 h1 old : dims_ok s -> shape s = 1%nat \/ shape s = 2%nat \/ shape s = 9%nat ->
  g1 s <= (h0 + h1) / 2 ->
  exists gm w, hydraulic_geometry (default_slots s) h0 h1 old = Some gm /\ 0 < gm_B gm /\
    gm_B gm = w * (if Nat.eqb (shape s) 2 then g2 s else g1 s) /\
    slot_of (if Nat.eqb (shape s) 2 then g3 s else g2 s) w.
Proof.
  intros H Hs F. pose proof (dims_g1 s H) as G.
  assert (Fl : floor0 (mid h0 h1) = (h0 + h1) / 2) by (unfold mid, floor0; dR; lra).
  assert (SL : forall x, 0 <= x -> 0 < (if Reqb x 0 then / 1000 else x)) by (intros; dR; lra).
  assert (SO : forall x, slot_of x (if Reqb x 0 then / 1000 else x)).
  { intros; unfold slot_of; dR; [right; split; auto; lra|left; auto]. }
  unfold hydraulic_geometry. unfold dims_ok in H.
  destruct Hs as [Es|[Es|Es]]; cbn [default_slots shape g1 g2 g3]; rewrite Es in *; cbn [Nat.eqb orb].
  - unfold Circular_A_ik, Circular_Pe_ik, Circular_B_ik. rewrite cap_min, Fl.
    rewrite Rmin_right by lra. rewrite !circle_theta_above by lra. cbn [bind].
    eexists; eexists; split; [reflexivity|]. cbn [gm_B]. destruct (Rltb_spec ((h0 + h1) / 2) (g1 s)); [exfalso; lra|].
    split; [|split; [reflexivity|apply SO]]; apply Rmult_lt_0_compat; [apply SL|]; lra.
  - eexists; eexists; split; [reflexivity|]. cbn [gm_B]. unfold Rect_Closed_B_ik. rewrite Fl.
    destruct (Rltb_spec ((h0 + h1) / 2) (g1 s)); [exfalso; lra|].
    split; [|split; [reflexivity|apply SO]]; apply Rmult_lt_0_compat; [apply SL|]; lra.
  - eexists; eexists; split; [reflexivity|]. cbn [gm_B]. unfold Force_Main_B_ik.
    split; [|split; [reflexivity|apply SO]]; apply Rmult_lt_0_compat; [apply SL|]; lra.
Qed.
(** C09: such a conduit has a positive top width at every positive depth. *)
Theorem C09_width_positive_when_wet s h0 h1 old gm : dims_ok s -> shape s = 1%nat \/ shape s = 2%nat \/ shape s = 9%nat ->
  0 < (h0 + h1) / 2 -> hydraulic_geometry (default_slots s) h0 h1 old = Some gm -> 0 < gm_B gm.
Proof.
  intros H Hs W E. destruct (Rle_or_lt (g1 s) ((h0 + h1) / 2)) as [F|F].
  { destruct (C09_slot_width s h0 h1 old H Hs F) as (gm' & w & E' & P & _). rewrite E in E'. injection E' as <-. exact P. }
  pose proof (dims_g1 s H) as G.
  assert (Fl : floor0 (mid h0 h1) = (h0 + h1) / 2) by (unfold mid, floor0; dR; lra).
  revert E. unfold hydraulic_geometry. unfold dims_ok in H.
  destruct Hs as [Es|[Es|Es]]; cbn [default_slots shape g1 g2 g3]; rewrite Es in *; cbn [Nat.eqb orb].
  - unfold Circular_A_ik, Circular_Pe_ik, Circular_B_ik. rewrite cap_min, Fl.
    rewrite Rmin_left by lra. rewrite !circle_theta_eq by lra. cbn [bind].
    intros E; injection E as <-. cbn [gm_B]. destruct (Rltb_spec ((h0 + h1) / 2) (g1 s)); [|lra].
    rewrite circ_sin by lra. apply Rmult_lt_0_compat; [lra|]. apply sqrt_lt_R0. apply Rmult_lt_0_compat; lra.
  - intros E; injection E as <-. cbn [gm_B]. unfold Rect_Closed_B_ik. rewrite Fl.
    destruct (Rltb_spec ((h0 + h1) / 2) (g1 s)); lra.
  - intros E; injection E as <-. cbn [gm_B]. unfold Force_Main_B_ik.
    apply Rmult_lt_0_compat; [|lra]. dR; lra.
Qed.
(** Finding (C09): an elliptical conduit has no slot: surcharged, its top width is 0. *)
Theorem C09_elliptical_slot_refuted s h0 h1 old : dims_ok s -> shape s = 7%nat -> g1 s <= (h0 + h1) / 2 ->
  exists gm, hydraulic_geometry (default_slots s) h0 h1 old = Some gm /\ gm_B gm = 0.
Proof.
  intros H Es F. pose proof (dims_g1 s H) as G. unfold hydraulic_geometry.
  cbn [default_slots shape g1 g2 g3]; rewrite Es; cbn [Nat.eqb orb].
  unfold Elliptical_A_ik, Elliptical_B_ik. rewrite clip_depth, depth_in_full, div_some by lra. cbn [bind].
  eexists; split; [reflexivity|]. cbn [gm_B].
  replace ((g1 s - g1 s / 2) / (g1 s / 2)) with 1 by (field; lra). rewrite asin_1, cos_PI2. ring.
Qed.

(** C33: an orifice driven fully closed has area 0 and passes nothing, for every shape whose area is computed
    without division. *)
Theorem C33_closed_orifice_passes_nothing c he d1 d2 d3 A_old C H_u H_d z_inv z_o tau y_max oneway :
  In c [2; 3; 4; 5; 6; 8; 9]%nat ->
  exists Ao, orifice_geometry c 0 he d1 d2 d3 A_old = Some Ao /\ Ao = 0 /\
    orifice_discharge Ao C H_u H_d 0 z_inv z_o tau y_max oneway = 0.
Proof.
  intros Hc.
  assert (Z : orifice_discharge 0 C H_u H_d 0 z_inv z_o tau y_max oneway = 0).
  { unfold orifice_discharge. replace (2 * M_Coeffs.g * C ^ 2 * 0 ^ 2) with 0 by ring.
    assert (OC : orifice_coeffs 0 H_u H_d 0 z_inv z_o tau y_max oneway = (0, 0, 0)).
    { unfold orifice_coeffs. cbv zeta.
      repeat match goal with |- context [if ?b then _ else _] => destruct b end;
        (apply (f_equal2 pair); [apply (f_equal2 pair); ring|ring]). }
    rewrite OC.
    replace (0 * H_u + 0 * H_d + 0) with 0 by ring. rewrite Rabs_R0, sqrt_0. ring. }
  assert (Cap : exists y, cap (d1 * 0) (floor0 (mid he he)) = y /\ y = 0).
  { eexists; split; [reflexivity|]. rewrite cap_min, floor0_max, Rmult_0_r. apply Rmin_right, Rmax_r. }
  destruct Cap as (y & Ey & Y).
  assert (K : exists Ao, orifice_geometry c 0 he d1 d2 d3 A_old = Some Ao /\ Ao = 0).
  { simpl in Hc. destruct Hc as [<-|[<-|[<-|[<-|[<-|[<-|[<-|[]]]]]]]]; eexists; (split; [reflexivity|]);
    unfold Rect_Closed_A_ik, Rect_Open_A_ik, Triangular_A_ik, Trapezoidal_A_ik, Parabolic_A_ik, Wide_A_ik, Force_Main_A_ik;
    rewrite ?Ey, ?Y; try (unfold Rdiv; ring). }
  destruct K as (Ao & EA & ->). exists 0. auto.
Qed.
(** Finding (C33): driving a circular or elliptical orifice fully closed raises ZeroDivisionError. *)
Theorem C33_closing_circular_orifice_raises_refuted he d1 d2 d3 A_old :
  orifice_geometry 1 0 he d1 d2 d3 A_old = None /\ orifice_geometry 7 0 he d1 d2 d3 A_old = None.
Proof.
  split; unfold orifice_geometry, Circular_A_ik, circle_theta, Elliptical_A_ik, div; rewrite Rmult_0_r;
  replace (0 / 2) with 0 by field; destruct (Reqb_spec 0 0); try reflexivity; lra.
Qed.

Example C06_circular_half_full :
  let s := shape_of 1 2 0 in dims_ok s /\
  exists gm, hydraulic_geometry s (1/2) (3/2) zero_geom = Some gm /\ gm_A gm = PI / 2.
Proof.
  cbv zeta. assert (H : dims_ok (shape_of 1 2 0)) by (unfold dims_ok; simpl; lra). split; auto.
  destruct (geometry_value (shape_of 1 2 0) (1/2) (3/2) zero_geom H) as (gm & E & V).
  exists gm; split; auto. rewrite V. unfold area_at, depth_in; cbn [shape_of shape g1].
  replace ((1 / 2 + 3 / 2) / 2) with 1 by field. rewrite Rmax_left by lra. rewrite Rmin_left by lra.
  unfold circ. replace (1 - 1 / (2 / 2)) with 0 by field. rewrite acos_0. unfold seg. rewrite cos_PI2. field.
Qed.
Example C07_flood_section_ok :
  dims_ok {| shape := 10; g1 := 5; g2 := 1; g3 := 2; g4 := 3; g5 := 1; g6 := 2; g7 := 4 |}.
Proof. unfold dims_ok; simpl; lra. Qed.
