(** Lemmas on the cross-section formulas. *)
From Verif Require Import Prelude M_Coeffs M_Geometry S_Geometry.
From Coq Require Import Ranalysis Ratan.

Lemma floor0_max y : floor0 y = Rmax y 0.
Proof. unfold floor0; dR; [rewrite Rmax_right|rewrite Rmax_left]; lra. Qed.
Lemma cap_min t y : cap t y = Rmin y t.
Proof. unfold cap; dR; [rewrite Rmin_right|rewrite Rmin_left]; lra. Qed.
Lemma clip_depth s h0 h1 : cap (g1 s) (floor0 (mid h0 h1)) = depth_in s h0 h1.
Proof. rewrite cap_min, floor0_max; reflexivity. Qed.
Lemma depth_in_range s h0 h1 : 0 < g1 s -> 0 <= depth_in s h0 h1 <= g1 s.
Proof.
  intros H; unfold depth_in; split; [|apply Rmin_r].
  apply Rmin_glb; [apply Rmax_r|lra].
Qed.
Lemma depth_in_mono s h0 h1 h0' h1' : h0 <= h0' -> h1 <= h1' -> depth_in s h0 h1 <= depth_in s h0' h1'.
Proof.
  intros; unfold depth_in. apply Rle_min_compat_r. apply Rle_max_compat_r. lra.
Qed.
Lemma depth_in_full s h0 h1 : 0 < g1 s -> g1 s <= (h0 + h1) / 2 -> depth_in s h0 h1 = g1 s.
Proof. intros; unfold depth_in. rewrite Rmax_left by lra. apply Rmin_right; lra. Qed.
Lemma depth_in_dry s h0 h1 : 0 < g1 s -> (h0 + h1) / 2 <= 0 -> depth_in s h0 h1 = 0.
Proof. intros; unfold depth_in. rewrite Rmax_right by lra. apply Rmin_left; lra. Qed.
Lemma depth_in_inside s y : 0 < y < g1 s -> depth_in s y y = y.
Proof. intros; unfold depth_in. rewrite Rmax_left by lra. rewrite Rmin_left; lra. Qed.

(** The angle function of circular segments. *)
Definition seg (t : R) : R := t - cos t * sin t.
Lemma seg_lim t : derivable_pt_lim seg t (2 * sin t ^ 2).
Proof.
  unfold seg. replace (2 * sin t ^ 2) with (1 - (- sin t * sin t + cos t * cos t)).
  2:{ pose proof (sin2_cos2 t) as E; unfold Rsqr in E; simpl; lra. }
  apply derivable_pt_lim_minus; [apply derivable_pt_lim_id|].
  apply derivable_pt_lim_mult; [apply derivable_pt_lim_cos|apply derivable_pt_lim_sin].
Qed.
Lemma nonneg_lim_increasing (f f' : R -> R) :
  (forall t, derivable_pt_lim f t (f' t)) -> (forall t, 0 <= f' t) -> forall x y, x <= y -> f x <= f y.
Proof.
  intros D N. set (pr := fun t => exist (fun l => derivable_pt_abs f t l) (f' t) (D t) : derivable_pt f t).
  assert (I : increasing f).
  { apply (nonneg_derivative_1 f pr). intros t. unfold derive_pt; simpl. apply N. }
  exact I.
Qed.
Lemma seg_incr x y : x <= y -> seg x <= seg y.
Proof.
  apply (nonneg_lim_increasing seg (fun t => 2 * sin t ^ 2) seg_lim).
  intros t; pose proof (pow2_ge_0 (sin t)); lra.
Qed.
Lemma seg_0 : seg 0 = 0.
Proof. unfold seg; rewrite sin_0; ring. Qed.
Lemma seg_PI : seg PI = PI.
Proof. unfold seg; rewrite sin_PI; ring. Qed.

Lemma acos_decr x y : -1 <= x -> x <= y -> y <= 1 -> acos y <= acos x.
Proof.
  intros Hx Hxy Hy. destruct (Rle_or_lt (acos y) (acos x)) as [|C]; auto.
  pose proof (acos_bound x); pose proof (acos_bound y).
  assert (cos (acos y) < cos (acos x)) by (apply cos_decreasing_1; lra).
  rewrite !cos_acos in * by lra. lra.
Qed.
Lemma asin_incr x y : -1 <= x -> x <= y -> y <= 1 -> asin x <= asin y.
Proof.
  intros Hx Hxy Hy. destruct (Rle_or_lt (asin x) (asin y)) as [|C]; auto.
  pose proof (asin_bound x); pose proof (asin_bound y).
  assert (sin (asin y) < sin (asin x)) by (apply sin_increasing_1; lra).
  rewrite !sin_asin in * by lra. lra.
Qed.
Lemma acos_m1 : acos (-1) = PI.
Proof. replace (-1) with (- (1)) by ring. rewrite acos_opp, acos_1. ring. Qed.
Lemma asin_m1 : asin (-1) = - (PI / 2).
Proof. replace (-1) with (- (1)) by ring. rewrite asin_opp, asin_1. reflexivity. Qed.

Lemma acos_lim x : -1 < x < 1 -> derivable_pt_lim acos x (- 1 / sqrt (1 - x²)).
Proof.
  intros H. pose proof (derive_pt_acos x H) as E.
  rewrite <- E. apply derive_pt_eq_1 with (pr := derivable_pt_acos x H). reflexivity.
Qed.
Lemma asin_lim x : -1 < x < 1 -> derivable_pt_lim asin x (1 / sqrt (1 - x²)).
Proof.
  intros H. pose proof (derive_pt_asin x H) as E.
  rewrite <- E. apply derive_pt_eq_1 with (pr := derivable_pt_asin x H). reflexivity.
Qed.

(** Derivatives are local. *)
Lemma lim_ext_loc (f f' : R -> R) x l a b : a < x < b -> (forall t, a < t < b -> f t = f' t) ->
  derivable_pt_lim f' x l -> derivable_pt_lim f x l.
Proof.
  intros Hx E D e He. destruct (D e He) as [[d Hd] P]; simpl in P.
  assert (H : 0 < Rmin d (Rmin (x - a) (b - x))) by (repeat apply Rmin_glb_lt; lra).
  exists (mkposreal _ H); simpl. intros h Hh Hs.
  pose proof (Rmin_l d (Rmin (x - a) (b - x))). pose proof (Rmin_r d (Rmin (x - a) (b - x))).
  pose proof (Rmin_l (x - a) (b - x)). pose proof (Rmin_r (x - a) (b - x)).
  apply Rabs_def2 in Hs as S.
  rewrite !E by lra. apply P; auto; lra.
Qed.

(** ** Circle *)
Definition circ (d y : R) : R := (d / 2) ^ 2 * seg (acos (1 - y / (d / 2))).
Lemma circ_arg d y : 0 < d -> 0 <= y <= d -> 0 <= y / (d / 2) <= 2.
Proof.
  intros Hd Hy. assert (E : y / (d / 2) = 2 * y / d) by (field; lra). rewrite E.
  split.
  - apply Rmult_le_pos; [lra|apply Rlt_le, Rinv_0_lt_compat; lra].
  - apply Rmult_le_reg_r with d; auto. replace (2 * y / d * d) with (2 * y) by (field; lra). lra.
Qed.
Lemma circle_theta_eq d y : 0 < d -> 0 <= y <= d -> circle_theta d y = Some (acos (1 - y / (d / 2))).
Proof.
  intros Hd Hy. pose proof (circ_arg d y Hd Hy) as H.
  unfold circle_theta, div. destruct (Reqb_spec (d / 2) 0); [lra|]. cbn [bind].
  cbv zeta. destruct (Rltb_spec (y / (d / 2)) 0); [lra|].
  destruct (Rltb_spec 2 (y / (d / 2))); [lra|]. reflexivity.
Qed.
Lemma circle_theta_above d y : 0 < d -> d <= y -> circle_theta d y = Some PI.
Proof.
  intros Hd Hy.
  unfold circle_theta, div. destruct (Reqb_spec (d / 2) 0); [lra|]. cbn [bind]. cbv zeta.
  assert (2 <= y / (d / 2)).
  { apply Rmult_le_reg_r with (d / 2); [lra|]. unfold Rdiv at 2. rewrite Rmult_assoc, Rinv_l by lra. lra. }
  destruct (Rltb_spec (y / (d / 2)) 0); [lra|].
  destruct (Rltb_spec 2 (y / (d / 2))); f_equal; rewrite <- acos_m1; f_equal; lra.
Qed.
Lemma circ_mono d y y' : 0 < d -> 0 <= y -> y <= y' -> y' <= d -> circ d y <= circ d y'.
Proof.
  intros Hd H0 H1 H2. unfold circ. apply Rmult_le_compat_l; [apply pow2_ge_0|].
  apply seg_incr. pose proof (circ_arg d y Hd ltac:(lra)). pose proof (circ_arg d y' Hd ltac:(lra)).
  assert (y / (d / 2) <= y' / (d / 2)).
  { apply Rmult_le_compat_r; auto. apply Rlt_le, Rinv_0_lt_compat; lra. }
  apply acos_decr; lra.
Qed.
Lemma circ_0 d : circ d 0 = 0.
Proof.
  unfold circ. replace (1 - 0 / (d / 2)) with 1 by (unfold Rdiv; ring). rewrite acos_1, seg_0. ring.
Qed.
Lemma circ_full d : 0 < d -> circ d d = PI * (d / 2) ^ 2.
Proof.
  intros. unfold circ. replace (1 - d / (d / 2)) with (-1) by (field; lra).
  rewrite acos_m1, seg_PI. ring.
Qed.
Lemma circ_x2 d y : 0 < d -> 0 < y < d ->
  (d / 2) ^ 2 * (1 - (1 - y / (d / 2))²) = y * (d - y).
Proof. intros. unfold Rsqr. field. lra. Qed.
Lemma circ_inner d y : 0 < d -> 0 < y < d -> -1 < 1 - y / (d / 2) < 1.
Proof.
  intros Hd Hy. assert (E : y / (d / 2) = 2 * (y / d)) by (field; lra). rewrite E.
  assert (0 < y / d < 1); [|lra]. split.
  - apply Rmult_lt_0_compat; [lra|apply Rinv_0_lt_compat; lra].
  - apply Rmult_lt_reg_r with d; [lra|]. unfold Rdiv. rewrite Rmult_assoc, Rinv_l by lra. lra.
Qed.
Lemma circ_sin d y : 0 < d -> 0 < y < d ->
  2 * (d / 2) * sin (acos (1 - y / (d / 2))) = 2 * sqrt (y * (d - y)).
Proof.
  intros Hd Hy. pose proof (circ_inner d y Hd Hy) as I.
  rewrite sin_acos by lra. rewrite <- (circ_x2 d y Hd Hy).
  rewrite sqrt_mult_alt by apply pow2_ge_0.
  rewrite sqrt_pow2 by lra. ring.
Qed.
Lemma circ_lim d y : 0 < d -> 0 < y < d -> derivable_pt_lim (circ d) y (2 * sqrt (y * (d - y))).
Proof.
  intros Hd Hy. pose proof (circ_inner d y Hd Hy) as I.
  rewrite <- (circ_sin d y Hd Hy).
  set (x := 1 - y / (d / 2)) in *.
  assert (Dx : derivable_pt_lim (fun y => 1 - y / (d / 2)) y (- / (d / 2))).
  { replace (- / (d / 2)) with (0 - (1 * / (d / 2) + y * 0)) by ring.
    apply derivable_pt_lim_minus; [apply derivable_pt_lim_const|].
    apply (derivable_pt_lim_mult (fun y => y) (fun _ => / (d / 2)));
      [apply derivable_pt_lim_id|apply derivable_pt_lim_const]. }
  assert (P : 0 < 1 - x²) by (unfold Rsqr; nra).
  assert (Sp : 0 < sqrt (1 - x²)) by (apply sqrt_lt_R0; auto).
  pose proof (derivable_pt_lim_comp _ _ _ _ _ Dx (acos_lim x I)) as D1.
  pose proof (derivable_pt_lim_comp _ _ _ _ _ D1 (seg_lim _)) as D2.
  apply (derivable_pt_lim_scal _ ((d / 2) ^ 2)) in D2.
  unfold mult_real_fct, comp in D2. fold x in D2.
  assert (E : 2 * (d / 2) * sin (acos x) = (d / 2) ^ 2 * (2 * sin (acos x) ^ 2 * (-1 / sqrt (1 - x²) * - / (d / 2)))).
  { rewrite sin_acos by lra. field. split; lra. }
  rewrite E. exact D2.
Qed.

(** ** Ellipse *)
Definition eseg (t : R) : R := PI / 2 + t + cos t * sin t.
Lemma eseg_lim t : derivable_pt_lim eseg t (2 * cos t ^ 2).
Proof.
  unfold eseg. replace (2 * cos t ^ 2) with (0 + 1 + (- sin t * sin t + cos t * cos t)).
  2:{ pose proof (sin2_cos2 t) as E; unfold Rsqr in E; simpl; lra. }
  apply derivable_pt_lim_plus.
  - apply derivable_pt_lim_plus; [apply derivable_pt_lim_const|apply derivable_pt_lim_id].
  - apply derivable_pt_lim_mult; [apply derivable_pt_lim_cos|apply derivable_pt_lim_sin].
Qed.
Lemma eseg_incr x y : x <= y -> eseg x <= eseg y.
Proof.
  apply (nonneg_lim_increasing eseg (fun t => 2 * cos t ^ 2) eseg_lim).
  intros t; pose proof (pow2_ge_0 (cos t)); lra.
Qed.
Definition elli (d w y : R) : R := w / 2 * (d / 2) * eseg (asin ((y - d / 2) / (d / 2))).
Lemma elli_arg d y : 0 < d -> 0 <= y <= d -> -1 <= (y - d / 2) / (d / 2) <= 1.
Proof.
  intros Hd Hy. pose proof (circ_arg d y Hd Hy).
  assert (E : (y - d / 2) / (d / 2) = y / (d / 2) - 1) by (field; lra). rewrite E. lra.
Qed.
Lemma elli_mono d w y y' : 0 < d -> 0 < w -> 0 <= y -> y <= y' -> y' <= d -> elli d w y <= elli d w y'.
Proof.
  intros Hd Hw H0 H1 H2. unfold elli. apply Rmult_le_compat_l; [nra|].
  apply eseg_incr. pose proof (elli_arg d y Hd ltac:(lra)). pose proof (elli_arg d y' Hd ltac:(lra)).
  apply asin_incr; try lra.
  apply Rmult_le_compat_r; [|lra]. apply Rlt_le, Rinv_0_lt_compat; lra.
Qed.
Lemma elli_0 d w : 0 < d -> elli d w 0 = 0.
Proof.
  intros. unfold elli. replace ((0 - d / 2) / (d / 2)) with (-1) by (field; lra). rewrite asin_m1.
  unfold eseg. rewrite cos_neg, cos_PI2. ring.
Qed.
Lemma elli_full d w : 0 < d -> elli d w d = PI * (d / 2) * (w / 2).
Proof.
  intros. unfold elli. replace ((d - d / 2) / (d / 2)) with 1 by (field; lra). rewrite asin_1.
  unfold eseg. rewrite cos_PI2. field.
Qed.
Lemma elli_inner d y : 0 < d -> 0 < y < d -> -1 < (y - d / 2) / (d / 2) < 1.
Proof.
  intros Hd Hy. pose proof (circ_inner d y Hd Hy).
  assert (E : (y - d / 2) / (d / 2) = y / (d / 2) - 1) by (field; lra). rewrite E. lra.
Qed.
Lemma elli_lim d w y : 0 < d -> 0 < y < d ->
  derivable_pt_lim (elli d w) y (w * sqrt (1 - ((y - d / 2) / (d / 2)) ^ 2)).
Proof.
  intros Hd Hy. pose proof (elli_inner d y Hd Hy) as I.
  set (x := (y - d / 2) / (d / 2)) in *.
  assert (Dx : derivable_pt_lim (fun y => (y - d / 2) / (d / 2)) y (/ (d / 2))).
  { assert (E0 : / (d / 2) = (1 - 0) * / (d / 2) + (y - d / 2) * 0) by ring.
    enough (D : derivable_pt_lim (fun y => (y - d / 2) / (d / 2)) y ((1 - 0) * / (d / 2) + (y - d / 2) * 0))
      by (rewrite <- E0 in D; exact D).
    apply (derivable_pt_lim_mult (fun y => y - d / 2) (fun _ => / (d / 2)));
      [|apply derivable_pt_lim_const].
    apply derivable_pt_lim_minus; [apply derivable_pt_lim_id|apply derivable_pt_lim_const]. }
  assert (P : 0 < 1 - x²) by (unfold Rsqr; nra).
  assert (Sp : 0 < sqrt (1 - x²)) by (apply sqrt_lt_R0; auto).
  pose proof (derivable_pt_lim_comp _ _ _ _ _ Dx (asin_lim x I)) as D1.
  pose proof (derivable_pt_lim_comp _ _ _ _ _ D1 (eseg_lim _)) as D2.
  apply (derivable_pt_lim_scal _ (w / 2 * (d / 2))) in D2.
  unfold mult_real_fct, comp in D2. fold x in D2.
  assert (E : w * sqrt (1 - x ^ 2) = w / 2 * (d / 2) * (2 * cos (asin x) ^ 2 * (1 / sqrt (1 - x²) * / (d / 2)))).
  { rewrite cos_asin by lra. replace (x ^ 2) with (x²) by (unfold Rsqr; ring).
    field. split; lra. }
  rewrite E. exact D2.
Qed.

(** ** Floodplain: area with ramps. *)
Definition ramp (x : R) : R := Rmax x 0.
Lemma ramp2_lim a x : derivable_pt_lim (fun x => ramp (x - a) ^ 2) x (2 * ramp (x - a)).
Proof.
  intros e He. exists (mkposreal e He); simpl. intros h Hh Hs.
  assert (K : Rabs (ramp (x + h - a) ^ 2 - ramp (x - a) ^ 2 - 2 * ramp (x - a) * h) <= Rabs h * Rabs h).
  { unfold ramp. rewrite <- Rabs_mult. rewrite (Rabs_right (h * h)) by nra.
    unfold Rmax. repeat destruct Rle_dec; apply Rabs_le; split; nra. }
  replace (((ramp (x + h - a) * (ramp (x + h - a) * 1) - ramp (x - a) * (ramp (x - a) * 1)) / h - 2 * ramp (x - a)))
    with ((ramp (x + h - a) ^ 2 - ramp (x - a) ^ 2 - 2 * ramp (x - a) * h) / h) by (simpl; field; auto).
  unfold Rdiv. rewrite Rabs_mult, Rabs_inv.
  assert (0 < Rabs h) by (apply Rabs_pos_lt; auto).
  apply Rmult_lt_reg_r with (Rabs h); auto. rewrite Rmult_assoc, Rinv_l by lra. nra.
Qed.
Definition flood (s : section) (y : R) : R :=
  g5 s * y ^ 2 + (g6 s - g5 s) * ramp (y - g2 s) ^ 2 + (g4 s - g6 s) * ramp (y - (g2 s + g3 s)) ^ 2 + g7 s * y.
Lemma flood_eq s y : 0 <= g3 s -> 0 <= y ->
  (let '(y_base, y_middle, y_top, b_middle, b_top) :=
    if Rltb y (g2 s) then (y, 0, 0, 0, 0)
    else if (Rleb (g2 s) y && Rltb y (g2 s + g3 s))%bool then (g2 s, y - g2 s, 0, 2 * g5 s * g2 s, 0)
    else (g2 s, g2 s + g3 s - g2 s, y - (g2 s + g3 s), 2 * g5 s * g2 s,
          2 * g5 s * g2 s + 2 * g6 s * (g2 s + g3 s - g2 s)) in
  y_base * (g5 s * y_base) + y_middle * (b_middle + g6 s * y_middle) + y_top * (b_top + g4 s * y_top)
   + g7 s * y * num (Rltb 0 y)) = flood s y.
Proof.
  intros H3 Hy. assert (N : g7 s * y * num (Rltb 0 y) = g7 s * y).
  { unfold num; dR; [ring|]. replace y with 0 by lra. ring. }
  unfold flood, ramp. destruct (Rltb_spec y (g2 s)); [|destruct (Rleb_spec (g2 s) y); [|lra];
   destruct (Rltb_spec y (g2 s + g3 s))]; cbn [andb]; rewrite N.
  - rewrite !Rmax_right by lra. ring.
  - rewrite Rmax_left by lra. rewrite Rmax_right by lra. ring.
  - rewrite !Rmax_left by lra. ring.
Qed.
Lemma flood_lim s y : 0 <= g3 s -> 0 < y -> derivable_pt_lim (flood s) y
  (g7 s + 2 * g5 s * Rmin y (g2 s) + 2 * g6 s * Rmin (Rmax (y - g2 s) 0) (g3 s) + 2 * g4 s * Rmax (y - (g2 s + g3 s)) 0).
Proof.
  intros H3 Hy.
  assert (E : g7 s + 2 * g5 s * Rmin y (g2 s) + 2 * g6 s * Rmin (Rmax (y - g2 s) 0) (g3 s) + 2 * g4 s * Rmax (y - (g2 s + g3 s)) 0
     = g5 s * (2 * y) + (g6 s - g5 s) * (2 * ramp (y - g2 s)) + (g4 s - g6 s) * (2 * ramp (y - (g2 s + g3 s))) + g7 s * 1).
  { unfold ramp, Rmin, Rmax. repeat destruct Rle_dec; try lra; try ring. all: nra. }
  rewrite E. unfold flood.
  apply (derivable_pt_lim_plus (fun y => g5 s * y ^ 2 + (g6 s - g5 s) * ramp (y - g2 s) ^ 2 + (g4 s - g6 s) * ramp (y - (g2 s + g3 s)) ^ 2) (fun y => g7 s * y)).
  2:{ apply (derivable_pt_lim_scal (fun y => y)). apply derivable_pt_lim_id. }
  apply (derivable_pt_lim_plus (fun y => g5 s * y ^ 2 + (g6 s - g5 s) * ramp (y - g2 s) ^ 2) (fun y => (g4 s - g6 s) * ramp (y - (g2 s + g3 s)) ^ 2)).
  2:{ apply (derivable_pt_lim_scal (fun y => ramp (y - (g2 s + g3 s)) ^ 2)). apply ramp2_lim. }
  apply (derivable_pt_lim_plus (fun y => g5 s * y ^ 2) (fun y => (g6 s - g5 s) * ramp (y - g2 s) ^ 2)).
  2:{ apply (derivable_pt_lim_scal (fun y => ramp (y - g2 s) ^ 2)). apply ramp2_lim. }
  apply (derivable_pt_lim_scal (fun y => y ^ 2)).
  replace (2 * y) with (INR 2 * y ^ pred 2) by (simpl; ring). apply derivable_pt_lim_pow.
Qed.
Lemma flood_mono s y y' : 0 <= g3 s -> 0 <= g2 s -> 0 <= g4 s -> 0 <= g5 s -> 0 <= g6 s -> 0 <= g7 s ->
  0 <= y -> y <= y' -> flood s y <= flood s y'.
Proof.
  intros H3 H2 H4 H5 H6 H7 Hy Hyy. unfold flood, ramp.
  set (a := g2 s) in *. set (b := a + g3 s).
  assert (a <= b) by (unfold b; lra).
  assert (E : forall t, 0 <= t -> g5 s * t ^ 2 + (g6 s - g5 s) * Rmax (t - a) 0 ^ 2 + (g4 s - g6 s) * Rmax (t - b) 0 ^ 2
     = g5 s * (t ^ 2 - Rmax (t - a) 0 ^ 2) + g6 s * (Rmax (t - a) 0 ^ 2 - Rmax (t - b) 0 ^ 2) + g4 s * Rmax (t - b) 0 ^ 2) by (intros; ring).
  rewrite (E y), (E y') by lra.
  assert (g5 s * (y ^ 2 - Rmax (y - a) 0 ^ 2) <= g5 s * (y' ^ 2 - Rmax (y' - a) 0 ^ 2)).
  { apply Rmult_le_compat_l; auto. unfold Rmax; repeat destruct Rle_dec; nra. }
  assert (g6 s * (Rmax (y - a) 0 ^ 2 - Rmax (y - b) 0 ^ 2) <= g6 s * (Rmax (y' - a) 0 ^ 2 - Rmax (y' - b) 0 ^ 2)).
  { apply Rmult_le_compat_l; auto. unfold Rmax; repeat destruct Rle_dec; nra. }
  assert (g4 s * Rmax (y - b) 0 ^ 2 <= g4 s * Rmax (y' - b) 0 ^ 2).
  { apply Rmult_le_compat_l; auto. unfold Rmax; repeat destruct Rle_dec; nra. }
  assert (g7 s * y <= g7 s * y') by (apply Rmult_le_compat_l; auto).
  lra.
Qed.
