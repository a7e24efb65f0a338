(** C84: the reported wetted perimeter is the length of the wetted boundary, as a curve in the plane. *)
From Coq Require Import Reals Lra Lia List.
From Verif Require Import Prelude M_Coeffs M_Geometry S_Geometry L_Geometry P_Geometry.
From Verif Require Import M_Perimeter.
Import ListNotations.
Local Open Scope R_scope.

(** ** Specification *)

(** L is the length of the plane curve (x(t), z(t)), t0 <= t <= t1: its speed has an antiderivative that grows by L. *)
Definition curve_length (x z : R -> R) (t0 t1 L : R) : Prop :=
  exists x' z' F : R -> R,
    (forall t, t0 <= t <= t1 -> derivable_pt_lim x t (x' t) /\ derivable_pt_lim z t (z' t) /\
                                derivable_pt_lim F t (sqrt (x' t ^ 2 + z' t ^ 2))) /\
    L = F t1 - F t0.
(** P is the length of the boundary of the section below height y: bottom width and two sides of length L, each traced upwards from
    the bottom to the water surface, half a chord away from the axis. *)
Definition wetted_boundary (s : section) (y P : R) : Prop :=
  exists x z t0 t1 L, t0 <= t1 /\ z t0 = 0 /\ z t1 = y /\
    (forall t u, t0 <= t -> t <= u -> u <= t1 -> z t <= z u) /\
    (forall t, t0 <= t <= t1 -> 2 * x t = chord s (z t)) /\
    curve_length x z t0 t1 L /\ P = chord s 0 + 2 * L.

(** ** Calculus *)

Lemma growth G G' t0 t1 : t0 <= t1 -> (forall t, t0 <= t <= t1 -> derivable_pt_lim G t (G' t) /\ 0 <= G' t) -> G t0 <= G t1.
Proof.
  intros [H|<-] D; [|lra].
  destruct (MVT_cor2 G G' t0 t1 H) as (c & E & Hc); [intros c Hc; apply D; lra|].
  assert (0 <= G' c) by (apply D; lra). assert (0 <= G' c * (t1 - t0)) by (apply Rmult_le_pos; lra). lra.
Qed.
Lemma monotone_derivative f t0 t1 t l : t0 < t1 -> t0 <= t <= t1 -> (forall u v, t0 <= u -> u <= v -> v <= t1 -> f u <= f v) ->
  derivable_pt_lim f t l -> 0 <= l.
Proof.
  intros H Ht M D. destruct (Rle_or_lt 0 l) as [|N]; [assumption|exfalso].
  destruct (D (- l / 2)) as [d Hd]; [lra|].
  assert (Pd := cond_pos d).
  destruct (Rle_or_lt t ((t0 + t1) / 2)) as [C|C].
  - set (e := Rmin (d / 2) ((t1 - t0) / 2)).
    assert (E1 := Rmin_l (d / 2) ((t1 - t0) / 2)). assert (E2 := Rmin_r (d / 2) ((t1 - t0) / 2)). fold e in E1, E2.
    assert (E0 : 0 < e) by (apply Rmin_glb_lt; lra).
    specialize (Hd e ltac:(lra)). rewrite Rabs_right in Hd by lra. specialize (Hd ltac:(lra)).
    assert (f t <= f (t + e)) by (apply M; lra).
    assert (0 <= (f (t + e) - f t) / e) by (apply Rle_mult_inv_pos; lra).
    apply Rabs_def2 in Hd. lra.
  - set (e := Rmin (d / 2) ((t1 - t0) / 2)).
    assert (E1 := Rmin_l (d / 2) ((t1 - t0) / 2)). assert (E2 := Rmin_r (d / 2) ((t1 - t0) / 2)). fold e in E1, E2.
    assert (E0 : 0 < e) by (apply Rmin_glb_lt; lra).
    specialize (Hd (- e) ltac:(lra)). rewrite Rabs_left in Hd by lra. specialize (Hd ltac:(lra)).
    assert (f (t + - e) <= f t) by (apply M; lra).
    assert (0 <= (f (t + - e) - f t) / - e).
    { replace ((f (t + - e) - f t) / - e) with ((f t - f (t + - e)) / e) by (field; lra). apply Rle_mult_inv_pos; lra. }
    apply Rabs_def2 in Hd. lra.
Qed.
Lemma hypot_le a b : 0 <= a -> 0 <= b -> sqrt (a ^ 2 + b ^ 2) <= a + b.
Proof.
  intros A B. rewrite <- (sqrt_pow2 (a + b)) by lra. apply sqrt_le_1_alt.
  assert (0 <= a * b) by (apply Rmult_le_pos; assumption). lra.
Qed.
(** A boundary that opens upwards is no longer than its horizontal and vertical extent. *)
Lemma boundary_bound s y P : (forall u v, 0 <= u -> u <= v -> v <= y -> chord s u <= chord s v) ->
  wetted_boundary s y P -> P <= chord s y + 2 * y.
Proof.
  intros O (x & z & t0 & t1 & L & H & Z0 & Z1 & M & X & (x' & z' & F & D & ->) & ->).
  destruct H as [H|<-].
  2:{ rewrite Z0 in Z1. subst y. lra. }
  assert (Xm : forall u v, t0 <= u -> u <= v -> v <= t1 -> x u <= x v).
  { intros u v Hu Huv Hv. assert (Eu := X u ltac:(lra)). assert (Ev := X v ltac:(lra)).
    assert (chord s (z u) <= chord s (z v)).
    { apply O. - rewrite <- Z0. apply M; lra. - apply M; lra. - rewrite <- Z1. apply M; lra. }
    lra. }
  assert (G : (fun t => x t + z t - F t) t0 <= (fun t => x t + z t - F t) t1).
  { apply (growth (fun t => x t + z t - F t) (fun t => x' t + z' t - sqrt (x' t ^ 2 + z' t ^ 2))); [lra|]. intros t Ht.
    destruct (D t Ht) as (D1 & D2 & D3). split.
    - apply (derivable_pt_lim_minus (fun t => x t + z t) F); [apply (derivable_pt_lim_plus x z)|]; assumption.
    - assert (A1 := monotone_derivative x t0 t1 t (x' t) H Ht Xm D1).
      assert (A2 := monotone_derivative z t0 t1 t (z' t) H Ht M D2).
      assert (A3 := hypot_le _ _ A1 A2). lra. }
  cbv beta in G. rewrite Z0, Z1 in G.
  assert (E0 := X t0 ltac:(lra)). assert (E1 := X t1 ltac:(lra)). rewrite Z0 in E0. rewrite Z1 in E1. lra.
Qed.

Lemma lin_derivative (c d : R) t : derivable_pt_lim (fun t => c + d * t) t d.
Proof.
  assert (H : derivable_pt_lim (fun t => c + d * t) t (0 + d * 1)).
  { apply (derivable_pt_lim_plus (fun _ => c) (fun t => d * t)).
    - apply derivable_pt_lim_const.
    - apply (derivable_pt_lim_scal id). apply derivable_pt_lim_id. }
  replace (0 + d * 1) with d in H by ring. exact H.
Qed.

(** Straight sides: chord w + 2 m z. *)
Lemma straight s w m y : 0 <= y -> 0 <= m -> (forall z, 0 <= z -> chord s z = w + 2 * m * z) ->
  wetted_boundary s y (w + 2 * side m y).
Proof.
  intros Y Hm C.
  exists (fun t => w / 2 + m * t), (fun t => 0 + 1 * t), 0, y, (side m y).
  split; [exact Y|]. split; [lra|]. split; [lra|]. split; [intros; lra|]. split.
  { intros t Ht. rewrite C by lra. field. }
  split.
  2:{ rewrite C by lra. lra. }
  exists (fun _ => m), (fun _ => 1), (fun t => 0 + sqrt (m ^ 2 + 1 ^ 2) * t). split.
  { intros t Ht. repeat split; apply lin_derivative. }
  unfold side. replace (y ^ 2 + (m * y) ^ 2) with (y ^ 2 * (m ^ 2 + 1 ^ 2)) by ring.
  rewrite sqrt_mult by (apply pow2_ge_0 || (assert (0 <= m ^ 2) by apply pow2_ge_0; lra)).
  rewrite sqrt_pow2 by exact Y. lra.
Qed.

(** ** Circles, rectangles, triangles and trapezia *)

Lemma circle_boundary s y angle : shape s = 1%nat -> 0 < g1 s -> 0 <= angle <= PI -> cos angle = (g1 s / 2 - y) / (g1 s / 2) ->
  wetted_boundary s y (2 * (g1 s / 2 * angle)).
Proof.
  intros Sh G Ha Hc. set (r := g1 s / 2) in *. assert (Hr : 0 < r) by (unfold r; lra).
  assert (Ch : forall z, chord s z = 2 * sqrt (z * (2 * r - z))).
  { intros z. unfold chord. rewrite Sh. do 3 f_equal. unfold r; field. }
  exists (fun t => r * sin t), (fun t => r * (1 - cos t)), 0, angle, (r * angle).
  split; [lra|]. split; [rewrite cos_0; ring|]. split; [rewrite Hc; field; lra|]. split.
  { intros t u H0 H1 H2. apply Rmult_le_compat_l; [lra|].
    destruct (Req_dec t u) as [->|N]; [lra|]. assert (cos u < cos t) by (apply cos_decreasing_1; lra). lra. }
  split.
  { intros t Ht. rewrite Ch. replace (r * (1 - cos t) * (2 * r - r * (1 - cos t))) with ((r * sin t) ^ 2).
    - rewrite sqrt_pow2; [ring|]. apply Rmult_le_pos; [lra|]. apply sin_ge_0; lra.
    - assert (E := sin2_cos2 t). unfold Rsqr in E.
      replace ((r * sin t) ^ 2) with (r * r * (sin t * sin t)) by ring. replace (sin t * sin t) with (1 - cos t * cos t) by lra. ring. }
  split.
  2:{ rewrite Ch, Rmult_0_l, sqrt_0. ring. }
  exists (fun t => r * cos t), (fun t => r * (0 - (- sin t))), (fun t => 0 + r * t). split; [|ring].
  intros t Ht. repeat split.
  - apply (derivable_pt_lim_scal sin). apply derivable_pt_lim_sin.
  - apply (derivable_pt_lim_scal (fun t => 1 - cos t)). apply (derivable_pt_lim_minus (fun _ => 1) cos).
    + apply derivable_pt_lim_const.
    + apply derivable_pt_lim_cos.
  - replace (sqrt ((r * cos t) ^ 2 + (r * (0 - - sin t)) ^ 2)) with r; [apply lin_derivative|].
    replace ((r * cos t) ^ 2 + (r * (0 - - sin t)) ^ 2) with (r ^ 2 * (Rsqr (sin t) + Rsqr (cos t))) by (unfold Rsqr; ring).
    rewrite sin2_cos2, Rmult_1_r, sqrt_pow2; lra.
Qed.

(** Circular, closed and open rectangular, triangular and trapezoidal links: the reported perimeter is the length of the boundary
    below the water surface. *)
Theorem C84_perimeter_is_boundary_length : forall s h0 h1 old gm, dims_ok s -> 0 <= gm_Pe old ->
  In (shape s) [1; 2; 3; 4; 5]%nat -> hydraulic_geometry s h0 h1 old = Some gm ->
  wetted_boundary s (depth_in s h0 h1) (gm_Pe gm).
Proof.
  intros s h0 h1 old gm Dm Ho Hs E.
  destruct (C08_perimeter_and_radius s h0 h1 old Dm Ho) as (gm' & E' & _ & _ & W & _).
  rewrite E in E'. injection E' as <-.
  pose proof (depth_in_range s h0 h1 (dims_g1 s Dm)) as Y.
  assert (G := dims_g1 s Dm).
  unfold wetted_perimeter in W. unfold dims_ok in Dm.
  destruct Hs as [S|[S|[S|[S|[S|[]]]]]]; rewrite <- S in *.
  - destruct W as (angle & Ha & Hc & ->). apply circle_boundary; auto.
  - rewrite W. replace (g2 s + 2 * depth_in s h0 h1) with (g2 s + 2 * side 0 (depth_in s h0 h1)).
    + apply straight; try lra. intros z Hz. unfold chord. rewrite <- S. ring.
    + unfold side. rewrite Rmult_0_l, pow_i, Rplus_0_r, sqrt_pow2 by (lia || lra). reflexivity.
  - rewrite W. replace (g2 s + 2 * depth_in s h0 h1) with (g2 s + 2 * side 0 (depth_in s h0 h1)).
    + apply straight; try lra. intros z Hz. unfold chord. rewrite <- S. ring.
    + unfold side. rewrite Rmult_0_l, pow_i, Rplus_0_r, sqrt_pow2 by (lia || lra). reflexivity.
  - rewrite W, <- (Rplus_0_l (2 * side _ _)). apply straight; try lra. intros z Hz. unfold chord. rewrite <- S. ring.
  - rewrite W. apply straight; try lra. intros z Hz. unfold chord. rewrite <- S. ring.
Qed.

(** ** Ellipses *)

(** What the elliptic integral is: the antiderivative of sqrt(1 - m sin^2) that vanishes at 0, here up to a right angle. *)
Definition elliptic_integral (E : R -> R -> R) : Prop :=
  forall m, m < 1 -> E 0 m = 0 /\ forall phi, - (PI / 2) <= phi <= PI / 2 -> derivable_pt_lim (fun p => E p m) phi (sqrt (1 - m * sin phi ^ 2)).

Lemma elliptic_odd E m phi : elliptic_integral E -> m < 1 -> 0 < phi <= PI / 2 -> E (- phi) m = - E phi m.
Proof.
  intros I Hm Hp. destruct (I m Hm) as [E0 D].
  set (g := fun p => E p m + E (- p) m).
  assert (Dg : forall p, 0 <= p <= phi -> derivable_pt_lim g p 0).
  { intros p Hq. unfold g. replace 0 with (sqrt (1 - m * sin p ^ 2) + sqrt (1 - m * sin (- p) ^ 2) * -1).
    - apply (derivable_pt_lim_plus (fun p => E p m) (fun p => E (- p) m)); [apply D; lra|].
      apply (derivable_pt_lim_comp (fun p => - p) (fun p => E p m)); [|apply D; lra].
      replace (-1) with (- (1)) by ring. apply (derivable_pt_lim_opp id). apply derivable_pt_lim_id.
    - rewrite sin_neg. replace ((- sin p) ^ 2) with (sin p ^ 2) by ring. ring. }
  assert (C : g phi = g 0).
  { destruct (MVT_cor2 g (fun _ => 0) 0 phi) as (c & Ec & _); [lra|intros; apply Dg; lra|]. lra. }
  unfold g in C. rewrite Ropp_0, E0 in C. lra.
Qed.

(** Elliptical links: with a true elliptic integral the reported perimeter is the length of the boundary below the water surface. *)
Theorem C84_ellipse_perimeter_is_boundary_length : forall E s h0 h1, elliptic_integral E -> shape s = 7%nat -> dims_ok s ->
  wetted_boundary s (depth_in s h0 h1) (Elliptical_Pe_ik E h0 h1 (g1 s) (g2 s)).
Proof.
  intros E s h0 h1 I Sh Dm.
  pose proof (depth_in_range s h0 h1 (dims_g1 s Dm)) as Y.
  unfold dims_ok in Dm. rewrite Sh in Dm. destruct Dm as [G1 G2].
  unfold Elliptical_Pe_ik. rewrite clip_depth.
  set (y := depth_in s h0 h1) in *. set (b := g1 s / 2). set (a := g2 s / 2).
  assert (Hb : 0 < b) by (unfold b; lra). assert (Ha : 0 < a) by (unfold a; lra).
  set (m := 1 - a ^ 2 / b ^ 2).
  assert (Pm : 0 < a ^ 2 / b ^ 2) by (apply Rdiv_lt_0_compat; apply pow_lt; assumption).
  assert (Hm : m < 1) by (unfold m; lra).
  assert (Q : -1 <= (y - b) / b <= 1).
  { split.
    - apply Rmult_le_reg_r with b; [exact Hb|]. unfold Rdiv. rewrite Rmult_assoc, Rinv_l by lra. lra.
    - apply Rmult_le_reg_r with b; [exact Hb|]. unfold Rdiv. rewrite Rmult_assoc, Rinv_l by lra. unfold b in *. lra. }
  set (theta := asin ((y - b) / b)).
  assert (Bt := asin_bound ((y - b) / b)). fold theta in Bt.
  assert (St : sin theta = (y - b) / b) by (apply sin_asin; exact Q).
  assert (Ch : forall z, chord s z = 2 * a * sqrt (1 - ((z - b) / b) ^ 2)).
  { intros z. unfold chord. rewrite Sh. unfold a. fold b. replace (2 * (g2 s / 2)) with (g2 s) by field. reflexivity. }
  exists (fun t => a * cos t), (fun t => b + b * sin t), (- (PI / 2)), theta, (b * E theta m - b * E (- (PI / 2)) m).
  split; [lra|]. split; [rewrite sin_neg, sin_PI2; ring|]. split; [rewrite St; field; lra|]. split.
  { intros t u H0 H1 H2. destruct (Req_dec t u) as [->|N]; [lra|].
    assert (sin t < sin u) by (apply sin_increasing_1; lra).
    assert (b * sin t <= b * sin u) by (apply Rmult_le_compat_l; lra). lra. }
  split.
  { intros t Ht. rewrite Ch. replace (1 - ((b + b * sin t - b) / b) ^ 2) with (cos t ^ 2).
    - rewrite sqrt_pow2; [ring|]. apply cos_ge_0; lra.
    - replace ((b + b * sin t - b) / b) with (sin t) by (field; lra). assert (T := sin2_cos2 t). unfold Rsqr in T. lra. }
  split.
  - exists (fun t => a * - sin t), (fun t => 0 + b * cos t), (fun t => b * E t m). split; [|reflexivity].
    intros t Ht. destruct (I m Hm) as [_ D]. repeat split.
    + apply (derivable_pt_lim_scal cos). apply derivable_pt_lim_cos.
    + apply (derivable_pt_lim_plus (fun _ => b) (fun t => b * sin t)); [apply derivable_pt_lim_const|].
      apply (derivable_pt_lim_scal sin). apply derivable_pt_lim_sin.
    + replace (sqrt ((a * - sin t) ^ 2 + (0 + b * cos t) ^ 2)) with (b * sqrt (1 - m * sin t ^ 2)).
      * apply (derivable_pt_lim_scal (fun t => E t m)). apply D. lra.
      * assert (T := sin2_cos2 t). unfold Rsqr in T.
        replace ((a * - sin t) ^ 2 + (0 + b * cos t) ^ 2) with (b ^ 2 * (1 - m * sin t ^ 2)).
        -- rewrite sqrt_mult_alt by apply pow2_ge_0. rewrite sqrt_pow2 by lra. reflexivity.
        -- unfold m. replace ((0 + b * cos t) ^ 2) with (b ^ 2 * (1 - sin t * sin t)).
           ++ field. lra.
           ++ replace (1 - sin t * sin t) with (cos t * cos t) by lra. ring.
  - unfold ellipe. rewrite (elliptic_odd E m (PI / 2) I Hm) by (assert (T := PI_RGT_0); lra). rewrite Ch.
    replace (1 - ((0 - b) / b) ^ 2) with 0 by (field; lra). rewrite sqrt_0. ring.
Qed.

(** ** Parabolas *)

Definition parabola (height width : R) : section :=
  {| shape := 6%nat; g1 := height; g2 := width; g3 := 0; g4 := 0; g5 := 0; g6 := 0; g7 := 0 |}.

Lemma parabola_length s : shape s = 6%nat -> 0 < g1 s -> 0 < g2 s ->
  let x := 4 * g1 s / g2 s in
  wetted_boundary s (g1 s) (g2 s / 2 * (sqrt (1 + x ^ 2) + 1 / x * ln (x + sqrt (1 + x ^ 2)))).
Proof.
  intros Sh G1 G2 x. set (k := 4 * g1 s / g2 s ^ 2).
  assert (Hk : 0 < k) by (apply Rdiv_lt_0_compat; [lra|apply pow_lt; lra]).
  assert (Hx : 0 < x) by (apply Rdiv_lt_0_compat; lra).
  assert (Ch : forall t, 0 <= t -> chord s (k * t ^ 2) = 2 * t).
  { intros t Ht. unfold chord. rewrite Sh. replace (k * t ^ 2 / g1 s) with ((2 * t / g2 s) ^ 2) by (unfold k; field; lra).
    rewrite sqrt_pow2; [field; lra|]. apply Rmult_le_pos; [lra|]. apply Rlt_le, Rinv_0_lt_compat; exact G2. }
  set (F := fun t => / (4 * k) * ((2 * k * t) * sqrt (1 + (2 * k * t) ^ 2) + arcsinh (2 * k * t))).
  exists (fun t => t), (fun t => k * t ^ 2), 0, (g2 s / 2), (F (g2 s / 2) - F 0).
  split; [lra|]. split; [ring|]. split; [unfold k; field; lra|]. split.
  { intros t u H0 H1 H2. apply Rmult_le_compat_l; [lra|]. apply pow_incr; lra. }
  split; [intros t Ht; rewrite Ch; lra|]. split.
  - exists (fun _ => 1), (fun t => k * (2 * t)), F. split; [|reflexivity]. intros t Ht. repeat split.
    + apply derivable_pt_lim_id.
    + apply (derivable_pt_lim_scal (fun t => t ^ 2)).
      replace (2 * t) with (INR 2 * t ^ 1) by (cbn; ring). apply derivable_pt_lim_pow.
    + unfold F.
      set (g := fun u => u * sqrt (1 + u ^ 2) + arcsinh u).
      assert (Dg : forall u, derivable_pt_lim g u (2 * sqrt (1 + u ^ 2))).
      { intros u. set (w := sqrt (1 + u ^ 2)).
        assert (Pu : 0 < 1 + u ^ 2) by (assert (0 <= u ^ 2) by apply pow2_ge_0; lra).
        assert (Hw : 0 < w) by (apply sqrt_lt_R0; exact Pu).
        assert (Ww : w * w = 1 + u ^ 2) by (apply sqrt_sqrt; lra).
        replace (2 * w) with ((1 * w + u * (/ (2 * w) * (0 + INR 2 * u ^ 1))) + / w).
        2:{ cbn [INR pow]. field_simplify_eq; [|lra]. replace (u ^ 2) with (w * w - 1) by lra. ring. }
        unfold g. apply (derivable_pt_lim_plus (fun u => u * sqrt (1 + u ^ 2)) arcsinh).
        - apply (derivable_pt_lim_mult (fun u => u) (fun u => sqrt (1 + u ^ 2))).
          + apply derivable_pt_lim_id.
          + apply (derivable_pt_lim_comp (fun u => 1 + u ^ 2) sqrt).
            * apply (derivable_pt_lim_plus (fun _ => 1) (fun u => u ^ 2)); [apply derivable_pt_lim_const|apply derivable_pt_lim_pow].
            * apply derivable_pt_lim_sqrt. exact Pu.
        - replace w with (sqrt (u ^ 2 + 1)) by (unfold w; f_equal; ring). apply derivable_pt_lim_arcsinh. }
      replace (sqrt (1 ^ 2 + (k * (2 * t)) ^ 2)) with (/ (4 * k) * (2 * sqrt (1 + (0 + 2 * k * t) ^ 2) * (2 * k))).
      2:{ replace (1 ^ 2 + (k * (2 * t)) ^ 2) with (1 + (0 + 2 * k * t) ^ 2) by ring. field. lra. }
      apply (derivable_pt_lim_scal (fun t => g (2 * k * t))).
      apply (derivable_pt_lim_comp (fun t => 2 * k * t) g).
      * assert (L := lin_derivative 0 (2 * k) t).
        intros e He. destruct (L e He) as [d Hd]. exists d. intros h Hh Ah. specialize (Hd h Hh Ah).
        replace (2 * k * (t + h) - 2 * k * t) with (0 + 2 * k * (t + h) - (0 + 2 * k * t)) by ring. exact Hd.
      * replace (0 + 2 * k * t) with (2 * k * t) by ring. apply Dg.
  - assert (C0 : chord s 0 = 0).
    { replace 0 with (k * 0 ^ 2) at 1 by ring. rewrite Ch; lra. }
    rewrite C0. unfold F. rewrite Rmult_0_r, arcsinh_0.
    replace (2 * k * (g2 s / 2)) with x by (unfold x, k; field; lra).
    unfold arcsinh. replace (x ^ 2 + 1) with (1 + x ^ 2) by ring.
    replace (1 / x) with (g2 s / (4 * g1 s)) by (unfold x; field; lra).
    replace (/ (4 * k)) with (g2 s ^ 2 / (16 * g1 s)) by (unfold k; field; lra).
    replace (x * sqrt (1 + x ^ 2)) with (4 * g1 s / g2 s * sqrt (1 + x ^ 2)) by reflexivity.
    field. lra.
Qed.

(** Parabolic links: the reported perimeter is that of a parabola which has its full width at the water surface; when the section is
    full this is its boundary. *)
Theorem C84_parabola_perimeter : forall s h0 h1 old gm, shape s = 6%nat -> dims_ok s -> hydraulic_geometry s h0 h1 old = Some gm ->
  0 < (h0 + h1) / 2 ->
  wetted_boundary (parabola (depth_in s h0 h1) (g2 s)) (depth_in s h0 h1) (gm_Pe gm) /\
  (g1 s <= (h0 + h1) / 2 -> wetted_boundary s (g1 s) (gm_Pe gm)) /\
  g2 s / 2 < gm_Pe gm.
Proof.
  intros s h0 h1 old gm Sh Dm E Y. assert (Dm' := Dm). unfold dims_ok in Dm. rewrite Sh in Dm. destruct Dm as [G1 G2].
  set (y := depth_in s h0 h1).
  assert (Hy : 0 < y) by (unfold y, depth_in; apply Rmin_glb_lt; [apply Rlt_le_trans with ((h0 + h1) / 2); [lra|apply Rmax_l]|exact G1]).
  assert (Ey : cap (g1 s) (if Rleb (mid h0 h1) 0 then geom_eps else mid h0 h1) = y).
  { unfold y. rewrite <- clip_depth. f_equal. unfold floor0, mid. destruct (Rleb_spec ((h0 + h1) / 2) 0); [lra|].
    destruct (Rltb_spec ((h0 + h1) / 2) 0); [lra|reflexivity]. }
  assert (P : gm_Pe gm = g2 s / 2 * (sqrt (1 + (4 * y / g2 s) ^ 2) + 1 / (4 * y / g2 s) * ln (4 * y / g2 s + sqrt (1 + (4 * y / g2 s) ^ 2)))).
  { revert E. unfold hydraulic_geometry. rewrite Sh. unfold Parabolic_Pe_ik. rewrite Ey, div_some by lra. cbn [bind].
    rewrite div_some by (apply Rgt_not_eq, Rdiv_lt_0_compat; lra). cbn [bind].
    destruct (Parabolic_B_ik h0 h1 (g1 s) (g2 s)); [|discriminate]. cbn [bind]. intros E. injection E as <-. reflexivity. }
  assert (W := parabola_length (parabola y (g2 s)) eq_refl Hy G2). cbn [g1 g2 parabola] in W. cbv zeta in W. rewrite <- P in W.
  split; [exact W|]. split.
  - intros F. assert (Fy : y = g1 s) by (unfold y, depth_in; rewrite Rmax_left, Rmin_right by lra; reflexivity).
    assert (W' := parabola_length s Sh G1 G2). cbv zeta in W'. rewrite <- Fy in W' at 2 3 4 5. rewrite <- P in W'. exact W'.
  - rewrite P. set (x := 4 * y / g2 s). assert (Hx : 0 < x) by (apply Rdiv_lt_0_compat; lra).
    assert (S1 : 1 < sqrt (1 + x ^ 2)) by (rewrite <- sqrt_1 at 1; apply sqrt_lt_1_alt; assert (0 < x ^ 2) by (apply pow_lt; exact Hx); lra).
    assert (L : 0 < ln (x + sqrt (1 + x ^ 2))) by (rewrite <- ln_1; apply ln_increasing; lra).
    assert (0 < 1 / x * ln (x + sqrt (1 + x ^ 2))) by (apply Rmult_lt_0_compat; [apply Rdiv_lt_0_compat; lra|exact L]).
    assert (0 < g2 s / 2 * (sqrt (1 + x ^ 2) + 1 / x * ln (x + sqrt (1 + x ^ 2)) - 1)) by (apply Rmult_lt_0_compat; lra). lra.
Qed.

(** Finding: for shallow water in a parabola the reported perimeter, more than half the full width, is not the length of the boundary
    below the surface, which is at most the chord and twice the depth. *)
Theorem C84_shallow_parabola_refuted : forall s h0 h1 old gm, shape s = 6%nat -> dims_ok s -> hydraulic_geometry s h0 h1 old = Some gm ->
  0 < (h0 + h1) / 2 -> chord s (depth_in s h0 h1) + 2 * depth_in s h0 h1 <= g2 s / 2 ->
  ~ wetted_boundary s (depth_in s h0 h1) (gm_Pe gm).
Proof.
  intros s h0 h1 old gm Sh Dm E Y C W.
  destruct (C84_parabola_perimeter s h0 h1 old gm Sh Dm E Y) as (_ & _ & B).
  unfold dims_ok in Dm. rewrite Sh in Dm.
  assert (U := boundary_bound s (depth_in s h0 h1) (gm_Pe gm)).
  assert (gm_Pe gm <= chord s (depth_in s h0 h1) + 2 * depth_in s h0 h1); [|lra].
  apply U; [|exact W]. intros u v Hu Huv Hv. unfold chord. rewrite Sh. apply Rmult_le_compat_l; [lra|]. apply sqrt_le_1_alt.
  unfold Rdiv. apply Rmult_le_compat_r; [apply Rlt_le, Rinv_0_lt_compat; lra|exact Huv].
Qed.

(** ** Cases *)

(** A pipe of 1 m, half full: the boundary is half a circle. *)
Definition pipe1 : section := {| shape := 1%nat; g1 := 1; g2 := 1/1000; g3 := 0; g4 := 0; g5 := 0; g6 := 0; g7 := 0 |}.
Example C84_example : dims_ok pipe1 /\ In (shape pipe1) [1; 2; 3; 4; 5]%nat /\
  (exists gm, hydraulic_geometry pipe1 (1/2) (1/2) zero_geom = Some gm) /\ wetted_boundary pipe1 (1/2) (PI / 2).
Proof.
  assert (Dm : dims_ok pipe1) by (cbn; lra). repeat split; auto; try (cbn; lra).
  - left; reflexivity.
  - destruct (C06_area_bounded pipe1 (1/2) (1/2) zero_geom Dm) as (gm & E & _). eauto.
  - replace (PI / 2) with (2 * (g1 pipe1 / 2 * (PI / 2))) by (cbn; field).
    assert (P0 := PI_RGT_0). apply circle_boundary; try reflexivity; cbn; try lra. rewrite cos_PI2. field.
Qed.
(** A ditch 1 m high and 1 m wide with 1 cm of water. *)
Example C84_parabola_example : dims_ok (parabola 1 1) /\ 0 < (1/100 + 1/100) / 2 /\
  (exists gm, hydraulic_geometry (parabola 1 1) (1/100) (1/100) zero_geom = Some gm) /\
  chord (parabola 1 1) (depth_in (parabola 1 1) (1/100) (1/100)) + 2 * depth_in (parabola 1 1) (1/100) (1/100) <= g2 (parabola 1 1) / 2.
Proof.
  assert (Dm : dims_ok (parabola 1 1)) by (cbn; lra). repeat split; try (cbn; lra).
  - destruct (C06_area_bounded (parabola 1 1) (1/100) (1/100) zero_geom Dm) as (gm & E & _). eauto.
  - replace (depth_in (parabola 1 1) (1/100) (1/100)) with (1/100).
    + cbn [chord shape parabola g1 g2]. replace (1 / 100 / 1) with ((1/10) ^ 2) by field. rewrite sqrt_pow2; lra.
    + unfold depth_in. cbn [g1 parabola]. rewrite Rmax_left, Rmin_left by lra. field.
Qed.
(** There is an elliptic integral, so the theorem on ellipses is not empty. *)
Lemma integrand_continuous m : m < 1 -> forall p, - (PI / 2) <= p <= PI / 2 -> continuity_pt (fun p => sqrt (1 - m * sin p ^ 2)) p.
Proof.
  intros Hm p _. apply (continuity_pt_comp (fun p => 1 - m * sin p ^ 2) sqrt).
  - apply (continuity_pt_minus (fun _ => 1) (fun p => m * sin p ^ 2)).
    + apply continuity_pt_const. intros ? ?; reflexivity.
    + apply (continuity_pt_scal (fun p => sin p ^ 2)). apply (continuity_pt_comp sin (fun x => x ^ 2)).
      * apply continuity_sin.
      * apply derivable_continuous_pt, derivable_pt_pow.
  - apply continuity_pt_sqrt. assert (T := sin2_cos2 p). unfold Rsqr in T.
    assert (0 <= cos p ^ 2) by apply pow2_ge_0. assert (0 <= sin p ^ 2) by apply pow2_ge_0.
    destruct (Rle_or_lt m 0) as [M|M].
    + assert (0 <= - m * sin p ^ 2) by (apply Rmult_le_pos; lra). lra.
    + assert (0 <= m * (1 - sin p ^ 2)) by (apply Rmult_le_pos; lra). lra.
Qed.
Lemma quarter_turn : - (PI / 2) <= PI / 2.
Proof. assert (T := PI_RGT_0). lra. Qed.
Definition integral_of (phi m : R) : R :=
  match Rlt_dec m 1 with
  | left H => let F := primitive quarter_turn (FTC_P1 quarter_turn (integrand_continuous m H)) in F phi - F 0
  | right _ => 0
  end.
Example C84_elliptic_example : elliptic_integral integral_of.
Proof.
  intros m Hm. unfold integral_of. destruct (Rlt_dec m 1) as [H|N]; [|contradiction]. split; [cbv zeta; ring|].
  intros phi Hp. cbv zeta. set (F := primitive _ _).
  rewrite <- (Rminus_0_r (sqrt (1 - m * sin phi ^ 2))).
  apply (derivable_pt_lim_minus F (fun _ => F 0)); [|apply derivable_pt_lim_const].
  apply (RiemannInt_P28 quarter_turn (integrand_continuous m H) Hp).
Qed.
