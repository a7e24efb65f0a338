(** Lemmas on critical depth in a round pipe, and a root finder. *)
From Verif Require Import Prelude M_Coeffs M_Geometry L_Geometry M_ExitHydraulics S_ExitHydraulics.
From Coq Require Import Ranalysis Ratan Classical.

(** ** A root finder: the least upper bound of the depths up to which the function stays positive *)
Definition posb (v : option R) : bool := match v with Some a => Rltb 0 a | None => false end.
Definition negb_ (v : option R) : bool := match v with Some a => Rltb a 0 | None => true end.
Definition zerob (v : option R) : bool := match v with Some a => Reqb a 0 | None => false end.
Lemma posb_true v : posb v = true <-> positive v.
Proof.
  unfold posb, positive. destruct v as [a|]; split.
  - intros H. exists a. split; auto. destruct (Rltb_spec 0 a); [auto|discriminate].
  - intros (b & E & P). inversion E; subst. destruct (Rltb_spec 0 b); [auto|lra].
  - discriminate.
  - intros (b & E & _). discriminate.
Qed.
Lemma negb_true v : negb_ v = true <-> negative v.
Proof.
  unfold negb_, negative. destruct v as [a|]; [|tauto].
  destruct (Rltb_spec a 0); split; auto; try lra; discriminate.
Qed.
Definition stays_positive (f : R -> option R) (lo hi x : R) : Prop :=
  lo <= x <= hi /\ forall y, lo <= y <= x -> posb (f y) = true.
Lemma stays_bound f lo hi : bound (stays_positive f lo hi).
Proof. exists hi. intros z ((_ & H) & _). exact H. Qed.
Lemma stays_lo f lo hi : lo <= hi -> posb (f lo) = true -> exists z, stays_positive f lo hi z.
Proof.
  intros L P. exists lo. split; [lra|]. intros y Hy. replace y with lo by lra. exact P.
Qed.
Definition lub_root (f : R -> option R) (lo hi : R) : option R :=
  match Rle_dec lo hi with
  | right _ => None
  | left L =>
    match bool_dec (posb (f lo)) true with
    | right _ => None
    | left P =>
      if negb_ (f hi)
      then let m := proj1_sig (completeness _ (stays_bound f lo hi) (stays_lo f lo hi L P)) in
           if zerob (f m) then Some m else None
      else None
    end
  end.
Lemma lub_root_finder : root_finder lub_root.
Proof.
  constructor.
  - intros f lo hi c L. unfold lub_root. destruct (Rle_dec lo hi) as [L'|]; [|discriminate].
    destruct (bool_dec _ true) as [P|]; [|discriminate]. destruct (negb_ (f hi)); [|discriminate].
    destruct (completeness _ _ _) as [m [U1 U2]]; cbn [proj1_sig]. cbv zeta.
    destruct (zerob (f m)) eqn:Z; [|discriminate]. intros E; inversion E; subst m. split.
    + split.
      * apply U1. split; [lra|]. intros y Hy. replace y with lo by lra. exact P.
      * apply U2. intros z ((_ & H) & _). exact H.
    + unfold zerob in Z. destruct (f c) as [a|]; [|discriminate]. f_equal.
      destruct (Reqb_spec a 0); [auto|discriminate].
  - intros f lo hi L [[P1 P2]|[N1 N2]]; unfold lub_root; destruct (Rle_dec lo hi); auto;
      destruct (bool_dec _ true) as [P|]; auto.
    + destruct (negb_ (f hi)) eqn:N; auto. apply negb_true in N. destruct P2 as (a & E & Pa). rewrite E in N.
      simpl in N. lra.
    + destruct (proj1 (posb_true _) P) as (a & E & Pa). rewrite E in N1. simpl in N1. lra.
  - intros f lo hi c Hc Z Pos Neg. unfold lub_root. destruct (Rle_dec lo hi) as [L|]; [|lra].
    assert (P0 : posb (f lo) = true) by (apply posb_true, Pos; lra).
    destruct (bool_dec _ true) as [P|]; [|contradiction].
    assert (N : negb_ (f hi) = true) by (apply negb_true, Neg; lra). rewrite N.
    destruct (completeness _ _ _) as [m [U1 U2]]; cbn [proj1_sig]. cbv zeta.
    assert (M : m = c).
    { apply Rle_antisym.
      - apply U2. intros z [Hz Hp]. destruct (Rle_or_lt z c) as [|G]; auto.
        specialize (Hp c ltac:(lra)). rewrite Z in Hp. cbn in Hp. destruct (Rltb_spec 0 0); [lra|discriminate].
      - destruct (Rle_or_lt c m) as [|G]; auto. exfalso.
        assert (lo <= m).
        { apply U1. split; [lra|]. intros y Hy. replace y with lo by lra. exact P. }
        assert (U : stays_positive f lo hi ((m + c) / 2)).
        { split; [lra|]. intros y Hy. apply posb_true, Pos. lra. }
        pose proof (U1 _ U). lra. }
    subst m. rewrite Z. cbn. destruct (Reqb_spec 0 0); [auto|lra].
Qed.

(** ** The half angle *)
Definition ang (d h : R) : R := acos (1 - h / (d / 2)).
Lemma ang_range d h : 0 < d -> 0 < h < d -> 0 < ang d h < PI.
Proof.
  intros Hd Hh. unfold ang. pose proof (circ_inner d h Hd Hh).
  rewrite <- acos_1 at 1. rewrite <- acos_m1 at 1.
  split.
  - destruct (Rle_or_lt (acos (1 - h / (d / 2))) (acos 1)) as [C|]; auto. exfalso.
    rewrite acos_1 in C. pose proof (acos_bound (1 - h / (d / 2))).
    assert (E : acos (1 - h / (d / 2)) = 0) by lra. pose proof (cos_acos (1 - h / (d / 2)) ltac:(lra)) as F.
    rewrite E, cos_0 in F. lra.
  - destruct (Rle_or_lt (acos (-1)) (acos (1 - h / (d / 2)))) as [C|]; auto. exfalso.
    rewrite acos_m1 in C. pose proof (acos_bound (1 - h / (d / 2))).
    assert (E : acos (1 - h / (d / 2)) = PI) by lra. pose proof (cos_acos (1 - h / (d / 2)) ltac:(lra)) as F.
    rewrite E, cos_PI in F. lra.
Qed.
Lemma ang_cos d h : 0 < d -> 0 <= h <= d -> cos (ang d h) = 1 - h / (d / 2).
Proof. intros Hd Hh. unfold ang. pose proof (circ_arg d h Hd Hh). apply cos_acos. lra. Qed.
Lemma ang_half d h : 0 < d -> 0 <= h <= d -> half_angle d h (ang d h).
Proof.
  intros Hd Hh. split; [unfold ang; pose proof (acos_bound (1 - h / (d / 2))); lra|].
  rewrite ang_cos by auto. field. lra.
Qed.
Lemma half_angle_unique d h t u : 0 < d -> half_angle d h t -> half_angle d h u -> t = u.
Proof.
  intros Hd [Ht Et] [Hu Eu]. assert (E : cos t = cos u).
  { apply Rmult_eq_reg_l with (d / 2); lra. }
  destruct (Rtotal_order t u) as [L|[|L]]; auto; exfalso.
  - pose proof (cos_decreasing_1 t u ltac:(lra) ltac:(lra) ltac:(lra) ltac:(lra) L). lra.
  - pose proof (cos_decreasing_1 u t ltac:(lra) ltac:(lra) ltac:(lra) ltac:(lra) L). lra.
Qed.
Lemma ang_mono d h h' : 0 < d -> 0 < h -> h < h' -> h' < d -> ang d h < ang d h'.
Proof.
  intros Hd H0 H1 H2. destruct (ang_range d h Hd ltac:(lra)), (ang_range d h' Hd ltac:(lra)).
  apply cos_decreasing_0; try lra. rewrite !ang_cos by lra.
  assert (h / (d / 2) < h' / (d / 2)).
  { apply Rmult_lt_compat_r; auto. apply Rinv_0_lt_compat; lra. }
  lra.
Qed.
Lemma ang_sin d h : 0 < d -> 0 < h < d -> 0 < sin (ang d h).
Proof. intros Hd Hh. destruct (ang_range d h Hd Hh). apply sin_gt_0; lra. Qed.

(** ** The section functions of the code *)
Lemma py_theta_ang d h : 0 < d -> 0 <= h <= d -> py_theta d h = ang d h.
Proof.
  intros Hd Hh. pose proof (circ_arg d h Hd Hh). unfold py_theta, ang. cbv zeta.
  destruct (Rltb_spec (h / (d / 2)) 0); [lra|]. destruct (Rltb_spec 2 (h / (d / 2))); [lra|]. reflexivity.
Qed.
Lemma py_A d h : 0 < d -> 0 <= h <= d -> py_circ_A h h d = (d / 2) ^ 2 * seg (ang d h).
Proof.
  intros Hd Hh. unfold py_circ_A. cbv zeta. replace ((h + h) / 2) with h by field.
  destruct (Rltb_spec h 0); [lra|]. destruct (Rltb_spec d h); [lra|]. rewrite py_theta_ang by auto. reflexivity.
Qed.
Lemma py_B d h : 0 < d -> 0 <= h < d -> py_circ_B h h d = d * sin (ang d h).
Proof.
  intros Hd Hh. unfold py_circ_B. cbv zeta. replace ((h + h) / 2) with h by field.
  destruct (Rltb_spec h 0); [lra|]. destruct (Rltb_spec h d); [|lra]. rewrite py_theta_ang by lra. field.
Qed.
Lemma py_B_full d : 0 < d -> py_circ_B d d d = 0.001 * d.
Proof.
  intros Hd. unfold py_circ_B. cbv zeta. replace ((d + d) / 2) with d by field.
  destruct (Rltb_spec d 0); [lra|]. destruct (Rltb_spec d d); [lra|]. reflexivity.
Qed.
Lemma ang_full d : 0 < d -> ang d d = PI.
Proof. intros Hd. unfold ang. replace (1 - d / (d / 2)) with (-1) by (field; lra). apply acos_m1. Qed.
Lemma width_sin d h : 0 < d -> 0 < h < d -> surface_width d h = d * sin (ang d h).
Proof.
  intros Hd Hh. unfold surface_width, ang. rewrite <- (circ_sin d h Hd Hh). field.
Qed.
Lemma area_seg d h A : 0 < d -> 0 <= h <= d -> segment_area d h A <-> A = (d / 2) ^ 2 * seg (ang d h).
Proof.
  intros Hd Hh. split.
  - intros (t & Ht & ->). rewrite (half_angle_unique d h t (ang d h) Hd Ht (ang_half d h Hd Hh)). reflexivity.
  - intros ->. exists (ang d h). split; [apply ang_half; auto|reflexivity].
Qed.

(** ** Monotonicity *)
Lemma seg_pos t : 0 < t -> 0 < seg t.
Proof.
  intros Ht. set (u := Rmin t (PI / 2)).
  assert (Hu : 0 < u <= PI / 2) by (unfold u; pose proof PI_RGT_0; split; [apply Rmin_glb_lt; lra|apply Rmin_r]).
  assert (Hut : u <= t) by apply Rmin_l.
  apply Rlt_le_trans with (seg u); [|apply seg_incr; auto].
  destruct (MVT_cor2 seg (fun t => 2 * sin t ^ 2) 0 u ltac:(lra) ltac:(intros; apply seg_lim)) as (c & E & Hc).
  rewrite seg_0 in E. pose proof (sin_gt_0 c ltac:(lra) ltac:(lra)) as Hs.
  assert (0 < sin c ^ 2) by (apply pow_lt; auto).
  assert (0 < 2 * sin c ^ 2 * (u - 0)) by (apply Rmult_lt_0_compat; lra). lra.
Qed.
Definition slope_num (t : R) : R := 6 * sin t ^ 3 - seg t * cos t.
Lemma slope_num_lim t : derivable_pt_lim slope_num t (16 * sin t ^ 2 * cos t + seg t * sin t).
Proof.
  unfold slope_num.
  replace (16 * sin t ^ 2 * cos t + seg t * sin t)
    with (6 * (INR 3 * sin t ^ 2 * cos t) - (2 * sin t ^ 2 * cos t + seg t * - sin t)) by (simpl; ring).
  apply derivable_pt_lim_minus.
  - apply (derivable_pt_lim_scal (fun t => sin t ^ 3)).
    apply (derivable_pt_lim_comp sin (fun x => x ^ 3)); [apply derivable_pt_lim_sin|].
    apply (derivable_pt_lim_pow (sin t) 3).
  - apply (derivable_pt_lim_mult seg cos); [apply seg_lim|apply derivable_pt_lim_cos].
Qed.
Lemma slope_num_pos t : 0 < t < PI -> 0 < slope_num t.
Proof.
  intros Ht. pose proof (sin_gt_0 t ltac:(lra) ltac:(lra)) as Hs. pose proof (seg_pos t ltac:(lra)) as Hg.
  assert (S3 : 0 < sin t ^ 3) by (apply pow_lt; auto).
  destruct (Rle_or_lt t (PI / 2)) as [L|L].
  - destruct (MVT_cor2 slope_num _ 0 t ltac:(lra) ltac:(intros; apply slope_num_lim)) as (c & E & Hc).
    assert (Z : slope_num 0 = 0) by (unfold slope_num; rewrite seg_0, sin_0; ring).
    rewrite Z in E.
    pose proof (sin_gt_0 c ltac:(lra) ltac:(lra)) as Hsc. pose proof (seg_pos c ltac:(lra)) as Hgc.
    pose proof (cos_ge_0 c ltac:(lra) ltac:(lra)) as Hcc.
    assert (0 < seg c * sin c) by (apply Rmult_lt_0_compat; auto).
    assert (0 <= 16 * sin c ^ 2 * cos c).
    { apply Rmult_le_pos; auto. pose proof (pow2_ge_0 (sin c)). lra. }
    assert (0 < (16 * sin c ^ 2 * cos c + seg c * sin c) * (t - 0)) by (apply Rmult_lt_0_compat; lra).
    lra.
  - pose proof (cos_lt_0 t L ltac:(lra)) as Hc. unfold slope_num.
    assert (0 <= seg t * - cos t) by (apply Rmult_le_pos; lra). lra.
Qed.
Definition inv_froude (t : R) : R := seg t ^ 3 / sin t.
Lemma inv_froude_lim t : sin t <> 0 ->
  derivable_pt_lim inv_froude t (seg t ^ 2 * slope_num t / sin t ^ 2).
Proof.
  intros Hs. unfold inv_froude.
  replace (seg t ^ 2 * slope_num t / sin t ^ 2)
    with ((INR 3 * seg t ^ 2 * (2 * sin t ^ 2) * sin t - cos t * seg t ^ 3) / Rsqr (sin t)).
  2:{ unfold slope_num, Rsqr. simpl INR. field. auto. }
  apply (derivable_pt_lim_div (fun t => seg t ^ 3) sin); auto; [|apply derivable_pt_lim_sin].
  apply (derivable_pt_lim_comp seg (fun x => x ^ 3)); [apply seg_lim|]. apply (derivable_pt_lim_pow (seg t) 3).
Qed.
Lemma inv_froude_mono t u : 0 < t -> t < u -> u < PI -> inv_froude t < inv_froude u.
Proof.
  intros H0 H1 H2.
  destruct (MVT_cor2 inv_froude (fun t => seg t ^ 2 * slope_num t / sin t ^ 2) t u H1) as (c & E & Hc).
  { intros c Hc. apply inv_froude_lim. pose proof (sin_gt_0 c ltac:(lra) ltac:(lra)). lra. }
  pose proof (sin_gt_0 c ltac:(lra) ltac:(lra)). pose proof (seg_pos c ltac:(lra)).
  pose proof (slope_num_pos c ltac:(lra)).
  assert (0 < seg c ^ 2 * slope_num c / sin c ^ 2).
  { apply Rdiv_lt_0_compat; [apply Rmult_lt_0_compat; auto|]; apply pow_lt; auto. }
  assert (0 < seg c ^ 2 * slope_num c / sin c ^ 2 * (u - t)) by (apply Rmult_lt_0_compat; lra). lra.
Qed.

(** ** The argument of the logarithm *)
Definition level (Q d : R) : R := 64 * Q ^ 2 / (9.81 * d ^ 5).
Lemma code_ratio Q d h : 0 < d -> 0 < h < d ->
  Q ^ 2 * py_circ_B h h d / (9.81 * py_circ_A h h d ^ 3) = level Q d / inv_froude (ang d h).
Proof.
  intros Hd Hh. rewrite py_A, py_B by lra. unfold level, inv_froude.
  pose proof (ang_sin d h Hd Hh). destruct (ang_range d h Hd Hh). pose proof (seg_pos (ang d h) ltac:(lra)).
  field. repeat split; lra.
Qed.
Lemma inv_froude_pos t : 0 < t < PI -> 0 < inv_froude t.
Proof.
  intros Ht. unfold inv_froude. apply Rdiv_lt_0_compat; [apply pow_lt, seg_pos; lra|apply sin_gt_0; lra].
Qed.
Lemma level_pos Q d : 0 < d -> Q <> 0 -> 0 < level Q d.
Proof.
  intros Hd HQ. unfold level. assert (0 < Q ^ 2) by (simpl; rewrite Rmult_1_r; apply Rsqr_pos_lt; auto).
  pose proof (pow_lt d 5 Hd). apply Rdiv_lt_0_compat; lra.
Qed.
Lemma log_value Q d h : 0 < d -> Q <> 0 -> 0 < h < d ->
  critical_log Q d h = Some (ln (level Q d / inv_froude (ang d h))).
Proof.
  intros Hd HQ Hh. unfold critical_log. cbv zeta. rewrite code_ratio by auto.
  assert (0 < level Q d / inv_froude (ang d h)).
  { apply Rdiv_lt_0_compat; [apply level_pos; auto|apply inv_froude_pos, ang_range; auto]. }
  destruct (Rltb_spec 0 (level Q d / inv_froude (ang d h))); [auto|lra].
Qed.
Lemma log_full Q d : 0 < d -> Q <> 0 ->
  critical_log Q d d = Some (ln (Q ^ 2 * (0.001 * d) / (9.81 * (PI * (d / 2) ^ 2) ^ 3))).
Proof.
  intros Hd HQ. unfold critical_log. cbv zeta. rewrite py_A, py_B_full, ang_full, seg_PI by lra.
  replace ((d / 2) ^ 2 * PI) with (PI * (d / 2) ^ 2) by ring.
  assert (0 < Q ^ 2) by (simpl; rewrite Rmult_1_r; apply Rsqr_pos_lt; auto).
  assert (0 < PI * (d / 2) ^ 2) by (apply Rmult_lt_0_compat; [apply PI_RGT_0|apply pow_lt; lra]).
  pose proof (pow_lt (PI * (d / 2) ^ 2) 3 ltac:(auto)).
  assert (0 < Q ^ 2 * (0.001 * d) / (9.81 * (PI * (d / 2) ^ 2) ^ 3)).
  { apply Rdiv_lt_0_compat; [apply Rmult_lt_0_compat|]; lra. }
  destruct (Rltb_spec 0 (Q ^ 2 * (0.001 * d) / (9.81 * (PI * (d / 2) ^ 2) ^ 3))); [auto|lra].
Qed.
Lemma log_still d h : critical_log 0 d h = None.
Proof.
  unfold critical_log. cbv zeta.
  replace (0 ^ 2 * py_circ_B h h d / (9.81 * py_circ_A h h d ^ 3)) with 0 by (unfold Rdiv; ring).
  destruct (Rltb_spec 0 0); [lra|auto].
Qed.
Lemma critical_flow_iff Q d h : 0 < d -> 0 < h < d -> critical_flow Q d h <-> level Q d = inv_froude (ang d h).
Proof.
  intros Hd Hh. pose proof (inv_froude_pos _ (ang_range d h Hd Hh)) as Hp.
  assert (Hs : 0 < (d / 2) ^ 2 * seg (ang d h)).
  { apply Rmult_lt_0_compat; [apply pow_lt; lra|apply seg_pos, (ang_range d h); auto]. }
  assert (E : Q ^ 2 * surface_width d h / (9.81 * ((d / 2) ^ 2 * seg (ang d h)) ^ 3) = level Q d / inv_froude (ang d h)).
  { rewrite width_sin by auto. rewrite <- (code_ratio Q d h Hd Hh), py_A, py_B by lra. reflexivity. }
  unfold critical_flow. split.
  - intros (A & HA & PA & F). apply area_seg in HA; auto; [|lra]. subst A. rewrite E in F.
    apply Rmult_eq_compat_r with (r := inv_froude (ang d h)) in F.
    unfold Rdiv in F. rewrite Rmult_assoc, Rinv_l in F by lra. lra.
  - intros L. exists ((d / 2) ^ 2 * seg (ang d h)). repeat split; auto.
    + apply area_seg; auto. lra.
    + rewrite E, L. apply Rinv_r. lra.
Qed.
Lemma critical_unique Q d h h' : 0 < d -> 0 < h < d -> 0 < h' < d ->
  critical_flow Q d h -> critical_flow Q d h' -> h = h'.
Proof.
  intros Hd Hh Hh' C C'. apply critical_flow_iff in C, C'; auto.
  destruct (ang_range d h Hd Hh) as [A1 A2], (ang_range d h' Hd Hh') as [A3 A4].
  destruct (Rtotal_order h h') as [L|[|L]]; auto; exfalso.
  - pose proof (inv_froude_mono _ _ A1 (ang_mono d h h' Hd ltac:(lra) L ltac:(lra)) A4). lra.
  - pose proof (inv_froude_mono _ _ A3 (ang_mono d h' h Hd ltac:(lra) L ltac:(lra)) A2). lra.
Qed.
(** The segment is smaller than the rectangle around its lower half. *)
Lemma seg_rect t : 0 <= t <= PI / 2 -> seg t <= 2 * sin t * (1 - cos t).
Proof.
  intros Ht. assert (D : forall u, derivable_pt_lim (fun u => 2 * sin u - (u + cos u * sin u)) u (2 * cos u * (1 - cos u))).
  { intros u. replace (2 * cos u * (1 - cos u)) with (2 * cos u - (1 + (- sin u * sin u + cos u * cos u))).
    2:{ pose proof (sin2_cos2 u) as E; unfold Rsqr in E. nra. }
    apply derivable_pt_lim_minus; [apply (derivable_pt_lim_scal sin), derivable_pt_lim_sin|].
    apply derivable_pt_lim_plus; [apply derivable_pt_lim_id|].
    apply derivable_pt_lim_mult; [apply derivable_pt_lim_cos|apply derivable_pt_lim_sin]. }
  enough (0 <= 2 * sin t - (t + cos t * sin t)) by (unfold seg; nra).
  destruct (Req_dec t 0) as [->|N]; [rewrite sin_0; lra|].
  destruct (MVT_cor2 _ _ 0 t ltac:(lra) ltac:(intros c _; apply D)) as (c & E & Hc).
  rewrite sin_0 in E. pose proof (cos_ge_0 c ltac:(lra) ltac:(lra)). pose proof (COS_bound c).
  assert (0 <= 2 * cos c * (1 - cos c) * (t - 0)) by (repeat apply Rmult_le_pos; lra). lra.
Qed.
(** Flows above this bound are supercritical at a tiny depth e. *)
Lemma tiny_depth Q d e : 0 < e -> 2 * e <= d -> 39.24 * d * e ^ 4 < Q ^ 2 -> inv_froude (ang d e) < level Q d.
Proof.
  intros He Hd HQ. assert (Hde : 0 < d) by lra. destruct (ang_range d e Hde ltac:(lra)) as [T0 T1].
  pose proof (ang_sin d e Hde ltac:(lra)) as Hs. pose proof (ang_cos d e Hde ltac:(lra)) as Ec.
  assert (Tq : ang d e <= PI / 2).
  { destruct (Rle_or_lt (ang d e) (PI / 2)) as [|G]; auto. exfalso. pose proof (cos_lt_0 _ G ltac:(lra)) as Hn.
    rewrite Ec in Hn. assert (e / (d / 2) <= 1).
    { apply Rmult_le_reg_r with (d / 2); [lra|]. unfold Rdiv at 1. rewrite Rmult_assoc, Rinv_l by lra. lra. }
    lra. }
  pose proof (seg_rect (ang d e) ltac:(lra)) as Hr. pose proof (seg_pos _ T0) as Hg.
  rewrite Ec in Hr. replace (1 - (1 - e / (d / 2))) with (2 * e / d) in Hr by (field; lra).
  set (s := sin (ang d e)) in *.
  assert (S2 : s ^ 2 = 4 * e * (d - e) / d ^ 2).
  { pose proof (sin2_cos2 (ang d e)) as E. unfold Rsqr in E. fold s in E.
    replace (s ^ 2) with (1 - cos (ang d e) * cos (ang d e)) by (simpl; lra). rewrite Ec. field. lra. }
  assert (B : seg (ang d e) ^ 3 <= (2 * s * (2 * e / d)) ^ 3) by (apply pow_incr; lra).
  unfold inv_froude, level. fold s.
  apply Rle_lt_trans with ((2 * s * (2 * e / d)) ^ 3 / s).
  { apply Rmult_le_compat_r; auto. apply Rlt_le, Rinv_0_lt_compat; auto. }
  replace ((2 * s * (2 * e / d)) ^ 3 / s) with (s ^ 2 * (4 * e / d) ^ 3) by (field; lra).
  rewrite S2.
  replace (4 * e * (d - e) / d ^ 2 * (4 * e / d) ^ 3) with ((64 * (4 * 9.81) * (d - e) * e ^ 4) / (9.81 * d ^ 5)) by (field; lra).
  pose proof (pow_lt d 5 Hde) as D5. pose proof (pow_lt e 4 He) as E4.
  apply Rmult_lt_compat_r; [apply Rinv_0_lt_compat; lra|].
  assert (39.24 * (d - e) * e ^ 4 < Q ^ 2).
  { apply Rle_lt_trans with (39.24 * d * e ^ 4); auto. apply Rmult_le_compat_r; lra. }
  lra.
Qed.
(** There is a critical depth above e. *)
Lemma critical_exists Q d e : 0 < e -> 2 * e <= d -> 39.24 * d * e ^ 4 < Q ^ 2 ->
  exists c, e < c < d /\ critical_flow Q d c.
Proof.
  intros He Hd HQ. assert (Hde : 0 < d) by lra. pose proof (tiny_depth Q d e He Hd HQ) as HT.
  destruct (ang_range d e Hde ltac:(lra)) as [T0 T1]. pose proof (ang_sin d e Hde ltac:(lra)) as Hs.
  set (F := fun t => level Q d * sin t - seg t ^ 3).
  assert (CF : continuity F).
  { intros t. apply derivable_continuous_pt. exists (level Q d * cos t - INR 3 * seg t ^ 2 * (2 * sin t ^ 2)).
    apply derivable_pt_lim_minus.
    - apply (derivable_pt_lim_scal sin). apply derivable_pt_lim_sin.
    - apply (derivable_pt_lim_comp seg (fun x => x ^ 3)); [apply seg_lim|]. apply (derivable_pt_lim_pow (seg t) 3). }
  assert (F0 : 0 < F (ang d e)).
  { unfold F. unfold inv_froude in HT. apply Rmult_lt_compat_r with (r := sin (ang d e)) in HT; auto.
    unfold Rdiv in HT. rewrite Rmult_assoc, Rinv_l in HT by lra. lra. }
  assert (F1 : F PI < 0).
  { unfold F. rewrite sin_PI, seg_PI. pose proof (pow_lt PI 3 PI_RGT_0). lra. }
  destruct (IVT_cor F (ang d e) PI CF ltac:(lra) ltac:(nra)) as (z & Hz & Z).
  assert (z <> ang d e) by (intros ->; lra). assert (z <> PI) by (intros ->; lra).
  assert (Zr : 0 < z < PI) by lra.
  pose proof (sin_gt_0 z ltac:(lra) ltac:(lra)) as Hsz. pose proof PI_RGT_0.
  assert (C1 : cos z < cos (ang d e)) by (apply cos_decreasing_1; lra).
  assert (C2 : -1 < cos z) by (rewrite <- cos_PI; apply cos_decreasing_1; lra).
  rewrite ang_cos in C1 by lra.
  set (c := d / 2 * (1 - cos z)).
  assert (Hc : e < c < d).
  { unfold c. split; [|nra].
    apply Rmult_lt_compat_l with (r := d / 2) in C1; [|lra].
    replace (d / 2 * (1 - e / (d / 2))) with (d / 2 - e) in C1 by (field; lra). lra. }
  exists c. split; auto. apply critical_flow_iff; auto; [lra|].
  assert (A : ang d c = z).
  { apply (half_angle_unique d c); auto; [apply ang_half; lra|]. split; [lra|]. unfold c. ring. }
  rewrite A. unfold inv_froude. unfold F in Z. replace (seg z ^ 3) with (level Q d * sin z) by lra. field. lra.
Qed.
