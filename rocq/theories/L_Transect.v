(** Lemmas for surveyed cross-sections: closed forms of width, wetted length and area of one piece. *)
From Coq Require Import Ranalysis RiemannInt.
From Verif Require Import Prelude M_Coeffs M_Numerics M_Transect S_Transect.

(** Positive part. *)
Definition part (x : R) : R := Rmax 0 x.
Lemma pos_neg x : x <= 0 -> part x = 0. Proof. intros. apply Rmax_left; auto. Qed.
Lemma pos_pos x : 0 <= x -> part x = x. Proof. intros. apply Rmax_right; auto. Qed.
Lemma pos_ge x : 0 <= part x. Proof. apply Rmax_l. Qed.
Lemma pos_abs x : part x = (x + Rabs x) / 2.
Proof. unfold part, Rmax, Rabs. destruct (Rle_dec 0 x); destruct (Rcase_abs x); lra. Qed.

(** Fraction of a piece under water and its mean depth. *)
Definition fraction (w y0 y1 : R) : R :=
  if Reqb y0 y1 then (if Rleb y0 w then 1 else 0) else (part (w - y0) - part (w - y1)) / (y1 - y0).
Definition depth (w y0 y1 : R) : R :=
  if Reqb y0 y1 then part (w - y0) else (part (w - y0) ^ 2 - part (w - y1) ^ 2) / (2 * (y1 - y0)).

Ltac posc := repeat match goal with
  | |- context [part ?x] => first [rewrite (pos_neg x) by lra | rewrite (pos_pos x) by lra]
  end.

Lemma fraction_cases w y0 y1 :
  (w < y0 -> w < y1 -> fraction w y0 y1 = 0) /\ (y0 <= w -> y1 <= w -> fraction w y0 y1 = 1) /\
  (w < y0 -> y1 <= w -> fraction w y0 y1 = (w - y1) / (y0 - y1)) /\
  (y0 <= w -> w < y1 -> fraction w y0 y1 = (w - y0) / (y1 - y0)).
Proof.
  unfold fraction. repeat split; intros; destruct (Reqb_spec y0 y1); try (destruct (Rleb_spec y0 w)); try lra; posc; try (field; lra). 
Qed.
Lemma depth_cases w y0 y1 :
  (w < y0 -> w < y1 -> depth w y0 y1 = 0) /\ (y0 <= w -> y1 <= w -> depth w y0 y1 = w - (y0 + y1) / 2) /\
  (w < y0 -> y1 <= w -> depth w y0 y1 = (w - y1) ^ 2 / (2 * (y0 - y1))) /\
  (y0 <= w -> w < y1 -> depth w y0 y1 = (w - y0) ^ 2 / (2 * (y1 - y0))).
Proof.
  unfold depth. repeat split; intros; destruct (Reqb_spec y0 y1); try lra; posc; try (field; lra); lra.
Qed.

Lemma div_some a b : b <> 0 -> div a b = Some (a / b).
Proof. intros. unfold div. destruct (Reqb_spec b 0); [lra|reflexivity]. Qed.

Lemma piece_B_value w p0 p1 : piece_B w p0 p1 = Some (run p0 p1 * fraction w (snd p0) (snd p1)).
Proof.
  destruct p0 as [x0 y0], p1 as [x1 y1]. unfold piece_B, run. cbn [fst snd].
  destruct (fraction_cases w y0 y1) as (F1 & F2 & F3 & F4).
  destruct (Rltb_spec w y0); destruct (Rltb_spec w y1); destruct (Rleb_spec y0 w); destruct (Rleb_spec y1 w); cbn [andb]; try lra.
  - rewrite F1 by auto. f_equal. ring.
  - rewrite F3 by auto. rewrite div_some by lra. cbn [bind]. f_equal. field. lra.
  - rewrite F4 by auto. rewrite div_some by lra. cbn [bind]. f_equal. field. lra.
  - rewrite F2 by auto. f_equal. ring.
Qed.

Lemma sqrt_scale a b c : 0 <= c -> sqrt ((c * a) ^ 2 + (c * b) ^ 2) = sqrt (a ^ 2 + b ^ 2) * c.
Proof.
  intros Hc. replace ((c * a) ^ 2 + (c * b) ^ 2) with ((a ^ 2 + b ^ 2) * c ^ 2) by ring.
  rewrite sqrt_mult by (try apply pow2_ge_0; pose proof (pow2_ge_0 a); pose proof (pow2_ge_0 b); lra).
  now rewrite sqrt_pow2.
Qed.
Lemma ratio_nonneg a b : 0 <= a -> 0 < b -> 0 <= a / b.
Proof. intros. apply Rmult_le_pos; auto. left. now apply Rinv_0_lt_compat. Qed.

Lemma piece_Pe_value w p0 p1 : piece_Pe w p0 p1 = Some (length_of p0 p1 * fraction w (snd p0) (snd p1)).
Proof.
  destruct p0 as [x0 y0], p1 as [x1 y1]. unfold piece_Pe, length_of. cbn [fst snd].
  destruct (fraction_cases w y0 y1) as (F1 & F2 & F3 & F4).
  destruct (Rltb_spec w y0); destruct (Rltb_spec w y1); destruct (Rleb_spec y0 w); destruct (Rleb_spec y1 w); cbn [andb]; try lra.
  - rewrite F1 by auto. f_equal. ring.
  - rewrite F3 by auto. rewrite div_some by lra. cbn [bind]. f_equal.
    rewrite <- (sqrt_scale _ _ ((w - y1) / (y0 - y1))) by (apply ratio_nonneg; lra). f_equal. field. lra.
  - rewrite F4 by auto. rewrite div_some by lra. cbn [bind]. f_equal.
    rewrite <- (sqrt_scale _ _ ((w - y0) / (y1 - y0))) by (apply ratio_nonneg; lra). f_equal. field. lra.
  - rewrite F2 by auto. f_equal. ring.
Qed.

Lemma piece_A_value w p0 p1 : 0 <= run p0 p1 -> piece_A w p0 p1 = Some (run p0 p1 * depth w (snd p0) (snd p1)).
Proof.
  destruct p0 as [x0 y0], p1 as [x1 y1]. unfold piece_A, run. cbn [fst snd]. intros Hd.
  destruct (depth_cases w y0 y1) as (F1 & F2 & F3 & F4).
  destruct (Rltb_spec w y0); destruct (Rltb_spec w y1); destruct (Rleb_spec y0 w); destruct (Rleb_spec y1 w); cbn [andb]; try lra.
  - rewrite F1 by auto. f_equal. ring.
  - rewrite F3 by auto. rewrite div_some by lra. cbn [bind]. f_equal. rewrite Rabs_pos_eq; [field; lra|].
    replace ((x1 - x0) / (y1 - y0) * (y1 - w) * (w - y1) / 2) with ((x1 - x0) * ((w - y1) * (w - y1)) / 2 / (y0 - y1)) by (field; lra).
    apply ratio_nonneg; [|lra]. assert (0 <= (w - y1) * (w - y1)) by nra. nra.
  - rewrite F4 by auto. rewrite div_some by lra. cbn [bind]. f_equal. rewrite Rabs_pos_eq; [field; lra|].
    replace ((x1 - x0) / (y1 - y0) * (w - y0) * (w - y0) / 2) with ((x1 - x0) * ((w - y0) * (w - y0)) / 2 / (y1 - y0)) by (field; lra).
    apply ratio_nonneg; [|lra]. assert (0 <= (w - y0) * (w - y0)) by nra. nra.
  - rewrite F2 by auto. f_equal. unfold Rmax. destruct (Rle_dec y0 y1).
    + rewrite Rabs_pos_eq; [lra|]. assert (0 <= (x1 - x0) * (y1 - y0)) by nra. lra.
    + rewrite Rabs_left1; [lra|]. assert (0 <= (x1 - x0) * (y0 - y1)) by nra. lra.
Qed.

(** The wet part of a piece. *)
Lemma fraction_is_wet w p0 p1 : wet_fraction w p0 p1 (fraction w (snd p0) (snd p1)).
Proof.
  destruct p0 as [x0 y0], p1 as [x1 y1]. unfold wet_fraction, ground. cbn [fst snd].
  destruct (fraction_cases w y0 y1) as (F1 & F2 & F3 & F4).
  destruct (Rlt_dec w y0); destruct (Rlt_dec w y1).
  - left. split; [|apply F1; auto]. intros s Hs. replace (y0 + s * (y1 - y0)) with ((1 - s) * y0 + s * y1) by ring.
    destruct (Rlt_dec s 1); [assert (0 < (1 - s) * (y0 - w)) by (apply Rmult_lt_0_compat; lra); assert (0 <= s * (y1 - w)) by (apply Rmult_le_pos; lra); lra|].
    assert (s = 1) by lra. subst s. lra.
  - right. assert (Q : 0 <= (w - y1) / (y0 - y1)) by (apply ratio_nonneg; lra).
    exists (1 - (w - y1) / (y0 - y1)), 1. rewrite F3 by lra.
    assert (X : (w - y1) / (y0 - y1) * (y0 - y1) = w - y1) by (field; lra).
    set (q := (w - y1) / (y0 - y1)) in *.
    assert (Hq : q < 1) by (apply (Rmult_lt_reg_r (y0 - y1)); lra). split; [lra|]. split; [lra|]. split; [lra|]. split; [lra|].
    intros s Hs. split; intros Hw; [split; [|lra]|].
    + apply (Rmult_le_reg_r (y0 - y1)); [lra|]. lra.
    + assert (Y : (1 - q) * (y0 - y1) <= s * (y0 - y1)) by (apply Rmult_le_compat_r; lra). lra.
  - right. assert (Q : 0 <= (w - y0) / (y1 - y0)) by (apply ratio_nonneg; lra).
    exists 0, ((w - y0) / (y1 - y0)). rewrite F4 by lra.
    assert (X : (w - y0) / (y1 - y0) * (y1 - y0) = w - y0) by (field; lra).
    set (q := (w - y0) / (y1 - y0)) in *.
    assert (Hq : q < 1) by (apply (Rmult_lt_reg_r (y1 - y0)); lra). split; [lra|]. split; [lra|]. split; [lra|]. split; [lra|].
    intros s Hs. split; intros Hw; [split; [lra|]|].
    + apply (Rmult_le_reg_r (y1 - y0)); [lra|]. lra.
    + assert (Y : s * (y1 - y0) <= q * (y1 - y0)) by (apply Rmult_le_compat_r; lra). lra.
  - right. exists 0, 1. rewrite F2 by lra. split; [lra|]. split; [lra|]. split; [lra|]. split; [lra|].
    intros s Hs. split; intros Hw; [lra|]. replace (y0 + s * (y1 - y0)) with ((1 - s) * y0 + s * y1) by ring.
    assert (0 <= (1 - s) * (w - y0)) by (apply Rmult_le_pos; lra). assert (0 <= s * (w - y1)) by (apply Rmult_le_pos; lra). lra.
Qed.

(** (max 0 t)^2 / 2 has the derivative max 0 t. *)
Lemma continuity_same f h x : (forall t, f t = h t) -> continuity_pt f x -> continuity_pt h x.
Proof. intros E. apply (continuity_pt_locally_ext f h 1 x); [lra|auto]. Qed.
Lemma pos_cont : continuity part.
Proof.
  intros x. assert (E : forall t, (t + Rabs t) / 2 = part t) by (intros; symmetry; apply pos_abs).
  apply (continuity_same (fun t => (t + Rabs t) / 2)); [exact E|].
  change (continuity_pt ((id + Rabs) * fct_cte (/ 2))%F x).
  apply continuity_pt_mult; [|apply continuity_pt_const; intros ? ?; reflexivity].
  apply continuity_pt_plus; [apply derivable_continuous_pt; apply derivable_pt_id|apply Rcontinuity_abs].
Qed.
Lemma sq_pos_lim t : derivable_pt_lim (fun t => part t ^ 2 / 2) t (part t).
Proof.
  intros eps He. exists (mkposreal eps He). intros h Hh Hd. cbn in Hd.
  assert (B : Rabs (part (t + h) ^ 2 / 2 - part t ^ 2 / 2 - part t * h) <= h ^ 2 / 2).
  { unfold part, Rmax. destruct (Rle_dec 0 (t + h)); destruct (Rle_dec 0 t); apply Rabs_le; split; nra. }
  replace ((part (t + h) ^ 2 / 2 - part t ^ 2 / 2) / h - part t) with ((part (t + h) ^ 2 / 2 - part t ^ 2 / 2 - part t * h) / h) by (field; auto).
  unfold Rdiv at 1. rewrite Rabs_mult, Rabs_inv. apply Rle_lt_trans with (h ^ 2 / 2 * / Rabs h).
  - apply Rmult_le_compat_r; [left; apply Rinv_0_lt_compat; now apply Rabs_pos_lt|exact B].
  - replace (h ^ 2) with (Rabs h * Rabs h) by (rewrite <- Rabs_mult, Rabs_pos_eq; [ring|nra]).
    assert (Rabs h <> 0) by (apply Rabs_no_R0; auto). replace (Rabs h * Rabs h / 2 * / Rabs h) with (Rabs h / 2) by (field; auto).
    pose proof (Rabs_pos h). lra.
Qed.

Lemma lim_eq f x l l' : l = l' -> derivable_pt_lim f x l -> derivable_pt_lim f x l'.
Proof. now intros ->. Qed.
Lemma integral_of_derivative f F a b : a <= b -> continuity f -> (forall x, derivable_pt_lim F x (f x)) ->
  exists pr : Riemann_integrable f a b, RiemannInt pr = F b - F a.
Proof.
  intros Hab Hc HF.
  set (dF := fun x => exist (fun l => derivable_pt_lim F x l) (f x) (HF x) : derivable_pt F x).
  assert (Ed : forall x, derive F dF x = f x) by reflexivity.
  assert (Cd : continuity (derive F dF)) by (intros x; apply (continuity_same f); [intros; symmetry; apply Ed|apply Hc]).
  set (C := mkC1 (c1 := F) (diff0 := dF) Cd).
  pose proof (continuity_implies_RiemannInt Hab (fun x _ => Cd x)) as p1.
  pose proof (continuity_implies_RiemannInt Hab (fun x _ => Hc x)) as p2.
  exists p2. etransitivity; [|exact (FTC_Riemann C p1)]. apply RiemannInt_P18; [exact Hab|]. intros; symmetry; apply Ed.
Qed.

Lemma depth_is_mean w p0 p1 : mean_depth w p0 p1 (depth w (snd p0) (snd p1)).
Proof.
  destruct p0 as [x0 y0], p1 as [x1 y1]. unfold mean_depth, ground. cbn [fst snd].
  assert (Cf : continuity (fun s => Rmax 0 (w - (y0 + s * (y1 - y0))))).
  { intros s. apply (continuity_pt_comp (fun s => w - (y0 + s * (y1 - y0))) part); [|apply pos_cont]. apply derivable_continuous_pt. reg. }
  unfold depth. destruct (Reqb_spec y0 y1) as [E|E].
  - subst y1.
    destruct (integral_of_derivative (fun s => Rmax 0 (w - (y0 + s * (y0 - y0)))) (fun s => s * part (w - y0)) 0 1) as [pr Ep]; [lra|exact Cf| |].
    + intros x. replace (w - (y0 + x * (y0 - y0))) with (w - y0) by ring. fold (part (w - y0)).
      apply (lim_eq _ _ (1 * part (w - y0) + x * 0)); [ring|].
      apply (derivable_pt_lim_mult (fun s => s) (fun _ => part (w - y0))); [apply derivable_pt_lim_id|apply derivable_pt_lim_const].
    + exists pr. rewrite Ep. ring.
  - set (F := fun s => - / (y1 - y0) * (part (w - (y0 + s * (y1 - y0))) ^ 2 / 2)).
    destruct (integral_of_derivative (fun s => Rmax 0 (w - (y0 + s * (y1 - y0)))) F 0 1) as [pr Ep]; [lra|exact Cf| |].
    + intros x. fold (part (w - (y0 + x * (y1 - y0)))). set (u := part (w - (y0 + x * (y1 - y0)))).
      apply (lim_eq _ _ (- / (y1 - y0) * (u * (- (y1 - y0))))); [field; lra|].
      apply (derivable_pt_lim_scal (fun s => part (w - (y0 + s * (y1 - y0))) ^ 2 / 2) (- / (y1 - y0))).
      unfold u. apply (derivable_pt_lim_comp (fun s => w - (y0 + s * (y1 - y0))) (fun t => part t ^ 2 / 2) x); [|apply sq_pos_lim].
      apply (lim_eq _ _ (0 - (0 + (1 * (y1 - y0) + x * 0)))); [ring|].
      apply (derivable_pt_lim_minus (fun _ => w) (fun s => y0 + s * (y1 - y0))); [apply derivable_pt_lim_const|].
      apply (derivable_pt_lim_plus (fun _ => y0) (fun s => s * (y1 - y0))); [apply derivable_pt_lim_const|].
      apply (derivable_pt_lim_mult (fun s => s) (fun _ => y1 - y0)); [apply derivable_pt_lim_id|apply derivable_pt_lim_const].
    + exists pr. rewrite Ep. unfold F. replace (w - (y0 + 1 * (y1 - y0))) with (w - y1) by ring.
      replace (w - (y0 + 0 * (y1 - y0))) with (w - y0) by ring. field. lra.
Qed.

(** Dependence on the level. *)
Lemma fraction_range w y0 y1 : 0 <= fraction w y0 y1 <= 1.
Proof.
  destruct (fraction_cases w y0 y1) as (F1 & F2 & F3 & F4). destruct (Rlt_dec w y0); destruct (Rlt_dec w y1).
  - rewrite F1; lra.
  - rewrite F3 by lra. split; [apply ratio_nonneg; lra|]. apply (Rmult_le_reg_r (y0 - y1)); [lra|]. unfold Rdiv. rewrite Rmult_assoc, Rinv_l; lra.
  - rewrite F4 by lra. split; [apply ratio_nonneg; lra|]. apply (Rmult_le_reg_r (y1 - y0)); [lra|]. unfold Rdiv. rewrite Rmult_assoc, Rinv_l; lra.
  - rewrite F2; lra.
Qed.
Lemma fraction_mono w w' y0 y1 : w <= w' -> fraction w y0 y1 <= fraction w' y0 y1.
Proof.
  intros H. pose proof (fraction_range w y0 y1). pose proof (fraction_range w' y0 y1).
  destruct (fraction_cases w y0 y1) as (F1 & F2 & F3 & F4). destruct (fraction_cases w' y0 y1) as (G1 & G2 & G3 & G4).
  destruct (Rlt_dec w y0); destruct (Rlt_dec w y1).
  - rewrite F1; lra.
  - destruct (Rlt_dec w' y0); [|rewrite G2; lra]. rewrite F3, G3 by lra. apply Rmult_le_compat_r; [left; apply Rinv_0_lt_compat; lra|lra].
  - destruct (Rlt_dec w' y1); [|rewrite G2; lra]. rewrite F4, G4 by lra. apply Rmult_le_compat_r; [left; apply Rinv_0_lt_compat; lra|lra].
  - rewrite G2 by lra. lra.
Qed.
Lemma depth_lim w y0 y1 : ~ (y0 = w /\ y1 = w) -> derivable_pt_lim (fun w => depth w y0 y1) w (fraction w y0 y1).
Proof.
  intros Hn. unfold depth, fraction. destruct (Reqb_spec y0 y1) as [E|E].
  - subst y1. assert (w <> y0) by (intros ->; apply Hn; auto). intros eps He.
    assert (Hd : 0 < Rabs (w - y0)) by (apply Rabs_pos_lt; lra). exists (mkposreal _ Hd). intros h Hh Hl. cbn in Hl.
    destruct (Rleb_spec y0 w) as [L|L].
    + rewrite (Rabs_pos_eq (w - y0)) in Hl by lra. rewrite !pos_pos by (apply Rabs_def2 in Hl; lra).
      replace ((w + h - y0 - (w - y0)) / h - 1) with 0 by (field; auto). now rewrite Rabs_R0.
    + rewrite (Rabs_left (w - y0)) in Hl by lra. rewrite !pos_neg by (apply Rabs_def2 in Hl; lra).
      replace ((0 - 0) / h - 0) with 0 by (field; auto). now rewrite Rabs_R0.
  - assert (D : forall y, derivable_pt_lim (fun w => part (w - y) ^ 2 / 2) w (part (w - y))).
    { intros y. apply (lim_eq _ _ (part (w - y) * (1 - 0))); [ring|].
      apply (derivable_pt_lim_comp (fun s => s - y) (fun t => part t ^ 2 / 2) w); [|apply sq_pos_lim].
      apply (derivable_pt_lim_minus (fun s => s) (fun _ => y)); [apply derivable_pt_lim_id|apply derivable_pt_lim_const]. }
    assert (X := derivable_pt_lim_scal _ (/ (y1 - y0)) w _ (derivable_pt_lim_minus _ _ w _ _ (D y0) (D y1))).
    replace ((part (w - y0) - part (w - y1)) / (y1 - y0)) with (/ (y1 - y0) * (part (w - y0) - part (w - y1))) by (unfold Rdiv; ring).
    intros eps He. destruct (X eps He) as [d Hd]. exists d. intros h Hh Hl. specialize (Hd h Hh Hl).
    unfold mult_real_fct, minus_fct in Hd. 
    replace ((part (w + h - y0) ^ 2 - part (w + h - y1) ^ 2) / (2 * (y1 - y0)))
      with (/ (y1 - y0) * (part (w + h - y0) ^ 2 / 2 - part (w + h - y1) ^ 2 / 2)) by (field; lra).
    replace ((part (w - y0) ^ 2 - part (w - y1) ^ 2) / (2 * (y1 - y0)))
      with (/ (y1 - y0) * (part (w - y0) ^ 2 / 2 - part (w - y1) ^ 2 / 2)) by (field; lra). exact Hd.
Qed.

(** A rise of the level by d raises the mean depth by at most d, and by no less than the wet fraction times d. *)
Lemma depth_rise w w' y0 y1 : w <= w' -> (w' - w) * fraction w y0 y1 <= depth w' y0 y1 - depth w y0 y1 <= (w' - w) * fraction w' y0 y1.
Proof.
  intros H. unfold depth, fraction. destruct (Reqb_spec y0 y1) as [E|E].
  - unfold part, Rmax. destruct (Rleb_spec y0 w); destruct (Rleb_spec y0 w'); destruct (Rle_dec 0 (w - y0)); destruct (Rle_dec 0 (w' - y0)); lra.
  - assert (K : forall lo hi, lo < hi ->
      (w' - w) * ((part (w - lo) - part (w - hi)) / (hi - lo)) <=
      (part (w' - lo) ^ 2 - part (w' - hi) ^ 2) / (2 * (hi - lo)) - (part (w - lo) ^ 2 - part (w - hi) ^ 2) / (2 * (hi - lo)) <=
      (w' - w) * ((part (w' - lo) - part (w' - hi)) / (hi - lo))).
    { intros lo hi L.
      assert (K0 : 2 * (w' - w) * (part (w - lo) - part (w - hi)) <= part (w' - lo) ^ 2 - part (w' - hi) ^ 2 - (part (w - lo) ^ 2 - part (w - hi) ^ 2)
                   <= 2 * (w' - w) * (part (w' - lo) - part (w' - hi))).
      { unfold part, Rmax. destruct (Rle_dec 0 (w - lo)); destruct (Rle_dec 0 (w - hi)); destruct (Rle_dec 0 (w' - lo)); destruct (Rle_dec 0 (w' - hi));
          try lra; split; nra. }
      assert (P : 0 < / (2 * (hi - lo))) by (apply Rinv_0_lt_compat; lra).
      replace ((w' - w) * ((part (w - lo) - part (w - hi)) / (hi - lo)))
        with (2 * (w' - w) * (part (w - lo) - part (w - hi)) * / (2 * (hi - lo))) by (field; lra).
      replace ((w' - w) * ((part (w' - lo) - part (w' - hi)) / (hi - lo)))
        with (2 * (w' - w) * (part (w' - lo) - part (w' - hi)) * / (2 * (hi - lo))) by (field; lra).
      replace ((part (w' - lo) ^ 2 - part (w' - hi) ^ 2) / (2 * (hi - lo)) - (part (w - lo) ^ 2 - part (w - hi) ^ 2) / (2 * (hi - lo)))
        with ((part (w' - lo) ^ 2 - part (w' - hi) ^ 2 - (part (w - lo) ^ 2 - part (w - hi) ^ 2)) * / (2 * (hi - lo))) by (field; lra).
      split; apply Rmult_le_compat_r; lra. }
    destruct (Rlt_dec y0 y1) as [L|L]; [exact (K y0 y1 L)|].
    specialize (K y1 y0 ltac:(lra)).
    replace ((part (w - y0) - part (w - y1)) / (y1 - y0)) with ((part (w - y1) - part (w - y0)) / (y0 - y1)) by (field; lra).
    replace ((part (w' - y0) - part (w' - y1)) / (y1 - y0)) with ((part (w' - y1) - part (w' - y0)) / (y0 - y1)) by (field; lra).
    replace ((part (w' - y0) ^ 2 - part (w' - y1) ^ 2) / (2 * (y1 - y0))) with ((part (w' - y1) ^ 2 - part (w' - y0) ^ 2) / (2 * (y0 - y1))) by (field; lra).
    replace ((part (w - y0) ^ 2 - part (w - y1) ^ 2) / (2 * (y1 - y0))) with ((part (w - y1) ^ 2 - part (w - y0) ^ 2) / (2 * (y0 - y1))) by (field; lra).
    exact K.
Qed.
