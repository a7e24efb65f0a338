(** C59, C60: surveyed cross-sections and their tables. *)
From Coq Require Import Ranalysis RiemannInt.
From Verif Require Import Prelude M_Coeffs M_Numerics S_Numerics L_Interp M_Geometry M_Storage M_Recurrence M_Model S_Model
  P_Numerics P_Storage M_Transect S_Transect L_Transect.

(** ** Sums over the pieces *)
Fixpoint sums (v : point -> point -> R) (t : list point) : R :=
  match t with p0 :: ((p1 :: _) as t') => v p0 p1 + sums v t' | _ => 0 end.
Definition adjacent (t : list point) (p q : point) : Prop :=
  exists i, nth_error t i = Some p /\ nth_error t (S i) = Some q.
Lemma adjacent_tl a t p q : adjacent t p q -> adjacent (a :: t) p q.
Proof. intros (i & H1 & H2). exists (S i). auto. Qed.
Lemma adjacent_hd a b t : adjacent (a :: b :: t) a b.
Proof. exists O. auto. Qed.

Lemma over_sums f v t : (forall p q, adjacent t p q -> f p q = Some (v p q)) ->
  forall acc, over_pieces f acc t = Some (acc + sums v t).
Proof.
  induction t as [|p [|q t] IH]; intros H acc; cbn [over_pieces sums]; try (f_equal; ring).
  rewrite (H p q) by apply adjacent_hd. cbn [bind].
  change (over_pieces f (acc + v p q) (q :: t) = Some (acc + (v p q + sums v (q :: t)))).
  rewrite IH by (intros; apply H; apply adjacent_tl; auto). f_equal. ring.
Qed.
Lemma sums_total (V : point -> point -> R -> Prop) v t : (forall p q, adjacent t p q -> V p q (v p q)) -> total V t (sums v t).
Proof.
  induction t as [|p [|q t] IH]; intros H; [apply total_none|apply total_point|].
  change (sums v (p :: q :: t)) with (v p q + sums v (q :: t)). apply total_piece; [apply H; apply adjacent_hd|].
  apply IH. intros; apply H; apply adjacent_tl; auto.
Qed.
Lemma sums_le u v t : (forall p q, adjacent t p q -> u p q <= v p q) -> sums u t <= sums v t.
Proof.
  induction t as [|p [|q t] IH]; intros H; try (cbn; lra).
  change (u p q + sums u (q :: t) <= v p q + sums v (q :: t)).
  pose proof (H p q (adjacent_hd _ _ _)). assert (sums u (q :: t) <= sums v (q :: t)) by (apply IH; intros; apply H; apply adjacent_tl; auto). lra.
Qed.
Lemma sums_lin a b u v t : sums (fun p q => a * u p q + b * v p q) t = a * sums u t + b * sums v t.
Proof.
  induction t as [|p [|q t] IH]; try (cbn; ring).
  change (a * u p q + b * v p q + sums (fun p q => a * u p q + b * v p q) (q :: t) = a * (u p q + sums u (q :: t)) + b * (v p q + sums v (q :: t))).
  rewrite IH. ring.
Qed.
Lemma sums_eq u v t : (forall p q, adjacent t p q -> u p q = v p q) -> sums u t = sums v t.
Proof. intros H. apply Rle_antisym; apply sums_le; intros; rewrite H by auto; lra. Qed.
Lemma sums_zero v t : (forall p q, adjacent t p q -> v p q = 0) -> sums v t = 0.
Proof. intros H. rewrite (sums_eq v (fun p q => 0 * 0 + 0 * 0)) by (intros; rewrite H by auto; ring). rewrite (sums_lin 0 0 (fun _ _ => 0) (fun _ _ => 0)). ring. Qed.
Lemma sums_pos v t p q : (forall p q, adjacent t p q -> 0 <= v p q) -> adjacent t p q -> 0 < v p q -> 0 < sums v t.
Proof.
  revert p q. induction t as [|a [|b t] IH]; intros p q H (i & H1 & H2) Hv; [destruct i; discriminate|destruct i as [|[]]; discriminate|].
  change (0 < v a b + sums v (b :: t)). pose proof (H a b (adjacent_hd _ _ _)).
  assert (Hn : 0 <= sums v (b :: t)).
  { rewrite <- (sums_zero (fun _ _ => 0) (b :: t)) by auto. apply sums_le. intros; apply H; apply adjacent_tl; auto. }
  destruct i as [|i].
  - cbn in H1, H2. injection H1 as ->. injection H2 as ->. lra.
  - assert (0 < sums v (b :: t)); [|lra]. apply (IH p q); [intros; apply H; apply adjacent_tl; auto|exists i; auto|auto].
Qed.
Lemma sums_run : forall t p q, nth_error t 0 = Some p -> nth_error t (length t - 1) = Some q -> sums run t = fst q - fst p.
Proof.
  induction t as [|a [|b t] IH]; intros p q Hp Hq; [discriminate|cbn in *; assert (p = q) by congruence; subst; ring|].
  change (run a b + sums run (b :: t) = fst q - fst p). cbn in Hp. injection Hp as ->.
  rewrite (IH b q); auto. - unfold run. ring. - cbn [length] in *. replace (S (S (length t)) - 1)%nat with (S (length t)) in Hq by lia.
    replace (S (length t) - 1)%nat with (length t) by lia. exact Hq.
Qed.
Lemma sums_lim (F : R -> point -> point -> R) (dF : point -> point -> R) w t :
  (forall p q, adjacent t p q -> derivable_pt_lim (fun w => F w p q) w (dF p q)) ->
  derivable_pt_lim (fun w => sums (F w) t) w (sums dF t).
Proof.
  induction t as [|p [|q t] IH]; intros H; try (apply derivable_pt_lim_const).
  change (derivable_pt_lim ((fun w => F w p q) + (fun w => sums (F w) (q :: t)))%F w (dF p q + sums dF (q :: t))).
  apply derivable_pt_lim_plus; [apply H; apply adjacent_hd|]. apply IH. intros; apply H; apply adjacent_tl; auto.
Qed.

(** ** Values of the three functions *)
Definition vA (w : R) (p q : point) : R := run p q * depth w (snd p) (snd q).
Definition vB (w : R) (p q : point) : R := run p q * fraction w (snd p) (snd q).
Definition vP (w : R) (p q : point) : R := length_of p q * fraction w (snd p) (snd q).
Lemma ltr_run t p q : left_to_right t -> adjacent t p q -> 0 <= run p q.
Proof. intros H (i & H1 & H2). unfold run. pose proof (H i p q H1 H2). lra. Qed.
Lemma A_value w t : left_to_right t -> Transect_A_ik w t = Some (sums (vA w) t).
Proof.
  intros H. unfold Transect_A_ik. rewrite (over_sums _ (vA w)); [f_equal; ring|]. intros; apply piece_A_value; eapply ltr_run; eauto.
Qed.
Lemma B_value w t : Transect_B_ik w t = Some (sums (vB w) t).
Proof. unfold Transect_B_ik. rewrite (over_sums _ (vB w)); [f_equal; ring|]. intros; apply piece_B_value. Qed.
Lemma P_value w t : Transect_Pe_ik w t = Some (sums (vP w) t).
Proof. unfold Transect_Pe_ik. rewrite (over_sums _ (vP w)); [f_equal; ring|]. intros; apply piece_Pe_value. Qed.
Lemma A_water w t : water_area w t (sums (vA w) t).
Proof. apply sums_total. intros p q _. exists (depth w (snd p) (snd q)). split; [apply depth_is_mean|reflexivity]. Qed.
Lemma B_water w t : water_width w t (sums (vB w) t).
Proof. apply sums_total. intros p q _. exists (fraction w (snd p) (snd q)). split; [apply fraction_is_wet|reflexivity]. Qed.
Lemma P_water w t : wetted_length w t (sums (vP w) t).
Proof. apply sums_total. intros p q _. exists (fraction w (snd p) (snd q)). split; [apply fraction_is_wet|reflexivity]. Qed.

Lemma fraction_pos w y0 y1 : y0 < w \/ y1 < w -> 0 < fraction w y0 y1.
Proof.
  intros H. destruct (fraction_cases w y0 y1) as (F1 & F2 & F3 & F4). destruct (Rlt_dec w y0); destruct (Rlt_dec w y1); try lra.
  - rewrite F3 by lra. apply Rdiv_lt_0_compat; lra.
  - rewrite F4 by lra. apply Rdiv_lt_0_compat; lra.
Qed.
Lemma sq_pos x : 0 < x -> 0 < x ^ 2. Proof. intros; nra. Qed.
Lemma depth_pos w y0 y1 : y0 < w \/ y1 < w -> 0 < depth w y0 y1.
Proof.
  intros H. destruct (depth_cases w y0 y1) as (F1 & F2 & F3 & F4). destruct (Rlt_dec w y0); destruct (Rlt_dec w y1); try lra.
  - rewrite F3 by lra. apply Rdiv_lt_0_compat; [apply sq_pos|]; lra.
  - rewrite F4 by lra. apply Rdiv_lt_0_compat; [apply sq_pos|]; lra.
Qed.
Lemma depth_dry w y0 y1 : w <= y0 -> w <= y1 -> depth w y0 y1 = 0.
Proof. intros. unfold depth. posc. destruct (Reqb_spec y0 y1); [reflexivity|]. unfold Rdiv. ring. Qed.
Lemma depth_nonneg w y0 y1 : 0 <= depth w y0 y1.
Proof. destruct (Rlt_dec y0 w); [left; apply depth_pos; auto|]. destruct (Rlt_dec y1 w); [left; apply depth_pos; auto|]. rewrite depth_dry; lra. Qed.
Lemma length_pos p q : run p q <> 0 -> 0 < length_of p q.
Proof. unfold run, length_of. intros H. apply sqrt_lt_R0. assert (0 < (fst q - fst p) ^ 2) by (rewrite <- Rsqr_pow2; apply Rsqr_pos_lt; auto). pose proof (pow2_ge_0 (snd q - snd p)). lra. Qed.

(** *** C59 *)

(** Area, top width and wetted perimeter of a survey that runs from left to right are, at every level, those of the water
    standing over the polyline: sums of depth integrals, wet widths and wet lengths of the pieces. *)
Theorem C59_section_quantities : forall w t, left_to_right t ->
  exists a b pe, Transect_A_ik w t = Some a /\ Transect_B_ik w t = Some b /\ Transect_Pe_ik w t = Some pe /\
    water_area w t a /\ water_width w t b /\ wetted_length w t pe.
Proof.
  intros w t H. exists (sums (vA w) t), (sums (vB w) t), (sums (vP w) t).
  split; [now apply A_value|]. split; [apply B_value|]. split; [apply P_value|].
  split; [apply A_water|]. split; [apply B_water|apply P_water].
Qed.

(** They never shrink when the water rises; the area grows by at least the lower and at most the upper width per metre. *)
Theorem C59_rise : forall w w' t a a' b b' pe pe', left_to_right t -> w <= w' ->
  Transect_A_ik w t = Some a -> Transect_A_ik w' t = Some a' ->
  Transect_B_ik w t = Some b -> Transect_B_ik w' t = Some b' ->
  Transect_Pe_ik w t = Some pe -> Transect_Pe_ik w' t = Some pe' ->
  (w' - w) * b <= a' - a <= (w' - w) * b' /\ 0 <= b <= b' /\ 0 <= pe <= pe' /\ 0 <= a <= a'.
Proof.
  intros w w' t a a' b b' pe pe' Ht Hw. rewrite !A_value, !B_value, !P_value by auto.
  intros Ea Ea' Eb Eb' Ep Ep'. injection Ea as <-. injection Ea' as <-. injection Eb as <-. injection Eb' as <-. injection Ep as <-. injection Ep' as <-.
  assert (Hr : forall p q, adjacent t p q -> 0 <= run p q) by (intros; eapply ltr_run; eauto).
  assert (Hl : forall p q : point, 0 <= length_of p q) by (intros; apply sqrt_pos).
  assert (Z : sums (fun _ _ => 0) t = 0) by (apply sums_zero; auto).
  assert (B1 : 0 <= sums (vB w) t) by (rewrite <- Z; apply sums_le; intros p q Hp; apply Rmult_le_pos; [auto|apply fraction_range]).
  assert (K1 : (w' - w) * sums (vB w) t <= sums (vA w') t - sums (vA w) t).
  { assert (sums (fun p q => (w' - w) * vB w p q + 1 * vA w p q) t <= sums (vA w') t); [|rewrite sums_lin in *; lra].
    apply sums_le. intros p q Hp. unfold vA, vB. pose proof (depth_rise w w' (snd p) (snd q) Hw) as [L _].
    apply (Rmult_le_compat_l _ _ _ (Hr p q Hp)) in L. lra. }
  split; [split; [exact K1|]|split; [split|split; split]].
  - assert (sums (vA w') t <= sums (fun p q => (w' - w) * vB w' p q + 1 * vA w p q) t); [|rewrite sums_lin in *; lra].
    apply sums_le. intros p q Hp. unfold vA, vB. pose proof (depth_rise w w' (snd p) (snd q) Hw) as [_ L].
    apply (Rmult_le_compat_l _ _ _ (Hr p q Hp)) in L. lra.
  - exact B1.
  - apply sums_le. intros p q Hp. apply Rmult_le_compat_l; [auto|]. now apply fraction_mono.
  - rewrite <- Z. apply sums_le. intros p q Hp. apply Rmult_le_pos; [apply Hl|apply fraction_range].
  - apply sums_le. intros p q Hp. apply Rmult_le_compat_l; [apply Hl|]. now apply fraction_mono.
  - rewrite <- Z. apply sums_le. intros p q Hp. apply Rmult_le_pos; [auto|apply depth_nonneg].
  - pose proof (Rmult_le_pos (w' - w) _ ltac:(lra) B1). lra.
Qed.

(** The width never exceeds the width of the survey, and is all of it above the highest point. *)
Theorem C59_width_of_survey : forall w t b p q, left_to_right t -> Transect_B_ik w t = Some b ->
  nth_error t 0 = Some p -> nth_error t (length t - 1) = Some q ->
  b <= fst q - fst p /\ ((forall v, In v t -> snd v <= w) -> b = fst q - fst p).
Proof.
  intros w t b p q Ht. rewrite B_value. intros E Hp Hq. injection E as <-. rewrite <- (sums_run t p q Hp Hq). split.
  - apply sums_le. intros u v H. unfold vB. pose proof (ltr_run t u v Ht H). pose proof (fraction_range w (snd u) (snd v)).
    assert (run u v * fraction w (snd u) (snd v) <= run u v * 1) by (apply Rmult_le_compat_l; lra). lra.
  - intros Ha. apply sums_eq. intros u v (i & H1 & H2). unfold vB. destruct (fraction_cases w (snd u) (snd v)) as (_ & F & _).
    rewrite F; [ring| |]; apply Ha; eapply nth_error_In; eauto.
Qed.

(** No water below the survey: the area is zero. *)
Theorem C59_dry_below_survey : forall w t, left_to_right t -> (forall v, In v t -> w <= snd v) -> Transect_A_ik w t = Some 0.
Proof.
  intros w t Ht H. rewrite A_value by auto. f_equal. apply sums_zero. intros u v (i & H1 & H2). unfold vA.
  rewrite depth_dry; [ring| |]; apply H; eapply nth_error_In; eauto.
Qed.
(** Water above some surveyed point: all three quantities are positive (no two surveyed points on a vertical line). *)
Lemma vertex_adjacent t v : (2 <= length t)%nat -> In v t -> exists p q, adjacent t p q /\ (v = p \/ v = q).
Proof.
  intros L H. apply In_nth_error in H as [i Hi]. assert (i < length t)%nat by (apply nth_error_Some; congruence).
  destruct i as [|i].
  - destruct (nth_error t 1) as [q|] eqn:Eq; [|apply nth_error_None in Eq; lia]. exists v, q. split; [exists O; auto|auto].
  - destruct (nth_error t i) as [p|] eqn:Ep; [|apply nth_error_None in Ep; lia]. exists p, v. split; [exists i; auto|auto].
Qed.
Lemma strictly_ltr t : strictly_left_to_right t -> left_to_right t.
Proof. intros H i p q H1 H2. left. eapply H; eauto. Qed.
Lemma wet_positive w t v : strictly_left_to_right t -> (2 <= length t)%nat -> In v t -> snd v < w ->
  0 < sums (vA w) t /\ 0 < sums (vB w) t /\ 0 < sums (vP w) t.
Proof.
  intros Ht L Hv Hw. destruct (vertex_adjacent t v L Hv) as (p & q & Ha & E).
  assert (Hr : forall p q, adjacent t p q -> 0 < run p q) by (intros a b (i & H1 & H2); unfold run; pose proof (Ht i a b H1 H2); lra).
  assert (Hl : forall p q, adjacent t p q -> 0 < length_of p q) by (intros; apply length_pos; specialize (Hr _ _ H); lra).
  assert (D : snd p < w \/ snd q < w) by (destruct E; subst; auto).
  split; [|split]; apply (sums_pos _ t p q); auto.
  - intros a b H. apply Rmult_le_pos; [left; auto|apply depth_nonneg].
  - apply Rmult_lt_0_compat; [auto|now apply depth_pos].
  - intros a b H. apply Rmult_le_pos; [left; auto|apply fraction_range].
  - apply Rmult_lt_0_compat; [auto|now apply fraction_pos].
  - intros a b H. apply Rmult_le_pos; [left; auto|apply fraction_range].
  - apply Rmult_lt_0_compat; [auto|now apply fraction_pos].
Qed.
Theorem C59_positive_above_a_point : forall w t v a b pe, strictly_left_to_right t -> (2 <= length t)%nat -> In v t -> snd v < w ->
  Transect_A_ik w t = Some a -> Transect_B_ik w t = Some b -> Transect_Pe_ik w t = Some pe -> 0 < a /\ 0 < b /\ 0 < pe.
Proof.
  intros w t v a b pe Ht L Hv Hw. rewrite A_value, B_value, P_value by now apply strictly_ltr.
  intros E1 E2 E3. injection E1 as <-. injection E2 as <-. injection E3 as <-. eapply wet_positive; eauto.
Qed.

(** The top width is the rate at which the area grows with the level (except at the level of a horizontal piece, where the
    width jumps). *)
Theorem C59_width_is_growth_of_area : forall A w t b, left_to_right t -> no_flat_piece w t ->
  (forall w, Transect_A_ik w t = Some (A w)) -> Transect_B_ik w t = Some b -> derivable_pt_lim A w b.
Proof.
  intros A w t b Ht Hn HA HB. rewrite B_value in HB. injection HB as <-.
  assert (L : derivable_pt_lim (fun w => sums (vA w) t) w (sums (vB w) t)).
  { apply sums_lim. intros p q (i & H1 & H2). unfold vA, vB. apply (derivable_pt_lim_scal (fun w => depth w (snd p) (snd q))).
    apply depth_lim. eapply Hn; eauto. }
  assert (E : forall w, sums (vA w) t = A w) by (intros x; specialize (HA x); rewrite A_value in HA by auto; congruence).
  intros eps He. destruct (L eps He) as [d Hd]. exists d. intros h Hh Hl. specialize (Hd h Hh Hl). rewrite !E in Hd. exact Hd.
Qed.

Definition ditch : list point := [(0, 2); (2, 0); (3, 0); (5, 1)].
Lemma ditch_ltr : strictly_left_to_right ditch.
Proof. intros [|[|[|[|[]]]]] p q; cbn; intros H1 H2; inversion H1; inversion H2; cbn; lra. Qed.
Example C59_ditch : strictly_left_to_right ditch /\ no_flat_piece 1 ditch /\
  Transect_A_ik 1 ditch = Some (5 / 2) /\ Transect_B_ik 1 ditch = Some 4 /\ Transect_B_ik (1/2) ditch = Some (5 / 2).
Proof.
  split; [exact ditch_ltr|]. split.
  { intros [|[|[|[|[]]]]] p q; cbn; intros H1 H2 [E1 E2]; inversion H1; inversion H2; subst; cbn in *; lra. }
  rewrite A_value, !B_value by (apply strictly_ltr, ditch_ltr).
  unfold ditch, sums, vA, vB, run. cbn [fst snd].
  destruct (depth_cases 1 2 0) as (_ & _ & D1 & _). destruct (depth_cases 1 0 0) as (_ & D2 & _). destruct (depth_cases 1 0 1) as (_ & D3 & _).
  destruct (fraction_cases 1 2 0) as (_ & _ & E1 & _). destruct (fraction_cases 1 0 0) as (_ & E2 & _). destruct (fraction_cases 1 0 1) as (_ & E3 & _).
  destruct (fraction_cases (1/2) 2 0) as (_ & _ & F1 & _). destruct (fraction_cases (1/2) 0 0) as (_ & F2 & _). destruct (fraction_cases (1/2) 0 1) as (_ & _ & _ & F3).
  rewrite D1, D2, D3, E1, E2, E3, F1, F2, F3 by lra. split; [|split]; f_equal; field.
Qed.

(** *** C60: the tables *)
Lemma linspace_nth top n i : (2 <= n)%nat -> (i < n)%nat -> nth_error (linspace0 top n) i = Some (INR i * (top / INR (n - 1))).
Proof.
  intros Hn Hi. unfold linspace0. destruct (Nat.eqb_spec n 1); [lia|]. rewrite nth_error_map.
  rewrite (nth_error_nth' _ O) by (rewrite seq_length; auto). rewrite seq_nth by auto. reflexivity.
Qed.
Lemma linspace_length top n : length (linspace0 top n) = n.
Proof. unfold linspace0. now rewrite map_length, seq_length. Qed.
Lemma linspace_inv top n i w : (2 <= n)%nat -> nth_error (linspace0 top n) i = Some w -> (i < n)%nat /\ w = INR i * (top / INR (n - 1)).
Proof.
  intros Hn E. assert (i < n)%nat by (rewrite <- (linspace_length top n); apply nth_error_Some; congruence).
  rewrite linspace_nth in E by auto. split; [auto|congruence].
Qed.
Lemma step_pos top n : (2 <= n)%nat -> 0 < top -> 0 < top / INR (n - 1).
Proof. intros. apply Rdiv_lt_0_compat; auto. apply lt_0_INR. lia. Qed.
Lemma linspace_ascending top n : (2 <= n)%nat -> 0 < top -> ascending (linspace0 top n).
Proof.
  intros Hn Ht i j a b Hij Ha Hb. apply linspace_inv in Ha as [? ->]; auto. apply linspace_inv in Hb as [? ->]; auto.
  apply Rmult_lt_compat_r; [now apply step_pos|]. now apply lt_INR.
Qed.
Lemma linspace_last top n : (2 <= n)%nat -> nth_error (linspace0 top n) (length (linspace0 top n) - 1) = Some top.
Proof.
  intros Hn. rewrite linspace_length, linspace_nth by lia. f_equal. field. apply not_0_INR. lia.
Qed.
Lemma all_values_map f v ws : (forall w, f w = Some (v w)) -> all_values f ws = Some (map v ws).
Proof. intros H. induction ws as [|w ws IH]; cbn; [reflexivity|]. rewrite H. cbn [bind]. rewrite IH. reflexivity. Qed.
Lemma combine_map {X Y Z} (u : X -> Y) (v : X -> Z) l : combine (map u l) (map v l) = map (fun x => (u x, v x)) l.
Proof. induction l as [|x l IH]; cbn; [auto|]. now rewrite IH. Qed.

Section Tables.
Variables (t : list point) (n : nat) (top : R).
Hypotheses (Ht : left_to_right t) (Hn : (2 <= n)%nat) (Hin : In top (map snd t)) (Hmax : forall y, In y (map snd t) -> y <= top).
Definition levels := linspace0 top n.
Definition table_of := Irregular levels (map (fun w => sums (vA w) t) levels) (map (fun w => sums (vB w) t) levels)
  (map (fun w => sums (vP w) t) levels) (map (fun w => safe_divide (sums (vA w) t) (sums (vP w) t)) levels).
Lemma top_is : lmax (map snd t) = top.
Proof.
  assert (map snd t <> []) by (intros E; rewrite E in Hin; destruct Hin).
  apply Rle_antisym; [apply Hmax, lmax_in; auto|now apply lmax_ge].
Qed.
Lemma tables_are : transect_tables t n = Some table_of.
Proof.
  unfold transect_tables. destruct t as [|p t'] eqn:E; [destruct Hin|]. rewrite <- E in *. clear E. rewrite top_is. fold levels.
  rewrite (all_values_map _ (fun w => sums (vA w) t)) by (intros; now apply A_value). cbn [bind].
  rewrite (all_values_map _ (fun w => sums (vB w) t)) by (intros; apply B_value). cbn [bind].
  rewrite (all_values_map _ (fun w => sums (vP w) t)) by (intros; apply P_value). cbn [bind].
  unfold table_of. do 2 f_equal. rewrite combine_map, map_map. reflexivity.
Qed.
End Tables.

(** The table built from a survey whose lowest point is at 0 fits the section (the hypothesis on surveyed sections under
    which no run ever fails, C58): positive area, width and hydraulic radius at every level above the bottom. *)
Theorem C60_table_conveys : forall t n, strictly_left_to_right t -> (2 <= length t)%nat -> (2 <= n)%nat ->
  (forall v, In v t -> 0 <= snd v) -> (exists v, In v t /\ snd v = 0) -> (exists v, In v t /\ 0 < snd v) ->
  exists c, transect_tables t n = Some c /\ conveying c.
Proof.
  intros t n Hs L Hn H0 (v & Hv & Ev) (u & Hu & Eu).
  assert (Hne : map snd t <> []) by (destruct t; [destruct Hv|discriminate]).
  set (top := lmax (map snd t)). assert (Hin : In top (map snd t)) by now apply lmax_in.
  assert (Hm : forall y, In y (map snd t) -> y <= top) by (intros; now apply lmax_ge).
  assert (Htop : 0 < top) by (pose proof (Hm (snd u) (in_map snd _ _ Hu)); lra).
  exists (table_of t n top). split; [apply tables_are; auto using strictly_ltr|].
  unfold table_of, conveying. rewrite !map_length. unfold levels.
  split; [now apply linspace_ascending|]. split; [rewrite linspace_length; auto|].
  split. { rewrite linspace_nth by lia. cbn. f_equal. ring. }
  do 4 (split; [reflexivity|]).
  assert (Z : forall w, 0 <= sums (vA w) t /\ 0 <= sums (vB w) t /\ 0 <= sums (vP w) t).
  { intros w. pose proof (C59_rise w w t _ _ _ _ _ _ (strictly_ltr t Hs) (Rle_refl w) (A_value w t (strictly_ltr t Hs)) (A_value w t (strictly_ltr t Hs))
      (B_value w t) (B_value w t) (P_value w t) (P_value w t)). lra. }
  assert (Pw : forall i w, nth_error (linspace0 top n) i = Some w -> (0 < i)%nat -> 0 < sums (vA w) t /\ 0 < sums (vB w) t /\ 0 < sums (vP w) t).
  { intros i w E Hi. apply linspace_inv in E as [Hi' ->]; auto. apply (wet_positive _ t v); auto. rewrite Ev.
    apply Rmult_lt_0_compat; [now apply lt_0_INR|now apply step_pos]. }
  assert (Q : forall f : R -> R, (forall w, 0 <= f w) -> (forall i w, nth_error (linspace0 top n) i = Some w -> (0 < i)%nat -> 0 < f w) ->
    positive_above_bottom (map f (linspace0 top n))).
  { intros f F1 F2 i x E. rewrite nth_error_map in E. destruct (nth_error (linspace0 top n) i) as [w|] eqn:Ew; [|discriminate].
    cbn in E. injection E as <-. split; [apply F1|eauto]. }
  split; [|split]; apply Q; intros; try apply Z; try (eapply Pw; eauto; fail).
  - unfold safe_divide. destruct (Reqb_spec (sums (vP w) t) 0); [lra|]. apply ratio_nonneg; [apply Z|]. pose proof (Z w). lra.
  - destruct (Pw i w) as (P1 & _ & P3); auto. unfold safe_divide. destruct (Reqb_spec (sums (vP w) t) 0); [lra|]. now apply Rdiv_lt_0_compat.
Qed.
Example C60_ditch_conveys : exists c, transect_tables ditch 100 = Some c /\ conveying c.
Proof.
  apply C60_table_conveys; [exact ditch_ltr|cbn; lia|lia| | |].
  - cbn. intros v [<-|[<-|[<-|[<-|[]]]]]; cbn; lra.
  - exists (2, 0). cbn. auto.
  - exists (0, 2). cbn. split; [auto|lra].
Qed.

(** The cell of the table that contains a level. *)
Lemma cell_exists d m h : 0 < d -> (1 <= m)%nat -> 0 <= h <= INR m * d -> exists i, (i < m)%nat /\ INR i * d <= h <= INR (S i) * d.
Proof.
  intros Hd Hm Hh. induction m as [|m IH]; [lia|]. destruct (Rle_dec h (INR m * d)) as [C|C].
  - destruct m as [|m]; [exists O; split; [lia|cbn in *; lra]|]. destruct IH as (i & Hi & B); [lia|lra|]. exists i. split; [lia|auto].
  - exists m. split; [lia|]. lra.
Qed.

(** The area used by the simulation never falls short of the surveyed area, and exceeds it by at most a quarter of the table
    step times the width of the survey: refining [sample_points] makes the table exact.  Above the highest surveyed point the
    area, width and radius stay those at the highest point. *)
Lemma quarter l : 0 <= l <= 1 -> l * (1 - l) <= / 4.
Proof. intros. assert (0 <= (l - / 2) ^ 2) by apply pow2_ge_0. nra. Qed.

Theorem C60_area_of_table : forall t n top p q c h0 h1 old gm, left_to_right t -> (2 <= n)%nat -> 0 < top ->
  In top (map snd t) -> (forall y, In y (map snd t) -> y <= top) ->
  nth_error t 0 = Some p -> nth_error t (length t - 1) = Some q ->
  transect_tables t n = Some c -> section_geometry c h0 h1 old = Some gm -> 0 <= (h0 + h1) / 2 <= top ->
  exists a, water_area ((h0 + h1) / 2) t a /\
    a <= gm_A gm <= a + top / INR (n - 1) * (fst q - fst p) / 4.
Proof.
  intros t n top p q c h0 h1 old gm Ht Hn Htop Hin Hm Hp Hq Ec Eg Hh. set (h := (h0 + h1) / 2) in *.
  exists (sums (vA h) t). split; [apply A_water|].
  rewrite (tables_are t n top) in Ec by auto. injection Ec as <-. unfold table_of, section_geometry in Eg. fold h in Eg. unfold levels in Eg.
  set (d := top / INR (n - 1)) in *. assert (Hd : 0 < d) by (apply step_pos; auto).
  destruct (cell_exists d (n - 1) h Hd) as (i & Hi & Hc); [lia| |].
  { replace (INR (n - 1) * d) with top; [auto|]. unfold d. field. apply not_0_INR. lia. }
  set (w0 := INR i * d) in *. set (w1 := INR (S i) * d) in *. assert (Ew : w1 = w0 + d) by (unfold w0, w1; rewrite S_INR; ring).
  assert (Ea : interpolate_sample h (linspace0 top n) (map (fun w => sums (vA w) t) (linspace0 top n)) 1 =
    Some (sums (vA w0) t + (sums (vA w1) t - sums (vA w0) t) / (w1 - w0) * (h - w0))).
  { assert (E0 : nth_error (linspace0 top n) i = Some w0) by (unfold w0, d; apply linspace_nth; lia).
    assert (E1 : nth_error (linspace0 top n) (S i) = Some w1) by (unfold w1, d; apply linspace_nth; lia).
    eapply C02_affine_between_knots; eauto; try (rewrite nth_error_map, ?E0, ?E1; reflexivity).
    - apply linspace_ascending; auto. - apply map_length. }
  rewrite Ea in Eg. cbn [bind] in Eg.
  destruct (interpolate_sample h (linspace0 top n) (map (fun w => sums (vB w) t) (linspace0 top n)) 1) as [b|]; [|discriminate]. cbn [bind] in Eg.
  destruct (interpolate_sample h (linspace0 top n) (map (fun w => sums (vP w) t) (linspace0 top n)) 1) as [pe|]; [|discriminate]. cbn [bind] in Eg.
  destruct (interpolate_sample h (linspace0 top n) (map (fun w => safe_divide (sums (vA w) t) (sums (vP w) t)) (linspace0 top n)) 1) as [r|]; [|discriminate].
  cbn [bind] in Eg. injection Eg as <-. cbn [gm_A].
  pose proof (C59_rise w0 h t _ _ _ _ _ _ Ht ltac:(lra) (A_value w0 t Ht) (A_value h t Ht) (B_value w0 t) (B_value h t) (P_value w0 t) (P_value h t)) as (R0 & _).
  pose proof (C59_rise h w1 t _ _ _ _ _ _ Ht ltac:(lra) (A_value h t Ht) (A_value w1 t Ht) (B_value h t) (B_value w1 t) (P_value h t) (P_value w1 t)) as (R1 & _).
  pose proof (C59_rise w0 w1 t _ _ _ _ _ _ Ht ltac:(lra) (A_value w0 t Ht) (A_value w1 t Ht) (B_value w0 t) (B_value w1 t) (P_value w0 t) (P_value w1 t)) as (_ & RB & _).
  destruct (C59_width_of_survey w1 t _ p q Ht (B_value w1 t) Hp Hq) as [RW _].
  set (A0 := sums (vA w0) t) in *. set (A1 := sums (vA w1) t) in *. set (Ah := sums (vA h) t) in *.
  set (B0 := sums (vB w0) t) in *. set (B1 := sums (vB w1) t) in *. set (Bh := sums (vB h) t) in *.
  set (l := (h - w0) / d). assert (El : h - w0 = l * d) by (unfold l; field; lra).
  assert (Er : w1 - h = (1 - l) * d) by lra.
  assert (Hl : 0 <= l <= 1).
  { split; apply (Rmult_le_reg_r d); lra. }
  replace (A0 + (A1 - A0) / (w1 - w0) * (h - w0)) with ((1 - l) * A0 + l * A1) by (rewrite El, Ew; field; lra).
  assert (U0 : (1 - l) * (Ah - A0) <= (1 - l) * ((h - w0) * Bh)) by (apply Rmult_le_compat_l; lra).
  assert (V0 : (1 - l) * ((h - w0) * B0) <= (1 - l) * (Ah - A0)) by (apply Rmult_le_compat_l; lra).
  assert (U1 : l * (A1 - Ah) <= l * ((w1 - h) * B1)) by (apply Rmult_le_compat_l; lra).
  assert (V1 : l * ((w1 - h) * Bh) <= l * (A1 - Ah)) by (apply Rmult_le_compat_l; lra).
  rewrite El in U0, V0. rewrite Er in U1, V1. split; [lra|].
  assert (W : (l * (1 - l)) * (d * (B1 - B0)) <= / 4 * (d * (fst q - fst p))).
  { apply Rmult_le_compat; [apply Rmult_le_pos; lra|apply Rmult_le_pos; lra|now apply quarter|apply Rmult_le_compat_l; lra]. }
  lra.
Qed.

Theorem C60_above_survey : forall t n top c h0 h1 old gm, left_to_right t -> (2 <= n)%nat -> 0 < top ->
  In top (map snd t) -> (forall y, In y (map snd t) -> y <= top) ->
  transect_tables t n = Some c -> section_geometry c h0 h1 old = Some gm -> top <= (h0 + h1) / 2 ->
  water_area top t (gm_A gm) /\ water_width top t (gm_B gm) /\ wetted_length top t (gm_Pe gm).
Proof.
  intros t n top c h0 h1 old gm Ht Hn Htop Hin Hm Ec Eg Hh. set (h := (h0 + h1) / 2) in *.
  rewrite (tables_are t n top) in Ec by auto. injection Ec as <-. unfold table_of, section_geometry in Eg. fold h in Eg. unfold levels in Eg.
  assert (K : forall f : R -> R, interpolate_sample h (linspace0 top n) (map f (linspace0 top n)) 1 = Some (f top)).
  { intros f. assert (El : nth_error (map f (linspace0 top n)) (length (linspace0 top n) - 1) = Some (f top)) by (rewrite nth_error_map, linspace_last; auto).
    destruct (Req_dec h top) as [->|Hne].
    - eapply C02_exact_at_knots; eauto using linspace_last. apply linspace_ascending; auto. apply map_length.
    - rewrite <- El, <- (map_length f (linspace0 top n)). eapply C01_after_table; eauto using linspace_last; [apply linspace_ascending; auto|apply map_length|lra]. }
  do 4 (rewrite K in Eg; cbn [bind] in Eg). injection Eg as <-. cbn [gm_A gm_B gm_Pe].
  split; [apply A_water|]. split; [apply B_water|apply P_water].
Qed.

(** A link reads the table of the transect it names, whatever the order of the dictionary. *)
Lemma index_of_nth : forall l i x, NoDup l -> nth_error l i = Some x -> index_of x l = i.
Proof.
  induction l as [|a l IH]; intros i x Hd E; [destruct i; discriminate|]. inversion Hd; subst. cbn [index_of].
  destruct i as [|i]; cbn in E.
  - injection E as ->. now rewrite Nat.eqb_refl.
  - destruct (Nat.eqb_spec a x); [subst; exfalso; apply H1; eapply nth_error_In; eauto|]. f_equal. auto.
Qed.
Lemma read_nth cols i col : nth_error cols i = Some col -> read_table cols (seq 0 (length cols)) i = col.
Proof.
  intros E. assert (i < length cols)%nat by (apply nth_error_Some; congruence).
  pose proof (C54_sorted_tables_are_read_back cols i H) as R. rewrite seq_nth in R by auto. cbn [plus] in R. rewrite R.
  now apply nth_error_nth.
Qed.
Theorem C60_link_reads_its_transect : forall names cols i name col, NoDup names ->
  nth_error names i = Some name -> nth_error cols i = Some col -> read_transect names cols name = col.
Proof.
  intros names cols i name col Hd Hn Hc. unfold read_transect, transect_code.
  replace (existsb (Nat.eqb name) names) with true.
  - rewrite (index_of_nth names i name) by auto. now apply read_nth.
  - symmetry. apply existsb_exists. exists name. split; [eapply nth_error_In; eauto|apply Nat.eqb_refl].
Qed.
Example C60_second_transect : read_transect [7; 3]%nat [[1; 2]; [4; 5; 6]] 3 = [4; 5; 6].
Proof. apply (C60_link_reads_its_transect [7; 3]%nat [[1; 2]; [4; 5; 6]] 1 3); auto. repeat constructor; cbn; lia. Qed.

(** Finding: a link that names no transect of the dictionary (a misspelt name) silently gets the first one. *)
Theorem C60_unknown_name_refuted : forall names cols name col, ~ In name names ->
  nth_error cols 0 = Some col -> read_transect names cols name = col.
Proof.
  intros names cols name col Hn Hc. unfold read_transect, transect_code.
  replace (existsb (Nat.eqb name) names) with false; [now apply read_nth|].
  symmetry. apply not_true_is_false. intros E. apply existsb_exists in E as (x & Hx & E). apply Nat.eqb_eq in E. subst. auto.
Qed.
Example C60_misspelt : read_transect [7; 3]%nat [[1; 2]; [4; 5; 6]] 8 = [1; 2].
Proof. apply C60_unknown_name_refuted; auto. cbn. lia. Qed.

(** Finding: the table starts at elevation 0 and is looked up by water depth.  A survey given in absolute elevations (lowest
    point at z > 0) leaves the channel without any area until the depth reaches z (less one table step). *)
Theorem C60_raised_survey_refuted : forall t n z top c h0 h1 old gm, left_to_right t -> (2 <= n)%nat -> 0 < top ->
  In top (map snd t) -> (forall y, In y (map snd t) -> z <= y <= top) ->
  transect_tables t n = Some c -> section_geometry c h0 h1 old = Some gm ->
  0 <= (h0 + h1) / 2 -> (h0 + h1) / 2 + top / INR (n - 1) <= z -> gm_A gm = 0.
Proof.
  intros t n z top c h0 h1 old gm Ht Hn Htop Hin Hm Ec Eg Hh Hz. set (h := (h0 + h1) / 2) in *.
  assert (Hd : 0 < top / INR (n - 1)) by (apply step_pos; auto).
  rewrite (tables_are t n top) in Ec; auto; [|intros; now apply Hm]. injection Ec as <-. unfold table_of, section_geometry in Eg. fold h in Eg. unfold levels in Eg.
  set (d := top / INR (n - 1)) in *. pose proof (Hm top Hin).
  destruct (cell_exists d (n - 1) h Hd) as (i & Hi & Hc); [lia| |].
  { replace (INR (n - 1) * d) with top; [lra|]. unfold d. field. apply not_0_INR. lia. }
  assert (Zero : forall w, w <= z -> sums (vA w) t = 0).
  { intros w Hw. assert (E : Transect_A_ik w t = Some 0) by (apply C59_dry_below_survey; auto; intros v Hv; pose proof (Hm (snd v) (in_map snd _ _ Hv)); lra).
    rewrite A_value in E by auto. congruence. }
  assert (Ea : interpolate_sample h (linspace0 top n) (map (fun w => sums (vA w) t) (linspace0 top n)) 1 = Some 0).
  { assert (E0 : nth_error (linspace0 top n) i = Some (INR i * d)) by (apply linspace_nth; lia).
    assert (E1 : nth_error (linspace0 top n) (S i) = Some (INR (S i) * d)) by (apply linspace_nth; lia).
    rewrite (C02_affine_between_knots _ _ h i (INR i * d) (INR (S i) * d) 0 0); auto.
    - f_equal. unfold Rdiv. ring.
    - apply linspace_ascending; auto.
    - apply map_length.
    - rewrite nth_error_map, E0. cbn. f_equal. apply Zero. lra.
    - rewrite nth_error_map, E1. cbn [option_map]. f_equal. apply Zero. rewrite S_INR in *. lra. }
  rewrite Ea in Eg. cbn [bind] in Eg.
  repeat match type of Eg with bind ?e _ = _ => destruct e; [cbn [bind] in Eg|discriminate] end.
  injection Eg as <-. reflexivity.
Qed.
(** The ditch above, surveyed at 10 m above datum: one metre of water, no area. *)
Definition raised : list point := [(0, 12); (2, 10); (3, 10); (5, 11)].
Example C60_raised : exists c gm, transect_tables raised 100 = Some c /\
  section_geometry c 1 1 {| gm_A := 0; gm_Pe := 0; gm_R := 0; gm_B := 0 |} = Some gm /\ gm_A gm = 0.
Proof.
  assert (Lr : left_to_right raised).
  { intros [|[|[|[|[]]]]] p q; cbn; intros H1 H2; inversion H1; inversion H2; cbn; lra. }
  assert (Hm : forall y, In y (map snd raised) -> 10 <= y <= 12) by (cbn; intros y [<-|[<-|[<-|[<-|[]]]]]; lra).
  assert (Hin : In 12 (map snd raised)) by (cbn; auto).
  pose proof (tables_are raised 100 12 Lr Hin (fun y H => proj2 (Hm y H))) as Et.
  assert (T : forall f : R -> R, exists v, interpolate_sample ((1 + 1) / 2) (linspace0 12 100) (map f (linspace0 12 100)) 1 = Some v).
  { intros f. destruct (C01_never_leaves_data (linspace0 12 100) (map f (linspace0 12 100)) ((1 + 1) / 2)) as (v & _ & _ & _ & _ & E & _); eauto.
    - apply linspace_ascending; [lia|lra]. - intros E; apply (f_equal (@length R)) in E; rewrite linspace_length in E; discriminate. }
  assert (Eg : exists gm, section_geometry (table_of raised 100 12) 1 1 {| gm_A := 0; gm_Pe := 0; gm_R := 0; gm_B := 0 |} = Some gm).
  { unfold table_of, section_geometry, levels.
    destruct (T (fun w => sums (vA w) raised)) as [a ->]. destruct (T (fun w => sums (vB w) raised)) as [b ->].
    destruct (T (fun w => sums (vP w) raised)) as [pe ->].
    destruct (T (fun w => safe_divide (sums (vA w) raised) (sums (vP w) raised))) as [r ->]. cbn [bind]. eauto. }
  destruct Eg as [gm Eg]. exists (table_of raised 100 12), gm. split; [exact Et|]. split; [exact Eg|].
  assert (E99 : INR (100 - 1) = 99) by (replace (100 - 1)%nat with 99%nat by reflexivity; rewrite INR_IZR_INZ; reflexivity).
  apply (C60_raised_survey_refuted raised 100 10 12 _ 1 1 _ _ Lr ltac:(lia) ltac:(lra) Hin Hm Et Eg); [lra|].
  rewrite E99. lra.
Qed.
