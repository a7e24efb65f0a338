(** C10, C11: storage volumes and areas of superjunctions; C54: every storage reads its own table. *)
From Verif Require Import Prelude M_Coeffs L_Coeffs M_Numerics S_Numerics L_Interp M_Storage.
From Coq Require Import Ranalysis Rpower.

Definition volume (a b c h : R) : R := match functional_volume h a b c with Some v => v | None => 0 end.

Lemma volume_eq a b c h : -1 < b -> 0 <= h -> volume a b c h = a / (b + 1) * fpow h (b + 1) + c * h.
Proof.
  intros Hb Hh. unfold volume, functional_volume, div. destruct (Rltb_spec h 0); [lra|].
  destruct (Reqb_spec (b + 1) 0); [lra|]. reflexivity.
Qed.
Lemma fpow_0 y : 0 < y -> fpow 0 y = 0.
Proof. intros; unfold fpow. destruct (Reqb_spec 0 0); [|lra]. destruct (Reqb_spec y 0); lra. Qed.
Lemma fpow_S h b : 0 <= h -> 0 <= b -> fpow h (b + 1) = fpow h b * h.
Proof.
  intros Hh Hb. destruct (Req_dec h 0) as [->|N].
  - rewrite fpow_0 by lra. ring.
  - destruct (fpow_pos h (b + 1)) as [-> _]; [lra|]. destruct (fpow_pos h b) as [-> _]; [lra|].
    rewrite Rpower_plus, Rpower_1 by lra. reflexivity.
Qed.
Lemma fpow_mono b x y : 0 <= b -> 0 <= x -> x <= y -> fpow x b <= fpow y b.
Proof.
  intros Hb Hx Hxy. destruct (Req_dec b 0) as [->|Nb].
  - unfold fpow. dR; try lra; rewrite ?Rpower_O by lra; lra.
  - destruct (Req_dec x 0) as [->|N]; [rewrite fpow_0 by lra; apply fpow_nonneg; lra|].
    destruct (fpow_pos x b) as [-> _]; [lra|]. destruct (fpow_pos y b) as [-> _]; [lra|].
    apply Rle_Rpower_l; lra.
Qed.
Lemma fpow_rpower h y : 0 < h -> fpow h y = Rpower h y.
Proof. intros. apply fpow_pos; auto. Qed.

Lemma volume_lim a b c h : -1 < b -> 0 < h -> derivable_pt_lim (volume a b c) h (functional_area h a b c).
Proof.
  intros Hb Hh e He.
  assert (D : derivable_pt_lim (fun h => a / (b + 1) * Rpower h (b + 1) + c * h) h (functional_area h a b c)).
  { assert (E : functional_area h a b c = a / (b + 1) * ((b + 1) * Rpower h (b + 1 - 1)) + c * 1).
    { unfold functional_area. destruct (Rltb_spec h 0); [lra|]. rewrite fpow_rpower by lra.
      replace (b + 1 - 1) with b by ring. field. lra. }
    rewrite E. apply (derivable_pt_lim_plus (fun h => a / (b + 1) * Rpower h (b + 1)) (fun h => c * h)).
    - apply (derivable_pt_lim_scal (fun h => Rpower h (b + 1))). apply derivable_pt_lim_power; auto.
    - apply (derivable_pt_lim_scal (fun h => h)). apply derivable_pt_lim_id. }
  destruct (D e He) as [[d Hd] P]; simpl in P.
  assert (M : 0 < Rmin d h) by (apply Rmin_glb_lt; auto).
  exists (mkposreal _ M); simpl. intros t Ht Hs.
  pose proof (Rmin_l d h). pose proof (Rmin_r d h). apply Rabs_def2 in Hs as S.
  rewrite !volume_eq by lra. rewrite !fpow_rpower by lra. apply P; auto. lra.
Qed.

(** C10: with a functional storage curve the volume is 0 at depth 0, never raises, and its rate of change
    with depth is the surface area. *)
Theorem C10_functional_volume_derivative a b c h : -1 < b -> 0 < h ->
  functional_volume 0 a b c = Some 0 /\ functional_volume h a b c = Some (volume a b c h) /\
  derivable_pt_lim (volume a b c) h (functional_area h a b c).
Proof.
  intros Hb Hh. split; [|split].
  - unfold functional_volume, div. destruct (Rltb_spec 0 0); [reflexivity|].
    destruct (Reqb_spec (b + 1) 0); [lra|]. cbn [bind]. rewrite fpow_0 by lra. f_equal; ring.
  - unfold volume. unfold functional_volume, div. destruct (Rltb_spec h 0); [lra|].
    destruct (Reqb_spec (b + 1) 0); [lra|]. reflexivity.
  - apply volume_lim; auto.
Qed.

Lemma area_mono a b c x y : 0 <= a -> 0 <= b -> 0 <= x -> x <= y -> functional_area x a b c <= functional_area y a b c.
Proof.
  intros. unfold functional_area. destruct (Rltb_spec x 0); [lra|]. destruct (Rltb_spec y 0); [lra|].
  apply Rplus_le_compat_r. apply Rmult_le_compat_l; auto. apply fpow_mono; auto.
Qed.

(** C10: between any two depths the stored volume lies between the slabs given by the smaller and the larger
    surface area (so it is the integral of the area over depth), down to and including depth 0. *)
Theorem C10_functional_volume_slabs a b c h1 h2 : 0 <= a -> 0 <= b -> 0 <= c -> 0 <= h1 -> h1 <= h2 ->
  functional_area h1 a b c * (h2 - h1) <= volume a b c h2 - volume a b c h1 <= functional_area h2 a b c * (h2 - h1).
Proof.
  intros Ha Hb Hc H1 H12. destruct (Req_dec h1 h2) as [->|N].
  { replace (h2 - h2) with 0 by ring. lra. }
  destruct (Req_dec h1 0) as [->|N1].
  - rewrite !volume_eq by lra. rewrite (fpow_0 (b + 1)) by lra.
    rewrite fpow_S by lra. unfold functional_area.
    destruct (Rltb_spec 0 0); [lra|]. destruct (Rltb_spec h2 0); [lra|].
    assert (F : 0 <= fpow h2 b) by (apply fpow_nonneg; lra).
    assert (Q : 0 <= a / (b + 1) <= a).
    { split; [apply Rmult_le_pos; [auto|apply Rlt_le, Rinv_0_lt_compat; lra]|].
      apply Rmult_le_reg_r with (b + 1); [lra|]. unfold Rdiv. rewrite Rmult_assoc, Rinv_l by lra. nra. }
    assert (F2 : 0 <= fpow h2 b * h2) by (apply Rmult_le_pos; lra).
    assert (Z : a / (b + 1) * fpow h2 b * h2 >= a * fpow 0 b * h2).
    { destruct (Req_dec b 0) as [->|Nb].
      - unfold fpow. destruct (Reqb_spec 0 0); [|lra]. destruct (Reqb_spec h2 0); [lra|]. rewrite Rpower_O by lra.
        replace (a / (0 + 1)) with a by field. lra.
      - rewrite fpow_0 by lra. assert (0 <= a / (b + 1) * (fpow h2 b * h2)) by (apply Rmult_le_pos; lra). lra. }
    assert (Y : a / (b + 1) * (fpow h2 b * h2) <= a * (fpow h2 b * h2)) by (apply Rmult_le_compat_r; lra).
    split; lra.
  - destruct (MVT_cor2 (volume a b c) (fun h => functional_area h a b c) h1 h2) as (x & E & Hx); [lra| |].
    { intros t Ht. apply volume_lim; lra. }
    rewrite E. split; apply Rmult_le_compat_r; try lra; apply area_mono; lra.
Qed.
Example C10_cone_storage : 0 <= 3 /\ functional_volume 2 3 2 0 = Some 8.
Proof.
  split; [lra|]. unfold functional_volume, div. destruct (Rltb_spec 2 0); [lra|].
  destruct (Reqb_spec (2 + 1) 0); [lra|]. cbn [bind]. rewrite fpow_rpower by lra.
  replace (2 + 1) with (INR 3) by (simpl; ring). rewrite Rpower_pow by lra. f_equal. simpl. field.
Qed.

(** ** Tables *)
(** Area under the table's piecewise linear area curve up to its i-th depth. *)
Fixpoint area_under (hs As : list R) (i : nat) : R :=
  match i, hs, As with
  | S j, h0 :: ((h1 :: _) as hs'), a0 :: ((a1 :: _) as As') => (h1 - h0) * (a0 + a1) / 2 + area_under hs' As' j
  | _, _, _ => 0
  end.

Lemma cumtrapz_length acc y x : length y = length x -> length (cumtrapz_from acc y x) = length y.
Proof.
  revert acc x; induction y as [|y0 [|y1 y] IH]; intros acc [|x0 [|x1 x]] H; simpl in *; try discriminate; auto.
  f_equal. apply (IH _ (x1 :: x)). simpl. lia.
Qed.

Lemma cumtrapz_complement hs : forall As acc i h0 a0 hi ai v, length hs = length As ->
  nth_error hs 0 = Some h0 -> nth_error As 0 = Some a0 ->
  nth_error hs i = Some hi -> nth_error As i = Some ai -> nth_error (cumtrapz_from acc hs As) i = Some v ->
  v - acc + area_under hs As i = hi * ai - h0 * a0.
Proof.
  induction hs as [|h0 [|h1 hs] IH]; intros [|a0 [|a1 As]] acc i h0' a0' hi ai v L E0 F0 Ei Fi Ev; simpl in L; try discriminate.
  - simpl in E0, F0. injection E0 as <-. injection F0 as <-. destruct i as [|[|i]]; try discriminate.
    simpl in *. injection Ei as <-. injection Fi as <-. injection Ev as <-. ring.
  - simpl in E0, F0. injection E0 as <-. injection F0 as <-. destruct i as [|i].
    + simpl in *. injection Ei as <-. injection Fi as <-. injection Ev as <-. ring.
    + change (nth_error (h1 :: hs) i = Some hi) in Ei. change (nth_error (a1 :: As) i = Some ai) in Fi.
      change (nth_error (cumtrapz_from (acc + (a1 - a0) * (h0 + h1) / 2) (h1 :: hs) (a1 :: As)) i = Some v) in Ev.
      assert (L' : length (h1 :: hs) = length (a1 :: As)) by (simpl; lia).
      pose proof (IH (a1 :: As) _ i h1 a1 hi ai v L' eq_refl eq_refl Ei Fi Ev) as K.
      change (area_under (h0 :: h1 :: hs) (a0 :: a1 :: As) (S i)) with
        ((h1 - h0) * (a0 + a1) / 2 + area_under (h1 :: hs) (a1 :: As) i).
      lra.
Qed.

Lemma tabular_volume_knot hs As i hi v : ascending hs -> length hs = length As -> (0 < i)%nat ->
  nth_error hs i = Some hi -> nth_error (volume_table hs As) i = Some v ->
  tabular_volume hi hs As (volume_table hs As) = Some v.
Proof.
  intros Asc L Hi Ei Ev. destruct i as [|i]; [lia|].
  assert (Li : (S i < length hs)%nat) by (apply nth_error_Some; congruence).
  destruct (nth_some hs i) as [hl El]; [lia|].
  assert (Lv : length (volume_table hs As) = length hs) by (apply cumtrapz_length; auto).
  destruct (nth_some (volume_table hs As) i) as [vl Evl]; [lia|].
  assert (hl < hi) by (apply (Asc i (S i)); auto).
  unfold tabular_volume. rewrite (ss_inside hs hi i hl hi Asc El Ei) by lra.
  replace (Nat.eqb (S i) 0) with false by reflexivity.
  replace (Nat.leb (length hs) (S i)) with false by (symmetry; apply Nat.leb_gt; lia).
  unfold cell. replace (S i - 1)%nat with i by lia. rewrite El, Ei, Evl, Ev. cbv zeta.
  unfold div. destruct (Reqb_spec (hi - hl + (hi - hi)) 0); [lra|]. cbn [bind]. f_equal. field. lra.
Qed.

(** Finding (C10): with a tabular storage the volume at a table depth is not the area under the area curve but its
    complement in the rectangle depth * area: the two together make up that rectangle ... *)
Theorem C10_tabular_volume_is_complement_refuted hs As i hi ai : ascending hs -> length hs = length As ->
  nth_error hs 0 = Some 0 -> (0 < i)%nat -> nth_error hs i = Some hi -> nth_error As i = Some ai ->
  exists v, tabular_volume hi hs As (volume_table hs As) = Some v /\ v + area_under hs As i = hi * ai.
Proof.
  intros Asc L E0 Hi Ei Fi.
  assert (Li : (i < length hs)%nat) by (apply nth_error_Some; congruence).
  assert (Lv : length (volume_table hs As) = length hs) by (apply cumtrapz_length; auto).
  destruct (nth_some (volume_table hs As) i) as [v Ev]; [lia|].
  destruct (nth_some As 0) as [a0 F0]; [lia|].
  exists v. split; [eapply tabular_volume_knot; eauto|].
  pose proof (cumtrapz_complement hs As 0 i 0 a0 hi ai v L E0 F0 Ei Fi Ev) as K. lra.
Qed.
(** ... so it is the area under the curve only if that area is half the rectangle (area proportional to depth). *)
Theorem C10_tabular_volume_correct_iff hs As i hi ai : ascending hs -> length hs = length As ->
  nth_error hs 0 = Some 0 -> (0 < i)%nat -> nth_error hs i = Some hi -> nth_error As i = Some ai ->
  (tabular_volume hi hs As (volume_table hs As) = Some (area_under hs As i) <-> area_under hs As i = hi * ai / 2).
Proof.
  intros Asc L E0 Hi Ei Fi.
  destruct (C10_tabular_volume_is_complement_refuted hs As i hi ai Asc L E0 Hi Ei Fi) as (v & E & K).
  rewrite E. split; [intros X; injection X as X; lra|intros X; f_equal; lra].
Qed.
(** A pond with vertical walls (10 m2, tabulated at 0, 1 and 2 m) is reported to hold nothing at 2 m depth. *)
Example C10_vertical_walls_hold_nothing :
  ascending [0; 1; 2] /\ tabular_volume 2 [0; 1; 2] [10; 10; 10] (volume_table [0; 1; 2] [10; 10; 10]) = Some 0
  /\ area_under [0; 1; 2] [10; 10; 10] 2 = 20.
Proof.
  assert (Asc : ascending [0; 1; 2]).
  { intros i j a b Hij Ha Hb. destruct i as [|[|[|i]]], j as [|[|[|j]]]; simpl in *; try lia;
      try (destruct i; discriminate); try (destruct j; discriminate);
      injection Ha as <-; injection Hb as <-; lra. }
  split; auto.
  assert (U : area_under [0; 1; 2] [10; 10; 10] 2 = 20) by (simpl; field).
  split; auto.
  destruct (C10_tabular_volume_is_complement_refuted [0;1;2] [10;10;10] 2 2 10 Asc eq_refl eq_refl ltac:(lia) eq_refl eq_refl)
    as (v & E & K). rewrite E. f_equal. lra.
Qed.

Lemma fold_min_le l : forall a, fold_left Rmin l a <= a /\ forall x, In x l -> fold_left Rmin l a <= x.
Proof.
  induction l as [|b l IH]; intros a; simpl; [split; [lra|intros x []]|].
  destruct (IH (Rmin a b)) as [I1 I2]. pose proof (Rmin_l a b). pose proof (Rmin_r a b).
  split; [lra|]. intros x [->|Hx]; [lra|auto].
Qed.
Lemma fold_max_ge l : forall a, a <= fold_left Rmax l a /\ forall x, In x l -> x <= fold_left Rmax l a.
Proof.
  induction l as [|b l IH]; intros a; simpl; [split; [lra|intros x []]|].
  destruct (IH (Rmax a b)) as [I1 I2]. pose proof (Rmax_l a b). pose proof (Rmax_r a b).
  split; [lra|]. intros x [->|Hx]; [lra|auto].
Qed.
Lemma fold_min_in l : forall a, In (fold_left Rmin l a) (a :: l).
Proof.
  induction l as [|b l IH]; intros a; cbn [fold_left]; [left; auto|].
  destruct (IH (Rmin a b)) as [E|E]; [|right; right; auto].
  rewrite <- E. unfold Rmin. destruct Rle_dec; [left|right; left]; auto.
Qed.
Lemma fold_max_in l : forall a, In (fold_left Rmax l a) (a :: l).
Proof.
  induction l as [|b l IH]; intros a; cbn [fold_left]; [left; auto|].
  destruct (IH (Rmax a b)) as [E|E]; [|right; right; auto].
  rewrite <- E. unfold Rmax. destruct Rle_dec; [right; left|left]; auto.
Qed.
Lemma lmin_le l x : In x l -> lmin l <= x.
Proof. destruct l as [|a l]; [intros []|]. simpl. pose proof (fold_min_le l a) as [I1 I2]. intros [->|H]; auto. Qed.
Lemma lmax_ge l x : In x l -> x <= lmax l.
Proof. destruct l as [|a l]; [intros []|]. simpl. pose proof (fold_max_ge l a) as [I1 I2]. intros [->|H]; auto. Qed.
Lemma lmin_in l : l <> [] -> In (lmin l) l.
Proof. destruct l as [|a l]; [congruence|]. intros _. apply fold_min_in. Qed.
Lemma lmax_in l : l <> [] -> In (lmax l) l.
Proof. destruct l as [|a l]; [congruence|]. intros _. apply fold_max_in. Qed.

(** For a table whose areas do not decrease, the storage area is the interpolation of C01-C02. *)
Lemma tabular_area_interp h hs As : ascending hs -> hs <> [] -> length As = length hs -> nondecreasing As ->
  tabular_area h hs As = interpolate_sample h hs As 1.
Proof.
  intros Asc Ne L Mono. unfold tabular_area, interpolate_sample.
  assert (P : (0 < length hs)%nat) by (destruct hs; simpl; [congruence|lia]).
  destruct (Nat.eqb (searchsorted hs h) 0).
  - destruct (nth_some As 0) as [a0 F0]; [lia|]. rewrite F0. f_equal.
    apply Rle_antisym; [apply lmin_le; eapply nth_error_In; eauto|].
    destruct (In_nth_error As (lmin As)) as [k Fk]; [apply lmin_in; destruct As; simpl in *; [lia|congruence]|].
    apply (Mono 0%nat k); auto; lia.
  - destruct (Nat.leb (length hs) (searchsorted hs h)).
    + destruct (nth_some As (length hs - 1)) as [a0 F0]; [lia|]. rewrite F0. f_equal.
      apply Rle_antisym; [|apply lmax_ge; eapply nth_error_In; eauto].
      destruct (In_nth_error As (lmax As)) as [k Fk]; [apply lmax_in; destruct As; simpl in *; [lia|congruence]|].
      assert (k < length As)%nat by (apply nth_error_Some; congruence).
      apply (Mono k (length hs - 1)%nat); auto; lia.
    + unfold cell. destruct (nth_error hs _); auto. destruct (nth_error hs _); auto.
      destruct (nth_error As _); auto. destruct (nth_error As _); auto.
      replace (Nat.eqb 1 1) with true by reflexivity. cbv zeta. unfold div. destruct Reqb; reflexivity.
Qed.

(** C11: the area of a tabular storage always exists and lies between two areas of its table. *)
Theorem C11_tabular_area_within_table h hs As : ascending hs -> hs <> [] -> length As = length hs ->
  exists v i j a b, tabular_area h hs As = Some v /\
    nth_error As i = Some a /\ nth_error As j = Some b /\ a <= v <= b.
Proof.
  intros Asc Ne L. assert (P : (0 < length hs)%nat) by (destruct hs; simpl; [congruence|lia]).
  assert (NeA : As <> []) by (destruct As; simpl in *; [lia|congruence]).
  unfold tabular_area. destruct (locate hs h Asc Ne) as [(x0 & E0 & Hx)|[(xn & En & Hx)|(i & xl & xr & El & Er & Hx)]].
  - rewrite (ss_zero hs h x0 E0 Hx). destruct (In_nth_error As (lmin As) (lmin_in As NeA)) as [k Fk].
    exists (lmin As), k, k, (lmin As), (lmin As). repeat split; auto; lra.
  - rewrite (ss_last hs h xn Asc En Hx). replace (Nat.eqb (length hs) 0) with false by (symmetry; apply Nat.eqb_neq; lia).
    rewrite Nat.leb_refl. destruct (In_nth_error As (lmax As) (lmax_in As NeA)) as [k Fk].
    exists (lmax As), k, k, (lmax As), (lmax As). repeat split; auto; lra.
  - rewrite (ss_inside hs h i xl xr Asc El Er) by lra.
    assert (Li : (S i < length hs)%nat) by (apply nth_error_Some; congruence).
    replace (Nat.eqb (S i) 0) with false by reflexivity.
    replace (Nat.leb (length hs) (S i)) with false by (symmetry; apply Nat.leb_gt; lia).
    unfold cell. replace (S i - 1)%nat with i by lia.
    destruct (nth_some As i) as [al Fl]; [lia|]. destruct (nth_some As (S i)) as [ar Fr]; [lia|].
    rewrite El, Er, Fl, Fr. cbv zeta. unfold div. destruct (Reqb_spec (h - xl + (xr - h)) 0); [lra|]. cbn [bind].
    set (t := (h - xl) / (h - xl + (xr - h))).
    assert (T : 0 <= t <= 1).
    { unfold t; split.
      - apply Rmult_le_pos; [lra|]. left; apply Rinv_0_lt_compat; lra.
      - apply Rmult_le_reg_r with (h - xl + (xr - h)); [lra|]. unfold Rdiv. rewrite Rmult_assoc, Rinv_l by lra. lra. }
    destruct (Rle_or_lt al ar).
    + eexists _, i, (S i), al, ar. split; [reflexivity|]. repeat split; auto; nra.
    + eexists _, (S i), i, ar, al. split; [reflexivity|]. repeat split; auto; nra.
Qed.
(** C11: for a table of non-decreasing areas it is exact at the table's depths and does not decrease with depth. *)
Theorem C11_tabular_area_exact_and_monotone hs As : ascending hs -> hs <> [] -> length As = length hs -> nondecreasing As ->
  (forall i h a, nth_error hs i = Some h -> nth_error As i = Some a -> tabular_area h hs As = Some a) /\
  (forall h h' a a', h <= h' -> tabular_area h hs As = Some a -> tabular_area h' hs As = Some a' -> a <= a').
Proof.
  intros Asc Ne L Mono. split.
  - intros i h a Ei Fi. rewrite tabular_area_interp by auto. eapply interp_knot; eauto.
  - intros h h' a a' Hh E E'. rewrite tabular_area_interp in E, E' by auto. eapply interp_monotone; eauto.
Qed.
(** C11: for any table, narrowing ones too, it is exact at every depth of the table after the first. *)
Theorem C11_tabular_area_exact_after_first hs As i h a : ascending hs -> length As = length hs ->
  nth_error hs (S i) = Some h -> nth_error As (S i) = Some a -> tabular_area h hs As = Some a.
Proof.
  intros Asc L Ei Fi. assert (Li : (S i < length hs)%nat) by (apply nth_error_Some; congruence).
  destruct (nth_some hs i) as [x Ex]; [lia|]. assert (x < h) by (apply (Asc i (S i)); auto).
  unfold tabular_area. rewrite (ss_inside hs h i x h Asc Ex Ei) by lra.
  replace (Nat.eqb (S i) 0) with false by reflexivity.
  replace (Nat.leb (length hs) (S i)) with false by (symmetry; apply Nat.leb_gt; lia).
  unfold cell. replace (S i - 1)%nat with i by lia. destruct (nth_some As i) as [al Fl]; [lia|].
  rewrite Ex, Ei, Fl, Fi. cbv zeta. unfold div. destruct (Reqb_spec (h - x + (h - h)) 0); [lra|]. cbn [bind].
  f_equal. field. lra.
Qed.
(** C11: at and below its first depth and above its last one the area is the smallest and the largest of the table, so
    for a storage that narrows upwards it is wrong there: the bottom of the storage with areas 5 at depth 0 and 2 at
    depth 1 is reported as 2, and above depth 1 the surface grows back to 5. *)
Theorem C11_narrowing_storage_refuted :
  tabular_area 0 [0; 1] [5; 2] = Some 2 /\ tabular_area 1 [0; 1] [5; 2] = Some 2 /\
  (forall h : R, 1 < h -> tabular_area h [0; 1] [5; 2] = Some 5) /\
  (forall h : R, 0 < h <= 1 -> tabular_area h [0; 1] [5; 2] = Some (5 - 3 * h)).
Proof.
  assert (Asc : ascending [0; 1]).
  { intros i j a b Hij Ha Hb. destruct i as [|[|i]], j as [|[|j]]; simpl in *; try lia;
      try (destruct i; discriminate); try (destruct j; discriminate); injection Ha as <-; injection Hb as <-; lra. }
  assert (In' : forall h, 0 < h <= 1 -> tabular_area h [0; 1] [5; 2] = Some (5 - 3 * h)).
  { intros h Hh. unfold tabular_area. rewrite (ss_inside [0; 1] h 0 0 1 Asc eq_refl eq_refl) by lra.
    cbn [Nat.eqb Nat.leb length]. unfold cell. cbn [nth_error Nat.sub]. cbv zeta. unfold div.
    destruct (Reqb_spec (h - 0 + (1 - h)) 0); [lra|]. cbn [bind]. f_equal. field. lra. }
  repeat split; auto.
  - unfold tabular_area. rewrite (ss_zero [0; 1] 0 0 eq_refl) by lra. cbn [Nat.eqb]. f_equal.
    unfold lmin; simpl. rewrite Rmin_right by lra. reflexivity.
  - rewrite In' by lra. f_equal. lra.
  - intros h Hh. unfold tabular_area. rewrite (ss_last [0; 1] h 1 Asc eq_refl Hh). cbn [Nat.eqb Nat.leb length]. f_equal.
    unfold lmax; simpl. rewrite Rmax_left by lra. reflexivity.
Qed.
Example C11_table : ascending [0; 1; 3] /\ nondecreasing [2; 5; 5] /\ tabular_area 2 [0; 1; 3] [2; 5; 5] = Some 5.
Proof.
  assert (Asc : ascending [0; 1; 3]).
  { intros i j a b Hij Ha Hb. destruct i as [|[|[|i]]], j as [|[|[|j]]]; simpl in *; try lia;
      try (destruct i; discriminate); try (destruct j; discriminate);
      injection Ha as <-; injection Hb as <-; lra. }
  assert (Mo : nondecreasing [2; 5; 5]).
  { intros i j a b Hij Ha Hb. destruct i as [|[|[|i]]], j as [|[|[|j]]]; simpl in *; try lia;
      try (destruct i; discriminate); try (destruct j; discriminate);
      injection Ha as <-; injection Hb as <-; lra. }
  repeat split; auto. rewrite tabular_area_interp; auto; [|congruence].
  rewrite (interp_affine [0;1;3] [2;5;5] 2 1 1 3 5 5); auto; try lra. f_equal. field.
Qed.

(** C10, above the table: between two depths above the last one the volume grows by the reported area times the rise. *)
Theorem C10_tabular_volume_above_table hs As hn h h' : ascending hs -> hs <> [] -> length As = length hs ->
  nth_error hs (length hs - 1) = Some hn -> hn < h -> h <= h' ->
  exists a v v', tabular_area h hs As = Some a /\ tabular_area h' hs As = Some a /\
    tabular_volume h hs As (volume_table hs As) = Some v /\ tabular_volume h' hs As (volume_table hs As) = Some v' /\
    v' - v = a * (h' - h).
Proof.
  intros Asc Ne L En H1 H2. assert (P : (0 < length hs)%nat) by (destruct hs; simpl; [congruence|lia]).
  unfold tabular_area, tabular_volume. rewrite (ss_last hs h hn Asc En H1), (ss_last hs h' hn Asc En) by lra.
  replace (Nat.eqb (length hs) 0) with false by (symmetry; apply Nat.eqb_neq; lia). rewrite Nat.leb_refl.
  eexists _, _, _. do 4 (split; [reflexivity|]). ring.
Qed.
Example C10_above_table : exists a v v', tabular_area 5 [0; 1; 3] [2; 5; 5] = Some a /\ tabular_area 7 [0; 1; 3] [2; 5; 5] = Some a /\
  tabular_volume 5 [0; 1; 3] [2; 5; 5] (volume_table [0; 1; 3] [2; 5; 5]) = Some v /\
  tabular_volume 7 [0; 1; 3] [2; 5; 5] (volume_table [0; 1; 3] [2; 5; 5]) = Some v' /\ v' - v = a * (7 - 5).
Proof. apply (C10_tabular_volume_above_table [0; 1; 3] [2; 5; 5] 3 5 7); try lra; auto; try discriminate. apply C11_table. Qed.

(** ** C54: packing *)
Lemma index_of_seq n : forall s c, (s <= c < s + n)%nat -> index_of c (seq s n) = (c - s)%nat.
Proof.
  induction n as [|n IH]; intros s c H; [lia|]. simpl.
  destruct (Nat.eqb_spec s c); [lia|]. rewrite IH by lia. lia.
Qed.
Lemma argsort_id n : argsort (seq 0 n) = seq 0 n.
Proof.
  unfold argsort. rewrite seq_length. transitivity (map (fun c => c) (seq 0 n)); [|apply map_id].
  apply map_ext_in. intros c Hc. apply in_seq in Hc. rewrite index_of_seq; lia.
Qed.
Lemma map_nth_seq {T} (l : list T) d : map (fun i => nth i l d) (seq 0 (length l)) = l.
Proof.
  induction l as [|a l IH]; [reflexivity|]. simpl. f_equal. rewrite <- seq_shift, map_map. exact IH.
Qed.
Lemma offsets_length ix ts : length (offsets_from ix ts) = length ts.
Proof. revert ix; induction ts; intros; simpl; auto. Qed.
Lemma slice_own ts : forall st pre, (st < length ts)%nat ->
  firstn (nth st (map (@length R) ts) O) (skipn (nth st (offsets_from (length pre) ts) O) (pre ++ concat ts)) = nth st ts [].
Proof.
  induction ts as [|t ts IH]; intros st pre H; simpl in H; [lia|].
  destruct st as [|st]; simpl.
  - rewrite skipn_app, skipn_all, Nat.sub_diag. simpl. rewrite firstn_app, firstn_all, Nat.sub_diag. simpl.
    apply app_nil_r.
  - rewrite app_assoc. specialize (IH st (pre ++ t) ltac:(lia)).
    rewrite app_length in IH. exact IH.
Qed.

(** The storage inserted at position p has code [nth p ranks]; it should read table p. *)
Definition reads_own_table (tables : list (list R)) (ranks : list nat) : Prop :=
  forall p, (p < length tables)%nat -> read_table tables ranks (nth p ranks O) = nth p tables [].

(** C54: if the storage tables are given in the alphabetical order of their names, every superjunction reads the
    table of its own storage. *)
Theorem C54_sorted_tables_are_read_back tables : reads_own_table tables (seq 0 (length tables)).
Proof.
  intros st H. rewrite seq_nth by auto. simpl plus. unfold read_table, packed, packed_inds, packed_lens. rewrite argsort_id.
  rewrite map_nth_seq. 
  rewrite <- (map_length (@length R) tables) at 1. rewrite map_nth_seq.
  assert (E : map (fun i => nth i (offsets tables) 0%nat) (seq 0 (length tables)) = offsets tables).
  { rewrite <- (offsets_length 0 tables). apply map_nth_seq. }
  rewrite E. exact (slice_own tables st [] H).
Qed.
(** Finding (C54): otherwise a superjunction can read another storage's table: with two tables of the same length
    given in reverse alphabetical order each one reads the other's. *)
Theorem C54_unsorted_tables_are_swapped_refuted t0 t1 : length t0 = length t1 ->
  let ranks := [1; 0]%nat in
  read_table [t0; t1] ranks (nth 0 ranks O) = t1 /\ read_table [t0; t1] ranks (nth 1 ranks O) = t0.
Proof.
  intros L. cbv zeta. unfold read_table, packed, packed_inds, packed_lens, argsort; simpl. rewrite app_nil_r.
  split.
  - rewrite L. rewrite firstn_app, firstn_all, Nat.sub_diag. simpl. apply app_nil_r.
  - rewrite L. rewrite skipn_app, skipn_all, Nat.sub_diag. simpl. rewrite <- L. apply firstn_all.
Qed.
Example C54_three_tables : read_table [[1; 2]; [3; 4; 5]; [6]] (seq 0 3) 1 = [3; 4; 5].
Proof. apply (C54_sorted_tables_are_read_back [[1; 2]; [3; 4; 5]; [6]] 1%nat). simpl; lia. Qed.
