(** C73: the storage classes used without numba, compared with the compiled functions. *)
From Verif Require Import Prelude M_Coeffs M_Numerics S_Numerics L_Interp M_Storage M_GeometryPy M_StoragePy P_Storage.

(** ** Interpolation in a table *)

Lemma combine_nth {A B} (l : list A) : forall (m : list B) i a b, nth_error l i = Some a -> nth_error m i = Some b ->
  nth_error (combine l m) i = Some (a, b).
Proof.
  induction l as [|x l IH]; intros [|y m] [|i] a b Ha Hb; simpl in *; try discriminate; auto.
  injection Ha as <-. now injection Hb as <-.
Qed.

Lemma ascending_tail x l : ascending (x :: l) -> ascending l.
Proof. intros A i j a b H Ha Hb. apply (A (S i) (S j)); auto. lia. Qed.

(** The value inside the i-th interval. *)
Lemma interp1d_inside hs : forall ys i xl xr yl yr v, ascending hs ->
  nth_error hs i = Some xl -> nth_error hs (S i) = Some xr -> nth_error ys i = Some yl -> nth_error ys (S i) = Some yr ->
  xl < v <= xr -> interp1d (combine hs ys) v = Some (yl + (yr - yl) / (xr - xl) * (v - xl)).
Proof.
  induction hs as [|x0 [|x1 hs] IH]; intros [|y0 [|y1 ys]] i xl xr yl yr v Asc El Er Fl Fr Hv; simpl in El, Er, Fl, Fr;
    try (destruct i as [|[|i]]; discriminate).
  assert (X01 : x0 < x1) by (apply (Asc 0%nat 1%nat); auto).
  destruct i as [|i].
  - simpl in Er, Fr. injection El as <-. injection Er as <-. injection Fl as <-. injection Fr as <-.
    simpl. destruct (Rltb_spec v x0); [lra|]. destruct (Rleb_spec v x1); [reflexivity|lra].
  - assert (x1 <= xl).
    { destruct i as [|i]; [simpl in El; injection El as <-; lra|]. left. apply (Asc 1%nat (S (S i))); auto. lia. }
    change (nth_error (x1 :: hs) i = Some xl) in El. change (nth_error (x1 :: hs) (S i) = Some xr) in Er.
    change (nth_error (y1 :: ys) i = Some yl) in Fl. change (nth_error (y1 :: ys) (S i) = Some yr) in Fr.
    transitivity (interp1d (combine (x1 :: hs) (y1 :: ys)) v).
    + cbn. destruct (Rltb_spec v x0); [lra|]. destruct (Rleb_spec v x1); [lra|reflexivity].
    + eapply IH; eauto. eapply ascending_tail; eauto.
Qed.

Lemma interp1d_at_first x0 x1 hs y0 y1 ys : x0 < x1 -> interp1d (combine (x0 :: x1 :: hs) (y0 :: y1 :: ys)) x0 = Some y0.
Proof.
  intros H. cbn. destruct (Rltb_spec x0 x0); [lra|]. destruct (Rleb_spec x0 x1); [|lra]. f_equal. field. lra.
Qed.

Section Table.
Variables (hs As : list R) (t : Tabular).
Hypothesis Asc : ascending hs.
Hypothesis Ht : Tabular_init hs As = Some t.

Lemma init_inv : length hs = length As /\ (2 <= length hs)%nat /\
  t = mkTabular hs As (volume_table hs As) (lmax hs) (lmin hs) (lmax As).
Proof.
  revert Ht. unfold Tabular_init. destruct (Nat.eqb_spec (length hs) (length As)); [|discriminate].
  destruct (Nat.leb_spec 2 (length hs)); [|discriminate]. simpl. intros [= <-]. auto.
Qed.

Lemma first_is_least x0 : nth_error hs 0 = Some x0 -> lmin hs = x0.
Proof.
  intros E. apply Rle_antisym; [apply lmin_le; eapply nth_error_In; eauto|].
  destruct (In_nth_error hs (lmin hs)) as [k K]; [apply lmin_in; destruct hs; [discriminate|congruence]|].
  destruct k as [|k]; [rewrite E in K; injection K as <-; lra|]. left. apply (Asc 0%nat (S k)); auto. lia.
Qed.
Lemma last_is_greatest xn : nth_error hs (length hs - 1) = Some xn -> lmax hs = xn.
Proof.
  intros E. apply Rle_antisym; [|apply lmax_ge; eapply nth_error_In; eauto].
  destruct (In_nth_error hs (lmax hs)) as [k K]; [apply lmax_in; destruct hs; [discriminate|congruence]|].
  assert (k < length hs)%nat by (apply nth_error_Some; congruence).
  destruct (Nat.eq_dec k (length hs - 1)) as [->|]; [rewrite E in K; injection K as <-; lra|].
  left. apply (Asc k (length hs - 1)%nat); auto. lia.
Qed.

Lemma ends : exists x0 xn, nth_error hs 0 = Some x0 /\ nth_error hs (length hs - 1) = Some xn /\ x0 < xn /\
  forall h, within t h = if Rltb h x0 then x0 else if Rltb xn h then xn else h.
Proof.
  destruct init_inv as (L & L2 & Et).
  destruct (nth_some hs 0) as [x0 E0]; [lia|]. destruct (nth_some hs (length hs - 1)) as [xn En]; [lia|].
  assert (X : x0 < xn) by (apply (Asc 0%nat (length hs - 1)%nat); auto; lia).
  exists x0, xn. repeat split; auto. intros h. rewrite Et. unfold within. cbn [t_hmin t_hmax]. rewrite (first_is_least x0 E0), (last_is_greatest xn En).
  cbv zeta. destruct (Rltb_spec h x0); destruct (Rltb_spec xn h); try destruct (Rltb_spec xn x0); lra || reflexivity.
Qed.

(** Interpolation after limiting: the three cases. *)
Lemma limited_interp ys h x0 xn y0 yn : length ys = length hs ->
  nth_error hs 0 = Some x0 -> nth_error hs (length hs - 1) = Some xn -> nth_error ys 0 = Some y0 -> nth_error ys (length hs - 1) = Some yn ->
  (h <= x0 -> interp1d (combine hs ys) (within t h) = Some y0) /\
  (xn <= h -> interp1d (combine hs ys) (within t h) = Some yn) /\
  (forall i xl xr yl yr, nth_error hs i = Some xl -> nth_error hs (S i) = Some xr -> nth_error ys i = Some yl -> nth_error ys (S i) = Some yr ->
     xl < h <= xr -> within t h = h /\ interp1d (combine hs ys) (within t h) = Some (yl + (yr - yl) / (xr - xl) * (h - xl))).
Proof.
  intros Ly E0 En F0 Fn. destruct ends as (x0' & xn' & E0' & En' & X & Ew). rewrite E0 in E0'. injection E0' as <-. rewrite En in En'. injection En' as <-.
  destruct init_inv as (L & L2 & _). rewrite Ew. split; [|split].
  - intros Hh. assert (Ex : (if Rltb h x0 then x0 else if Rltb xn h then xn else h) = x0)
      by (destruct (Rltb_spec h x0); [reflexivity|]; destruct (Rltb_spec xn h); lra). rewrite Ex.
    destruct hs as [|a [|b l]]; simpl in L2; try lia. destruct ys as [|c [|d m]]; simpl in Ly; try lia.
    injection E0 as <-. injection F0 as <-. apply interp1d_at_first. apply (Asc 0%nat 1%nat); auto.
  - intros Hh. assert (Ex : (if Rltb h x0 then x0 else if Rltb xn h then xn else h) = xn)
      by (destruct (Rltb_spec h x0); [lra|]; destruct (Rltb_spec xn h); lra). rewrite Ex.
    assert (Q : (length hs - 1 = S (length hs - 2))%nat) by lia. rewrite Q in En, Fn.
    destruct (nth_some hs (length hs - 2)) as [xl El]; [lia|]. destruct (nth_some ys (length hs - 2)) as [yl Fl]; [lia|].
    assert (xl < xn) by (apply (Asc (length hs - 2)%nat (S (length hs - 2))); auto).
    rewrite (interp1d_inside hs ys _ _ _ _ _ xn Asc El En Fl Fn) by lra. f_equal. field. lra.
  - intros i xl xr yl yr El Er Fl Fr Hv.
    assert (S1 : x0 <= xl).
    { destruct i as [|i]; [rewrite E0 in El; injection El as <-; lra|]. left. apply (Asc 0%nat (S i)); auto. lia. }
    assert (Li : (S i < length hs)%nat) by (apply nth_error_Some; congruence).
    assert (S2 : xr <= xn).
    { destruct (Nat.eq_dec (S i) (length hs - 1)) as [Q|Q]; [rewrite Q, En in Er; injection Er as <-; lra|].
      left. apply (Asc (S i) (length hs - 1)%nat); auto. lia. }
    assert (Ex : (if Rltb h x0 then x0 else if Rltb xn h then xn else h) = h)
      by (destruct (Rltb_spec h x0); [lra|]; destruct (Rltb_spec xn h); lra). rewrite Ex.
    split; [reflexivity|]. apply (interp1d_inside hs ys i); auto.
Qed.
End Table.

(** The compiled interpolation inside a table is the chord as well. *)
Lemma cell_chord h hs ys i xl xr yl yr : nth_error hs i = Some xl -> nth_error hs (S i) = Some xr -> nth_error ys i = Some yl -> nth_error ys (S i) = Some yr ->
  xl < xr -> cell h hs ys (S i) = Some (yl + (yr - yl) / (xr - xl) * (h - xl)).
Proof.
  intros El Er Fl Fr H. unfold cell. replace (S i - 1)%nat with i by lia. rewrite El, Er, Fl, Fr. cbv zeta.
  unfold div. destruct (Reqb_spec (h - xl + (xr - h)) 0); [lra|]. cbn [bind]. f_equal. field. lra.
Qed.

(** C73: for every table (narrowing storages too) the class returns the tabulated area at every tabulated depth, the first
    area below the table and the last above it. *)
Theorem C73_table_class_is_exact : forall hs As t, ascending hs -> Tabular_init hs As = Some t ->
  (forall i h a, nth_error hs i = Some h -> nth_error As i = Some a -> Tabular_A_sj t h = Some a) /\
  (forall h x0 a0, nth_error hs 0 = Some x0 -> nth_error As 0 = Some a0 -> h <= x0 -> Tabular_A_sj t h = Some a0) /\
  (forall h xn an, nth_error hs (length hs - 1) = Some xn -> nth_error As (length hs - 1) = Some an -> xn <= h -> Tabular_A_sj t h = Some an).
Proof.
  intros hs As t Asc Ht. destruct (init_inv hs As t Ht) as (L & L2 & Et).
  destruct (nth_some hs 0) as [x0 E0]; [lia|]. destruct (nth_some hs (length hs - 1)) as [xn En]; [lia|].
  destruct (nth_some As 0) as [a0 F0]; [lia|]. destruct (nth_some As (length hs - 1)) as [an Fn]; [lia|].
  assert (Eh : t_h t = hs) by (rewrite Et; reflexivity). assert (EA : t_A t = As) by (rewrite Et; reflexivity).
  assert (LI : forall h, _) by (exact (fun h => limited_interp hs As t Asc Ht As h x0 xn a0 an (eq_sym L) E0 En F0 Fn)).
  unfold Tabular_A_sj. rewrite Eh, EA. split; [|split].
  - intros [|i] h a Ei Fi.
    + rewrite E0 in Ei. injection Ei as <-. rewrite F0 in Fi. injection Fi as <-. apply LI. lra.
    + assert (Li : (S i < length hs)%nat) by (apply nth_error_Some; congruence).
      destruct (nth_some hs i) as [xl El]; [lia|]. destruct (nth_some As i) as [al Fl]; [lia|].
      assert (xl < h) by (apply (Asc i (S i)); auto).
      destruct (proj2 (proj2 (LI h)) i xl h al a El Ei Fl Fi ltac:(lra)) as [_ ->]. f_equal. field. lra.
  - intros h x0' a0' E0' F0' Hh. rewrite E0 in E0'. injection E0' as <-. rewrite F0 in F0'. injection F0' as <-. now apply LI.
  - intros h xn' an' En' Fn' Hh. rewrite En in En'. injection En' as <-. rewrite Fn in Fn'. injection Fn' as <-. now apply LI.
Qed.

(** Non-decreasing lists: first and last entries are the extremes. *)
Lemma nondecreasing_ends l y0 yn : nondecreasing l -> nth_error l 0 = Some y0 -> nth_error l (length l - 1) = Some yn -> lmin l = y0 /\ lmax l = yn.
Proof.
  intros Mono F0 Fn. assert (Ne : l <> []) by (destruct l; [discriminate|congruence]). split.
  - apply Rle_antisym; [apply lmin_le; eapply nth_error_In; eauto|].
    destruct (In_nth_error l (lmin l) (lmin_in l Ne)) as [k K]. apply (Mono 0%nat k); auto. lia.
  - apply Rle_antisym; [|apply lmax_ge; eapply nth_error_In; eauto].
    destruct (In_nth_error l (lmax l) (lmax_in l Ne)) as [k K].
    assert (k < length l)%nat by (apply nth_error_Some; congruence). apply (Mono k (length l - 1)%nat); auto. lia.
Qed.

Lemma cumtrapz_rising hs : forall As acc, length hs = length As -> nondecreasing As -> (forall x, In x hs -> 0 <= x) ->
  nondecreasing (cumtrapz_from acc hs As) /\ (hs <> [] -> nth_error (cumtrapz_from acc hs As) 0 = Some acc).
Proof.
  induction hs as [|h0 [|h1 hs] IH]; intros [|a0 [|a1 As]] acc L Mono P; simpl in L; try discriminate.
  - split; [|congruence]. intros i j a b _ Ha. destruct i; discriminate.
  - split; [|reflexivity]. intros i j a b H Ha Hb. destruct i as [|i]; [|destruct i; discriminate]. destruct j as [|j]; [|destruct j; discriminate].
    simpl in *. injection Ha as <-. injection Hb as <-. lra.
  - assert (A01 : a0 <= a1) by (apply (Mono 0%nat 1%nat); auto).
    assert (P0 : 0 <= h0) by (apply P; left; auto). assert (P1 : 0 <= h1) by (apply P; right; left; auto).
    assert (L' : length (h1 :: hs) = length (a1 :: As)) by (simpl; lia).
    destruct (IH (a1 :: As) (acc + (a1 - a0) * (h0 + h1) / 2) L') as [I1 I2].
    { intros i j a b H Ha Hb. apply (Mono (S i) (S j)); auto. lia. }
    { intros x Hx. apply P. right; auto. }
    specialize (I2 ltac:(discriminate)).
    assert (Q : 0 <= (a1 - a0) * (h0 + h1) / 2) by (apply Rmult_le_pos; [apply Rmult_le_pos|]; lra).
    change (cumtrapz_from acc (h0 :: h1 :: hs) (a0 :: a1 :: As)) with (acc :: cumtrapz_from (acc + (a1 - a0) * (h0 + h1) / 2) (h1 :: hs) (a1 :: As)).
    split; [|reflexivity]. set (r := cumtrapz_from _ _ _) in *. intros [|i] [|j] a b H Ha Hb; simpl in Ha, Hb; try lia.
    + injection Ha as <-. injection Hb as <-. lra.
    + injection Ha as <-. assert (acc + (a1 - a0) * (h0 + h1) / 2 <= b) by (apply (I1 0%nat j); auto; lia). lra.
    + apply (I1 i j); auto. lia.
Qed.

(** C73: the class and the compiled function report the same area and volume at every depth inside the table, and, for a
    storage that does not narrow upwards and is tabulated from a depth of at least 0, at every depth at all. *)
Theorem C73_tabular_storages_agree : forall hs As t h x0 xn, ascending hs -> Tabular_init hs As = Some t ->
  nth_error hs 0 = Some x0 -> nth_error hs (length hs - 1) = Some xn ->
  (x0 < h <= xn \/ 0 <= x0 /\ nondecreasing As) ->
  Tabular_A_sj t h = tabular_area h hs As /\ Tabular_V_sj t h = tabular_volume h hs As (volume_table hs As).
Proof.
  intros hs As t h x0 xn Asc Ht E0 En Hc. destruct (init_inv hs As t Ht) as (L & L2 & Et).
  assert (Ne : hs <> []) by (destruct hs; [simpl in L2; lia|congruence]).
  set (Vs := volume_table hs As).
  assert (Lv : length Vs = length hs) by (apply cumtrapz_length; auto).
  destruct (nth_some As 0) as [a0 F0]; [lia|]. destruct (nth_some As (length hs - 1)) as [an Fn]; [lia|].
  destruct (nth_some Vs 0) as [v0 G0]; [lia|]. destruct (nth_some Vs (length hs - 1)) as [vn Gn]; [lia|].
  destruct (limited_interp hs As t Asc Ht As h x0 xn a0 an (eq_sym L) E0 En F0 Fn) as (A1 & A2 & A3).
  destruct (limited_interp hs As t Asc Ht Vs h x0 xn v0 vn Lv E0 En G0 Gn) as (V1 & V2 & V3).
  destruct (ends hs As t Asc Ht) as (x0' & xn' & E0' & En' & X & Ew). rewrite E0 in E0'. injection E0' as <-. rewrite En in En'. injection En' as <-.
  unfold Tabular_A_sj, Tabular_V_sj. replace (t_h t) with hs by (rewrite Et; reflexivity). replace (t_A t) with As by (rewrite Et; reflexivity).
  replace (t_V t) with Vs by (rewrite Et; reflexivity). replace (t_Amax t) with (lmax As) by (rewrite Et; reflexivity). cbv zeta.
  unfold tabular_area, tabular_volume.
  assert (Ends : 0 <= x0 -> nondecreasing As -> (lmin As = a0 /\ lmax As = an) /\ (lmin Vs = v0 /\ lmax Vs = vn)).
  { intros P Mono. split; [apply nondecreasing_ends; auto; now rewrite <- L|].
    apply nondecreasing_ends; [|exact G0|now rewrite Lv].
    apply (cumtrapz_rising hs As 0 L Mono). intros x Hx. destruct (In_nth_error hs x Hx) as [[|k] K]; [rewrite E0 in K; injection K as <-; auto|].
    assert (x0 < x) by (apply (Asc 0%nat (S k)); auto; lia). lra. }
  destruct (locate hs h Asc Ne) as [(x & Ex & Hx)|[(x & Ex & Hx)|(i & xl & xr & El & Er & Hx)]].
  - rewrite E0 in Ex. injection Ex as <-. destruct Hc as [Hc|[P Mono]]; [lra|]. destruct (Ends P Mono) as ((M1 & _) & (M2 & _)).
    rewrite (ss_zero hs h x0 E0 Hx). cbn [Nat.eqb]. rewrite (A1 Hx), (V1 Hx), M1, M2. cbn [bind]. split; [reflexivity|].
    assert (W : within t h = x0) by (rewrite Ew; destruct (Rltb_spec h x0); [reflexivity|]; destruct (Rltb_spec xn h); lra).
    rewrite W, Rmax_right by lra. f_equal. ring.
  - rewrite En in Ex. injection Ex as <-. destruct Hc as [Hc|[P Mono]]; [lra|]. destruct (Ends P Mono) as ((_ & M1) & (_ & M2)).
    rewrite (ss_last hs h xn Asc En Hx). replace (Nat.eqb (length hs) 0) with false by (symmetry; apply Nat.eqb_neq; lia).
    rewrite Nat.leb_refl. rewrite A2, V2 by lra. rewrite M1, M2. cbn [bind]. split; [reflexivity|].
    assert (W : within t h = xn) by (rewrite Ew; destruct (Rltb_spec h x0); [lra|]; destruct (Rltb_spec xn h); lra).
    rewrite W, Rmax_left by lra. assert (LG : lmax hs = xn) by (eapply last_is_greatest; eauto). rewrite LG. f_equal. ring.
  - assert (Li : (S i < length hs)%nat) by (apply nth_error_Some; congruence).
    destruct (nth_some As i) as [al Fl]; [lia|]. destruct (nth_some As (S i)) as [ar Fr]; [lia|].
    destruct (nth_some Vs i) as [vl Gl]; [lia|]. destruct (nth_some Vs (S i)) as [vr Gr]; [lia|].
    rewrite (ss_inside hs h i xl xr Asc El Er) by lra. replace (Nat.eqb (S i) 0) with false by reflexivity.
    replace (Nat.leb (length hs) (S i)) with false by (symmetry; apply Nat.leb_gt; lia).
    assert (xl < xr) by (apply (Asc i (S i)); auto).
    rewrite (cell_chord h hs As i xl xr al ar), (cell_chord h hs Vs i xl xr vl vr) by auto.
    destruct (A3 i xl xr al ar El Er Fl Fr Hx) as [W ->]. destruct (V3 i xl xr vl vr El Er Gl Gr Hx) as [_ ->]. cbn [bind].
    split; [reflexivity|]. rewrite W, Rmax_right by lra. f_equal. ring.
Qed.

(** Finding (C73): for a storage that narrows upwards they differ: 5 m2 at the bottom and 2 m2 from depth 1 on with the
    class, the other way round with the compiled function. *)
Theorem C73_narrowing_storage_refuted :
  exists t, Tabular_init [0; 1] [5; 2] = Some t /\ Tabular_A_sj t 0 = Some 5 /\ tabular_area 0 [0; 1] [5; 2] = Some 2 /\
  forall h : R, 1 < h -> Tabular_A_sj t h = Some 2 /\ tabular_area h [0; 1] [5; 2] = Some 5.
Proof.
  destruct C11_narrowing_storage_refuted as (N1 & _ & N3 & _).
  assert (Asc : ascending [0; 1]).
  { intros i j a b Hij Ha Hb. destruct i as [|[|i]], j as [|[|j]]; simpl in *; try lia;
      try (destruct i; discriminate); try (destruct j; discriminate); injection Ha as <-; injection Hb as <-; lra. }
  eexists. split; [reflexivity|].
  destruct (C73_table_class_is_exact [0; 1] [5; 2] _ Asc eq_refl) as (_ & B & C).
  split; [apply (B 0 0 5); auto; lra|]. split; [exact N1|]. intros h Hh. split; [|auto]. apply (C h 1 2); auto; lra.
Qed.

(** C73: functional storages agree at every depth of at least 0 (the depths passed by a model are at least the minimum
    depth). *)
Theorem C73_functional_storages_agree : forall (h a b c : arr) j, 0 <= h j -> b j <> -1 ->
  fst (Functional_A_sj h a b c) j = functional_area (h j) (a j) (b j) (c j) /\
  Some (fst (Functional_V_sj h a b c) j) = functional_volume (h j) (a j) (b j) (c j).
Proof.
  intros h a b c j Hh Hb. unfold Functional_A_sj, Functional_V_sj, functional_area, functional_volume, no_negative. cbn [fst].
  destruct (Rltb_spec (h j) 0); [lra|]. split; [reflexivity|]. unfold div. destruct (Reqb_spec (b j + 1) 0); [lra|]. cbn [bind].
  f_equal. field. lra.
Qed.
(** Finding (C73): below the bottom the class reports the area of an empty storage where the compiled function reports 0,
    and it overwrites the negative depths in the caller's array. *)
Theorem C73_negative_depth_refuted : forall (h a b c : arr) j, h j < 0 -> 0 < b j -> 0 < c j ->
  fst (Functional_A_sj h a b c) j = c j /\ functional_area (h j) (a j) (b j) (c j) = 0 /\
  snd (Functional_A_sj h a b c) j = 0 /\ snd (Functional_V_sj h a b c) j = 0.
Proof.
  intros h a b c j Hh Hb Hc. unfold Functional_A_sj, Functional_V_sj, functional_area, no_negative. cbn [fst snd].
  destruct (Rltb_spec (h j) 0); [|lra]. unfold fpow. destruct (Reqb_spec 0 0); [|lra]. destruct (Reqb_spec (b j) 0); [lra|].
  repeat split; ring.
Qed.

(** ** All superjunctions of a model *)

Lemma from_table_spec n store_of value h e a a' : from_table n store_of value h e a = Some a' -> forall j,
  (j < n)%nat -> match store_of j with
    | ByTable s => if Nat.eqb s (fst e) then value (snd e) (h j) = Some (a' j) else a' j = a j
    | ByFunction _ _ _ => a' j = a j end.
Proof.
  intros E. unfold from_table in E.
  assert (G : (forall j, (j < n)%nat -> match store_of j with
    | ByTable s => if Nat.eqb s (fst e) then value (snd e) (h j) = Some (a' j) else a' j = a j
    | ByFunction _ _ _ => a' j = a j end) /\ (forall j, (n <= j)%nat -> a' j = a j)); [|apply G].
  revert E. apply (for_opt_inv (fun m (b : arr) => (forall j, (j < m)%nat -> match store_of j with
    | ByTable s => if Nat.eqb s (fst e) then value (snd e) (h j) = Some (b j) else b j = a j
    | ByFunction _ _ _ => b j = a j end) /\ (forall j, (m <= j)%nat -> b j = a j))).
  - split; [intros; lia|auto].
  - intros m b b' Hm [I1 I2] Eb. destruct (store_of m) as [? ? ?|s] eqn:Es.
    + injection Eb as <-. split; [|intros; apply I2; lia]. intros j Hj. destruct (Nat.eq_dec j m) as [->|]; [rewrite Es; apply I2; lia|apply I1; lia].
    + destruct (Nat.eqb s (fst e)) eqn:Ee.
      * destruct (value (snd e) (h m)) as [v|] eqn:Ev; [|discriminate]. cbn [bind] in Eb. injection Eb as <-. split.
        -- intros j Hj. destruct (Nat.eq_dec j m) as [->|Hne]; [rewrite Es, Ee, upd_eq; exact Ev|].
           rewrite upd_neq by auto. apply I1. lia.
        -- intros j Hj. rewrite upd_neq by lia. apply I2. lia.
      * injection Eb as <-. split; [|intros; apply I2; lia]. intros j Hj.
        destruct (Nat.eq_dec j m) as [->|]; [rewrite Es, Ee; apply I2; lia|apply I1; lia].
Qed.

Lemma from_tables_spec n store_of value h l : forall a a', NoDup (map fst l) -> from_tables n store_of value h l a = Some a' -> forall j, (j < n)%nat ->
  match store_of j with
  | ByFunction _ _ _ => a' j = a j
  | ByTable s => (forall t, In (s, t) l -> value t (h j) = Some (a' j)) /\ (~ In s (map fst l) -> a' j = a j)
  end.
Proof.
  induction l as [|[s0 t0] l IH]; intros a a' Nd E j Hj.
  - injection E as <-. destruct (store_of j); auto. split; [intros t []|auto].
  - cbn [from_tables] in E. destruct (from_table _ _ _ _ _ a) as [a1|] eqn:E1; [|discriminate]. cbn [bind] in E.
    cbn [map fst] in Nd. inversion Nd as [|? ? Nn Nd']; subst.
    pose proof (from_table_spec _ _ _ _ _ _ _ E1 j Hj) as X1. specialize (IH a1 a' Nd' E j Hj). cbn [fst snd] in X1.
    destruct (store_of j) as [? ? ?|s]; [congruence|]. destruct IH as [I1 I2].
    destruct (Nat.eqb_spec s s0) as [->|Hne].
    + split.
      * intros t [[= <-]|I]; [rewrite (I2 Nn); exact X1|]. exfalso. apply Nn. change s0 with (fst (s0, t)). now apply in_map.
      * intros F. exfalso. apply F. now left.
    + split.
      * intros t [[= <- _]|I]; [congruence|auto].
      * intros F. rewrite I2; [exact X1|]. intros I. apply F. now right.
Qed.

Lemma factory_entries n store_of storages : forall l, NoDup (map fst storages) -> storage_factory n store_of storages = Some l ->
  NoDup (map fst l) /\ (forall s, In s (map fst l) -> In s (map fst storages)) /\
  (forall s hs As, In (s, (hs, As)) storages -> used n store_of s = true -> exists t, Tabular_init hs As = Some t /\ In (s, t) l).
Proof.
  induction storages as [|[s0 [h0 A0]] rest IH]; intros l Nd E; cbn [storage_factory map fst] in *.
  - injection E as <-. repeat split; [constructor|intros s []|intros s hs As []].
  - inversion Nd as [|? ? Nn Nd']; subst. destruct (used n store_of s0) eqn:Eu.
    + destruct (Tabular_init h0 A0) as [t|] eqn:Et; [|discriminate]. cbn [bind] in E.
      destruct (storage_factory n store_of rest) as [l'|] eqn:El; [|discriminate]. cbn [bind] in E. injection E as <-.
      destruct (IH l' Nd' eq_refl) as (I1 & I2 & I3). cbn [map fst]. split; [|split].
      * constructor; auto.
      * intros s [<-|I]; [left; auto|right; auto].
      * intros s hs As [[= <- <- <-]|I] Hu; [exists t; split; [auto|now left]|].
        destruct (I3 s hs As I Hu) as (t' & E' & J). exists t'. split; [auto|now right].
    + destruct (IH l Nd' E) as (I1 & I2 & I3). split; [auto|]. split; [intros s I; right; auto|].
      intros s hs As [[= <- <- <-]|I] Hu; [congruence|eauto].
Qed.

Lemma used_by n store_of j s : (j < n)%nat -> store_of j = ByTable s -> used n store_of s = true.
Proof.
  intros Hj E. unfold used. apply existsb_exists. exists j. split; [apply in_seq; lia|]. rewrite E. apply Nat.eqb_refl.
Qed.

(** C73: in whatever order the dictionary lists the tables, every superjunction gets the area and the volume of the table
    with its own name, or of its own coefficients. A superjunction whose table is missing silently keeps its old values. *)
Theorem C73_every_storage_uses_its_own_table : forall n store_of storages factory H z mn A0 A V0 V,
  NoDup (map fst storages) -> storage_factory n store_of storages = Some factory ->
  compute_storage_areas n store_of factory H z mn A0 = Some A -> compute_storage_volumes n store_of factory H z mn V0 = Some V ->
  forall j, (j < n)%nat -> let h := Rmax (H j - z j) mn in
  match store_of j with
  | ByFunction a b c => 0 <= mn -> b <> -1 -> A j = functional_area h a b c /\ Some (V j) = functional_volume h a b c
  | ByTable s =>
      (forall hs As, In (s, (hs, As)) storages ->
         exists t, Tabular_init hs As = Some t /\ Tabular_A_sj t h = Some (A j) /\ Tabular_V_sj t h = Some (V j)) /\
      (~ In s (map fst storages) -> A j = A0 j /\ V j = V0 j)
  end.
Proof.
  intros n store_of storages factory H z mn A0 A V0 V Nd Ef EA EV j Hj h.
  destruct (factory_entries _ _ _ _ Nd Ef) as (F1 & F2 & F3).
  pose proof (from_tables_spec _ _ _ _ _ _ _ F1 EA j Hj) as XA. pose proof (from_tables_spec _ _ _ _ _ _ _ F1 EV j Hj) as XV.
  destruct (store_of j) as [a b c|s] eqn:Es.
  - intros Hm Hb. rewrite XA, XV. unfold by_function. rewrite Es.
    assert (P : 0 <= storage_depth (H j) (z j) mn) by (unfold storage_depth; pose proof (Rmax_r (H j - z j) mn); lra).
    destruct (C73_functional_storages_agree (fun j => storage_depth (H j) (z j) mn) (coef (fun a _ _ => a) store_of)
      (coef (fun _ b _ => b) store_of) (coef (fun _ _ c => c) store_of) j P) as [X1 X2].
    { unfold coef. rewrite Es. exact Hb. }
    rewrite X1, X2. unfold coef. rewrite Es. auto.
  - destruct XA as [XA1 XA2]. destruct XV as [XV1 XV2]. split.
    + intros hs As I. destruct (F3 s hs As I (used_by n store_of j s Hj Es)) as (t & Et & It). exists t. split; [auto|]. split; [exact (XA1 t It)|exact (XV1 t It)].
    + intros Ni. assert (Nf : ~ In s (map fst factory)) by auto. rewrite (XA2 Nf), (XV2 Nf). unfold by_function. rewrite Es. auto.
Qed.

(** Three superjunctions: a cone, and two ponds listed in an order other than the alphabetical one. *)
Example C73_example :
  let store_of := fun j : nat => match j with O => ByFunction 3 2 0 | S O => ByTable 7 | _ => ByTable 4 end in
  let storages := [(7%nat, ([0; 1; 3], [2; 5; 5])); (4%nat, ([0; 2], [1; 4]))] in
  exists factory A V, NoDup (map fst storages) /\ storage_factory 3 store_of storages = Some factory /\
    compute_storage_areas 3 store_of factory (fun _ => 2) (fun _ => 0) 0 (fun _ => 0) = Some A /\
    compute_storage_volumes 3 store_of factory (fun _ => 2) (fun _ => 0) 0 (fun _ => 0) = Some V /\ A 1%nat = 5 /\ A 2%nat = 4.
Proof.
  intros store_of storages.
  assert (Asc : ascending [0; 1; 3]).
  { intros i j a b Hij Ha Hb. destruct i as [|[|[|i]]], j as [|[|[|j]]]; simpl in *; try lia;
      try (destruct i; discriminate); try (destruct j; discriminate); injection Ha as <-; injection Hb as <-; lra. }
  assert (Asc2 : ascending [0; 2]).
  { intros i j a b Hij Ha Hb. destruct i as [|[|i]], j as [|[|j]]; simpl in *; try lia;
      try (destruct i; discriminate); try (destruct j; discriminate); injection Ha as <-; injection Hb as <-; lra. }
  assert (D : storage_depth 2 0 0 = 2) by (unfold storage_depth; rewrite Rmax_left by lra; lra).
  destruct (Tabular_init [0; 1; 3] [2; 5; 5]) as [t7|] eqn:E7; [|discriminate].
  destruct (Tabular_init [0; 2] [1; 4]) as [t4|] eqn:E4; [|discriminate].
  assert (T7 : Tabular_A_sj t7 2 = Some 5 /\ exists v, Tabular_V_sj t7 2 = Some v).
  { destruct C11_table as (_ & _ & T). destruct (C73_tabular_storages_agree _ _ _ 2 0 3 Asc E7 eq_refl eq_refl ltac:(left; lra)) as [-> ->].
    split; [exact T|]. unfold tabular_volume. rewrite (ss_inside [0; 1; 3] 2 1 1 3 Asc eq_refl eq_refl) by lra. cbn [Nat.eqb Nat.leb length].
    eexists. apply (cell_chord 2 [0; 1; 3] (volume_table [0; 1; 3] [2; 5; 5]) 1 1 3 _ _ eq_refl eq_refl eq_refl eq_refl). lra. }
  assert (T4 : Tabular_A_sj t4 2 = Some 4 /\ exists v, Tabular_V_sj t4 2 = Some v).
  { split; [apply (C73_table_class_is_exact _ _ _ Asc2 E4) with (i := 1%nat); reflexivity|].
    destruct (C73_tabular_storages_agree _ _ _ 2 0 2 Asc2 E4 eq_refl eq_refl ltac:(left; lra)) as [_ ->].
    unfold tabular_volume. rewrite (ss_inside [0; 2] 2 0 0 2 Asc2 eq_refl eq_refl) by lra. cbn [Nat.eqb Nat.leb length].
    eexists. apply (cell_chord 2 [0; 2] (volume_table [0; 2] [1; 4]) 0 0 2 _ _ eq_refl eq_refl eq_refl eq_refl). lra. }
  destruct T7 as (A7 & v7 & V7). destruct T4 as (A4 & v4 & V4).
  exists [(7%nat, t7); (4%nat, t4)]. do 2 eexists.
  split; [repeat constructor; simpl; intuition discriminate|].
  split; [unfold storages; cbn -[Tabular_init]; rewrite E7, E4; reflexivity|].
  split; [unfold compute_storage_areas, from_tables, from_table; cbn -[Tabular_A_sj storage_depth upd]; rewrite D, A7; cbn -[Tabular_A_sj storage_depth upd]; rewrite ?D, A4; reflexivity|].
  split; [unfold compute_storage_volumes, from_tables, from_table; cbn -[Tabular_V_sj storage_depth upd]; rewrite D, V7; cbn -[Tabular_V_sj storage_depth upd]; rewrite ?D, V4; reflexivity|].
  split; [rewrite upd_neq by lia; apply upd_eq|apply upd_eq].
Qed.
