(** C71: the cross-section classes that work on arrays (geometry.py). *)
From Verif Require Import Prelude M_Coeffs M_Geometry S_Geometry P_Geometry M_GeometryPy.
From Coq Require Import List.
Import ListNotations.

(** ** Classes of regular shapes *)

Lemma put_both c (v w a : arr) i : put c v (put (fun j => negb (c j)) w a) i = if c i then v i else w i.
Proof. unfold put. destruct (c i); reflexivity. Qed.
Lemma depths_eq h0 h1 i : depths h0 h1 i = floor0 (mid (h0 i) (h1 i)).
Proof. reflexivity. Qed.
Lemma capped_eq g y i : capped g y i = cap (g i) (y i).
Proof. reflexivity. Qed.
Lemma array_theta_eq d y i : d i <> 0 -> circle_theta (d i) (y i) = Some (array_theta d y i).
Proof.
  intros D. unfold circle_theta. rewrite div_some by lra. cbn [bind]. unfold array_theta, put. reflexivity.
Qed.
Lemma array_R_ik_eq A Pe i : array_R_ik A Pe i = R_ik (A i) (Pe i).
Proof. reflexivity. Qed.

(** Every entry of the arrays that a class returns is what the compiled functions return for the depths and dimensions at
    that entry.  The width of the slot is the keyword [pslot] for round and closed rectangular sections. *)
Theorem C71_classes_agree_with_compiled : forall code pslot pe7 (sec : nat -> section) h0 h1 old i,
  (1 <= code <= 9)%nat -> (forall j, shape (sec j) = code) -> dims_ok (sec i) ->
  (code = 1%nat -> g2 (sec i) = pslot) -> (code = 2%nat -> g3 (sec i) = pslot) ->
  (code = 7%nat -> gm_Pe old = pe7 i) ->
  exists ag,
    class_geometry code pslot pe7 h0 h1 (fun j => g1 (sec j)) (fun j => g2 (sec j)) (fun j => g3 (sec j)) = Some ag /\
    hydraulic_geometry (sec i) (h0 i) (h1 i) old
    = Some {| gm_A := ag_A ag i; gm_Pe := ag_Pe ag i; gm_R := ag_R ag i; gm_B := ag_B ag i |}.
Proof.
  intros code pslot pe7 sec h0 h1 old i Hc Hs D S1 S2 S7.
  pose proof (dims_g1 _ D) as G. pose proof (Hs i) as Ei. unfold dims_ok in D. unfold hydraulic_geometry. rewrite Ei in *.
  destruct code as [|[|[|[|[|[|[|[|[|[|code]]]]]]]]]]; try lia; unfold class_geometry;
    (eexists; split; [reflexivity|]); cbn [ag_A ag_Pe ag_R ag_B]; rewrite ?array_R_ik_eq.
  - unfold Circular_A_ik, Circular_Pe_ik, Circular_B_ik.
    pose proof (array_theta_eq (fun j => g1 (sec j)) (capped (fun j => g1 (sec j)) (depths h0 h1)) i ltac:(lra)) as E1.
    pose proof (array_theta_eq (fun j => g1 (sec j)) (depths h0 h1) i ltac:(lra)) as E2.
    cbv beta in E1, E2. rewrite capped_eq, depths_eq in E1. rewrite depths_eq in E2. rewrite E1, E2. cbn [bind].
    unfold CircularPy_B_ik. rewrite put_both, depths_eq, (S1 eq_refl). reflexivity.
  - unfold Rect_ClosedPy_B_ik. rewrite put_both, depths_eq. unfold Rect_Closed_B_ik. rewrite (S2 eq_refl). reflexivity.
  - reflexivity.
  - unfold TriangularPy_B_ik. rewrite put_both, depths_eq. reflexivity.
  - unfold TrapezoidalPy_B_ik. rewrite put_both, depths_eq. reflexivity.
  - assert (Ey : 0 < cap (g1 (sec i)) (if Rleb (mid (h0 i) (h1 i)) 0 then geom_eps else mid (h0 i) (h1 i))).
    { unfold cap. assert (0 < geom_eps) by (unfold geom_eps; lra).
      destruct (Rleb_spec (mid (h0 i) (h1 i)) 0); destruct (Rltb_spec (g1 (sec i)) geom_eps);
        destruct (Rltb_spec (g1 (sec i)) (mid (h0 i) (h1 i))); lra. }
    unfold Parabolic_Pe_ik, Parabolic_B_ik. cbv zeta. rewrite (div_some (4 * _)) by lra. cbn [bind].
    rewrite (div_some 1).
    2:{ apply Rgt_not_eq. apply Rmult_lt_0_compat; [lra|apply Rinv_0_lt_compat; lra]. }
    cbn [bind]. rewrite div_some by lra. cbn [bind]. reflexivity.
  - unfold Elliptical_A_ik, Elliptical_B_ik. rewrite div_some by lra. cbn [bind]. rewrite (S7 eq_refl). reflexivity.
  - reflexivity.
  - unfold Force_Main_B_ik, Force_MainPy_B_ik. rewrite (Rmult_comm (g2 (sec i))). reflexivity.
Qed.

(** The call of the fallback solver passes no slot (superlink.py:1750-1759), so a slot that the user gave is ignored: a
    full pipe gets another width than in the compiled solver.  Floodplains raise. *)
Theorem C71_user_slot_refuted : forall (s : section) h old, dims_ok s -> shape s = 1%nat \/ shape s = 2%nat ->
  g1 s <= h -> (shape s = 1%nat -> g2 s <> / 1000) -> (shape s = 2%nat -> g3 s <> / 1000) ->
  exists ag gm, class_geometry (shape s) (/ 1000) (fun _ => 0) (fun _ => h) (fun _ => h)
                  (fun _ => g1 s) (fun _ => g2 s) (fun _ => g3 s) = Some ag /\
    hydraulic_geometry s h h old = Some gm /\ ag_B ag O <> gm_B gm.
Proof.
  intros s h old D S H N1 N2. pose proof (dims_g1 s D) as G.
  assert (M : floor0 (mid h h) = h).
  { unfold mid, floor0. replace ((h + h) / 2) with h by lra. destruct (Rltb_spec h 0); lra. }
  unfold dims_ok in D. unfold hydraulic_geometry. destruct S as [E|E]; rewrite E in *.
  - unfold Circular_A_ik, Circular_Pe_ik, Circular_B_ik.
    unfold circle_theta. rewrite !div_some by lra. cbn [bind]. do 2 eexists. split; [reflexivity|]. split; [reflexivity|].
    cbn [ag_B gm_B]. unfold CircularPy_B_ik. rewrite put_both, depths_eq, M.
    destruct (Rltb_spec h (g1 s)); [lra|]. intros X. apply (N1 eq_refl). apply Rmult_eq_reg_r with (g1 s); lra.
  - do 2 eexists. split; [reflexivity|]. split; [reflexivity|]. cbn [ag_B gm_B].
    unfold Rect_ClosedPy_B_ik, Rect_Closed_B_ik. rewrite put_both, depths_eq, M.
    destruct (Rltb_spec h (g1 s)); [lra|]. intros X. apply (N2 eq_refl). apply Rmult_eq_reg_r with (g2 s); lra.
Qed.

(** ** Surveyed sections *)

(** Points from left to right, no two above each other. *)
Fixpoint ascending (t : list (R * R)) : Prop :=
  match t with p0 :: ((p1 :: _) as t') => fst p0 < fst p1 /\ ascending t' | _ => True end.
Fixpoint rising (t : list (R * R)) : Prop :=
  match t with p0 :: ((p1 :: _) as t') => snd p0 <= snd p1 /\ rising t' | _ => True end.

Lemma last_cons (A : Type) (t : list A) (p d d' : A) : t <> [] -> last (p :: t) d = last t d'.
Proof.
  revert p d d'. induction t as [|q t IH]; intros p d d' N; [congruence|]. destruct t as [|r t]; [reflexivity|].
  change (last (p :: q :: r :: t) d) with (last (q :: r :: t) d). rewrite (IH q d d') by discriminate.
  symmetry. apply (IH q d' d'). discriminate.
Qed.
Lemma rising_ge t : forall p q, rising (p :: t) -> In q (p :: t) -> snd p <= snd q.
Proof.
  induction t as [|p1 t IH]; intros p q H I.
  - destruct I as [<-|[]]; lra.
  - destruct H as [H0 H]. destruct I as [<-|I]; [lra|]. pose proof (IH p1 q H I). lra.
Qed.

Lemma chord_between x0 y0 x1 y1 v lo hi : x0 < x1 -> x0 <= v <= x1 -> lo <= y0 <= hi -> lo <= y1 <= hi ->
  lo <= y0 + (y1 - y0) / (x1 - x0) * (v - x0) <= hi.
Proof.
  intros X V A B. set (l := (v - x0) / (x1 - x0)).
  assert (L : 0 <= l <= 1).
  { unfold l. split; [apply Rmult_le_pos; [lra|left; apply Rinv_0_lt_compat; lra]|].
    apply Rmult_le_reg_r with (x1 - x0); [lra|]. unfold Rdiv. rewrite Rmult_assoc, Rinv_l by lra. lra. }
  replace (y0 + (y1 - y0) / (x1 - x0) * (v - x0)) with (y0 + (y1 - y0) * l) by (unfold l; field; lra).
  destruct (Rle_or_lt y0 y1).
  - assert (0 <= (y1 - y0) * l) by (apply Rmult_le_pos; lra).
    assert ((y1 - y0) * l <= (y1 - y0) * 1) by (apply Rmult_le_compat_l; lra). lra.
  - assert (0 <= (y0 - y1) * l) by (apply Rmult_le_pos; lra).
    assert ((y0 - y1) * l <= (y0 - y1) * 1) by (apply Rmult_le_compat_l; lra). lra.
Qed.

Lemma interp_between t : forall p v, ascending (p :: t) -> t <> [] -> fst p <= v <= fst (last t p) ->
  exists y, interp1d (p :: t) v = Some y /\
    (forall lo, (forall q, In q (p :: t) -> lo <= snd q) -> lo <= y) /\
    (forall hi, (forall q, In q (p :: t) -> snd q <= hi) -> y <= hi).
Proof.
  induction t as [|p1 t IH]; intros p v A N V; [congruence|]. destruct A as [A0 A].
  cbn [interp1d]. destruct (Rltb_spec v (fst p)) as [L|L]; [lra|].
  destruct (Rleb_spec v (fst p1)) as [U|U].
  - eexists; split; [reflexivity|]. split.
    + intros lo B. apply (chord_between _ _ _ _ _ lo (Rmax (snd p) (snd p1))); [auto|lra| |];
        (split; [|apply Rmax_l || apply Rmax_r]); apply B; [left|right; left]; auto.
    + intros hi B. apply (chord_between _ _ _ _ _ (Rmin (snd p) (snd p1)) hi); [auto|lra| |];
        (split; [apply Rmin_l || apply Rmin_r|]); apply B; [left|right; left]; auto.
  - assert (N' : t <> []). { intros ->. cbn in V. lra. }
    destruct (IH p1 v A N') as (y & E & B & B').
    { rewrite (last_cons _ t p1 p p1) in V by auto. lra. }
    exists y. split; [exact E|]. split.
    + intros lo Q. apply B. intros q I. apply Q. right; auto.
    + intros hi Q. apply B'. intros q I. apply Q. right; auto.
Qed.

Lemma interp_mono t : forall p v w y z, ascending (p :: t) -> rising (p :: t) -> t <> [] ->
  fst p <= v -> v <= w -> w <= fst (last t p) -> interp1d (p :: t) v = Some y -> interp1d (p :: t) w = Some z -> y <= z.
Proof.
  induction t as [|p1 t IH]; intros p v w y z A C N V VW W Ev Ew; [congruence|].
  destruct A as [A0 A]. destruct C as [C0 C]. cbn [interp1d] in Ev, Ew.
  assert (S : 0 <= (snd p1 - snd p) / (fst p1 - fst p)).
  { apply Rmult_le_pos; [lra|left; apply Rinv_0_lt_compat; lra]. }
  destruct (Rltb_spec v (fst p)); [lra|]. destruct (Rltb_spec w (fst p)); [lra|].
  destruct (Rleb_spec v (fst p1)); destruct (Rleb_spec w (fst p1)).
  - injection Ev as <-. injection Ew as <-. apply Rplus_le_compat_l. apply Rmult_le_compat_l; lra.
  - assert (N' : t <> []). { intros ->. cbn in W. lra. }
    rewrite (last_cons _ t p1 p p1) in W by auto.
    assert (snd p1 <= z).
    { destruct (interp_between t p1 w A N') as (z' & E & B & _); [lra|].
      change (interp1d (p1 :: t) w = Some z) in Ew. rewrite E in Ew. injection Ew as <-.
      apply B. intros q I. apply (rising_ge t p1 q C I). }
    injection Ev as <-.
    pose proof (chord_between (fst p) (snd p) (fst p1) (snd p1) v (snd p) (snd p1) A0 ltac:(lra) ltac:(lra) ltac:(lra)).
    lra.
  - lra.
  - assert (N' : t <> []). { intros ->. cbn in W. lra. }
    rewrite (last_cons _ t p1 p p1) in W by auto. apply (IH p1 v w y z); auto; lra.
Qed.

Lemma ascending_last t : forall p, ascending (p :: t) -> t <> [] -> fst p < fst (last t p).
Proof.
  induction t as [|p1 t IH]; intros p A N; [congruence|]. destruct A as [A0 A]. destruct t as [|p2 t].
  - cbn. lra.
  - rewrite (last_cons _ (p2 :: t) p1 p p1) by discriminate. pose proof (IH p1 A ltac:(discriminate)). lra.
Qed.

Lemma interp_last t : forall p, ascending (p :: t) -> t <> [] ->
  interp1d (p :: t) (fst (last t p)) = Some (snd (last t p)).
Proof.
  induction t as [|p1 t IH]; intros p A N; [congruence|]. pose proof (ascending_last (p1 :: t) p A N) as L.
  destruct A as [A0 A]. cbn [interp1d]. destruct (Rltb_spec (fst (last (p1 :: t) p)) (fst p)); [lra|].
  destruct t as [|p2 t].
  - cbn [last]. destruct (Rleb_spec (fst p1) (fst p1)); [|lra]. f_equal. field. lra.
  - rewrite (last_cons _ (p2 :: t) p1 p p1) by discriminate.
    pose proof (ascending_last (p2 :: t) p1 A ltac:(discriminate)).
    destruct (Rleb_spec (fst (last (p2 :: t) p1)) (fst p1)); [lra|]. apply IH; auto. discriminate.
Qed.
Lemma interp_first t : forall p, ascending (p :: t) -> t <> [] -> interp1d (p :: t) (fst p) = Some (snd p).
Proof.
  intros p A N. destruct t as [|p1 t]; [congruence|]. destruct A as [A0 A]. cbn [interp1d].
  destruct (Rltb_spec (fst p) (fst p)); [lra|]. destruct (Rleb_spec (fst p) (fst p1)); [|lra]. f_equal. field. lra.
Qed.

(** Tables over an equally spaced grid. *)
Lemma table_ascending (f g : arr) : (forall j, f j < f (S j)) ->
  forall m a, ascending (map (fun j => (f j, g j)) (seq a m)).
Proof.
  intros F m. induction m as [|m IH]; intros a; [exact I|]. destruct m as [|m]; [exact I|].
  split; [apply F|]. apply (IH (S a)).
Qed.
Lemma table_rising (f g : arr) : (forall j, g j <= g (S j)) ->
  forall m a, rising (map (fun j => (f j, g j)) (seq a m)).
Proof.
  intros F m. induction m as [|m IH]; intros a; [exact I|]. destruct m as [|m]; [exact I|].
  split; [apply F|]. apply (IH (S a)).
Qed.
Lemma table_last (A : Type) (f : nat -> A) m : forall a d, last (map f (seq a (S m))) d = f (a + m)%nat.
Proof.
  induction m as [|m IH]; intros a d; [cbn; f_equal; lia|].
  change (map f (seq a (S (S m)))) with (f a :: map f (seq (S a) (S m))).
  rewrite (last_cons _ (map f (seq (S a) (S m))) (f a) d d) by discriminate. rewrite IH. f_equal. lia.
Qed.

Lemma least_le l : forall v, least v l <= v /\ (forall w, In w l -> least v l <= w).
Proof.
  induction l as [|u l IH]; intros v; cbn; [split; [lra|intros w []]|].
  destruct (IH (Rmin v u)) as [A B]. split; [pose proof (Rmin_l v u); lra|].
  intros w [<-|I]; [pose proof (Rmin_r v u); lra|auto].
Qed.
Lemma least_in l : forall v, In (least v l) (v :: l).
Proof.
  induction l as [|u l IH]; intros v; cbn; [auto|].
  destruct (IH (Rmin v u)) as [E|E]; [|right; right; exact E]. rewrite <- E. unfold Rmin. destruct Rle_dec; auto.
Qed.
Lemma greatest_ge l : forall v, v <= greatest v l /\ (forall w, In w l -> w <= greatest v l).
Proof.
  induction l as [|u l IH]; intros v; cbn; [split; [lra|intros w []]|].
  destruct (IH (Rmax v u)) as [A B]. split; [pose proof (Rmax_l v u); lra|].
  intros w [<-|I]; [pose proof (Rmax_r v u); lra|auto].
Qed.
Lemma greatest_in l : forall v, In (greatest v l) (v :: l).
Proof.
  induction l as [|u l IH]; intros v; cbn; [auto|].
  destruct (IH (Rmax v u)) as [E|E]; [|right; right; exact E]. rewrite <- E. unfold Rmax. destruct Rle_dec; auto.
Qed.
Lemma ascending_fst t : forall p q, ascending (p :: t) -> In q (p :: t) -> fst p <= fst q <= fst (last t p).
Proof.
  induction t as [|p1 t IH]; intros p q A I; [destruct I as [<-|[]]; cbn; lra|].
  pose proof (ascending_last (p1 :: t) p A ltac:(discriminate)) as L. destruct I as [<-|I]; [lra|].
  destruct A as [A0 A]. pose proof (IH p1 q A I) as B.
  destruct t as [|p2 t]; [cbn in *; lra|]. rewrite (last_cons _ (p2 :: t) p1 p p1) by discriminate. lra.
Qed.
Lemma last_in (A : Type) (t : list A) : forall p, In (last t p) (p :: t).
Proof.
  induction t as [|q t IH]; intros p; [left; auto|]. destruct t as [|r t]; [right; left; auto|].
  right. rewrite (last_cons _ (r :: t) q p q) by discriminate. apply IH.
Qed.

(** Bottom and banks of a survey. *)
Definition bottom (t : list (R * R)) (z : R) : Prop := (forall p, In p t -> z <= snd p) /\ exists p, In p t /\ snd p = z.
Definition bank (t : list (R * R)) (z : R) : Prop := (forall p, In p t -> snd p <= z) /\ exists p, In p t /\ snd p = z.
(** Its points run from left to right; [left] and [right] are its ends. *)
Definition runs (t : list (R * R)) (left right : R) : Prop :=
  ascending t /\ exists p q m, t = p :: m ++ [q] /\ fst p = left /\ fst q = right.

Lemma runs_split t l r : runs t l r -> exists p m, t = p :: m /\ m <> [] /\ ascending (p :: m) /\ fst p = l /\ fst (last m p) = r.
Proof.
  intros (A & p & q & m & -> & <- & <-). exists p, (m ++ [q]). repeat split; auto.
  - destruct m; discriminate.
  - rewrite last_last. reflexivity.
Qed.

Lemma INR_pred_pos k : (2 <= k)%nat -> 0 < INR (k - 1).
Proof. intros K. apply lt_0_INR. lia. Qed.
Lemma spacing_pos a b k : a < b -> (2 <= k)%nat -> 0 < spacing a b k.
Proof. intros A K. unfold spacing. apply Rmult_lt_0_compat; [lra|]. apply Rinv_0_lt_compat. apply INR_pred_pos; auto. Qed.
Lemma linspace_incr a b k j : a < b -> (2 <= k)%nat -> linspace a b k j < linspace a b k (S j).
Proof. intros A K. unfold linspace. rewrite S_INR. pose proof (spacing_pos a b k A K). lra. Qed.
Lemma linspace_0 a b k : linspace a b k O = a.
Proof. unfold linspace. cbn [INR]. ring. Qed.
Lemma linspace_last a b k : (2 <= k)%nat -> linspace a b k (k - 1)%nat = b.
Proof. intros K. unfold linspace, spacing. pose proof (INR_pred_pos k K). field. lra. Qed.
Lemma linspace_range a b k j : a < b -> (2 <= k)%nat -> (j <= k - 1)%nat -> a <= linspace a b k j <= b.
Proof.
  intros A K J. pose proof (spacing_pos a b k A K) as P. split.
  - unfold linspace. pose proof (pos_INR j). assert (0 <= INR j * spacing a b k) by (apply Rmult_le_pos; lra). lra.
  - rewrite <- (linspace_last a b k K) at 2. unfold linspace. apply Rplus_le_compat_l. apply Rmult_le_compat_r; [lra|].
    apply le_INR; auto.
Qed.

Lemma width_pos t lft rgt : runs t lft rgt -> lft < rgt.
Proof. intros Hr. destruct (runs_split _ _ _ Hr) as (p & r & _ & N & A & <- & <-). apply ascending_last; auto. Qed.

Section Survey.
  Variables (t : list (R * R)) (n m : nat) (lft rgt lo hi : R) (sv : survey).
  Hypothesis (Hr : runs t lft rgt) (Hlo : bottom t lo) (Hhi : bank t hi) (Hz : lo < hi).
  Hypothesis (Hn : (2 <= n)%nat) (Hm : (2 <= m)%nat).
  Hypothesis Hi : Irregular_init t n m = Some sv.

  Let xx := linspace lft rgt n.
  Let xstep := spacing lft rgt n.
  Let yy := sample t xx.
  Let h := linspace lo hi m.
  Let tab (f : arr) := map (fun j => (h j, f j)) (seq 0 m).

  Lemma survey_is : sv = {| sv_ymin := lo; sv_ymax := hi; sv_width := rgt - lft;
     sv_A := tab (fun j => A_ik_lut n xx yy (h j)); sv_Pe := tab (fun j => Pe_ik_lut n xstep yy (h j));
     sv_R := tab (array_R_ik (fun j => A_ik_lut n xx yy (h j)) (fun j => Pe_ik_lut n xstep yy (h j)));
     sv_B := tab (fun j => B_ik_lut n xstep yy (h j)) |}.
  Proof.
    destruct (runs_split _ _ _ Hr) as (p & r & E & N & A & L & R). unfold tab, h, yy, xstep, xx. clear tab h yy xstep xx.
    assert (E1 : least (snd p) (map snd r) = lo).
    { destruct Hlo as [B (q & I & Q)]. rewrite E in I, B. destruct (least_le (map snd r) (snd p)) as [B1 B2].
      apply Rle_antisym.
      - rewrite <- Q. destruct I as [<-|I]; [auto|]. apply B2. apply in_map; auto.
      - pose proof (least_in (map snd r) (snd p)) as X. change (snd p :: map snd r) with (map snd (p :: r)) in X.
        apply in_map_iff in X. destruct X as (q' & <- & I'). apply B; auto. }
    assert (E2 : greatest (snd p) (map snd r) = hi).
    { destruct Hhi as [B (q & I & Q)]. rewrite E in I, B. destruct (greatest_ge (map snd r) (snd p)) as [B1 B2].
      apply Rle_antisym.
      - pose proof (greatest_in (map snd r) (snd p)) as X. change (snd p :: map snd r) with (map snd (p :: r)) in X.
        apply in_map_iff in X. destruct X as (q' & <- & I'). apply B; auto.
      - rewrite <- Q. destruct I as [<-|I]; [auto|]. apply B2. apply in_map; auto. }
    assert (E3 : least (fst p) (map fst r) = lft).
    { destruct (least_le (map fst r) (fst p)) as [B1 B2]. rewrite <- L. apply Rle_antisym; auto.
      pose proof (least_in (map fst r) (fst p)) as X. change (fst p :: map fst r) with (map fst (p :: r)) in X.
      apply in_map_iff in X. destruct X as (q' & <- & I'). apply (ascending_fst r p q' A I'). }
    assert (E4 : greatest (fst p) (map fst r) = rgt).
    { destruct (greatest_ge (map fst r) (fst p)) as [B1 B2]. rewrite <- R. apply Rle_antisym.
      - pose proof (greatest_in (map fst r) (fst p)) as X. change (fst p :: map fst r) with (map fst (p :: r)) in X.
        apply in_map_iff in X. destruct X as (q' & <- & I'). apply (ascending_fst r p q' A I').
      - destruct (last_in _ r p) as [X|X]; [rewrite <- X; auto|]. apply B2. apply in_map; auto. }
    rewrite E in Hi. unfold Irregular_init in Hi. rewrite E1, E2, E3, E4 in Hi. rewrite <- E in Hi.
    injection Hi as <-. reflexivity.
  Qed.

  (** Samples of the bed exist and lie between bottom and bank. *)
  Lemma samples_exist i : (i < n)%nat -> exists y, interp1d t (xx i) = Some y /\ yy i = y /\ lo <= y <= hi.
  Proof.
    intros I. destruct (runs_split _ _ _ Hr) as (p & r & E & N & A & L & R).
    pose proof (linspace_range lft rgt n i (width_pos _ _ _ Hr) Hn ltac:(lia)) as X. fold xx in X.
    destruct (interp_between r p (xx i) A N) as (y & Ey & B & B'); [lra|].
    exists y. unfold yy, sample. rewrite E, Ey. repeat split.
    - apply B. rewrite <- E. apply Hlo.
    - apply B'. rewrite <- E. apply Hhi.
  Qed.

  Lemma wet_mono k k' i : k <= k' -> wet yy k i <= wet yy k' i.
  Proof. intros K. unfold wet, Rmax. repeat destruct Rle_dec; lra. Qed.
  Lemma wet_pos k i : 0 <= wet yy k i.
  Proof. unfold wet. apply Rmax_r. Qed.

  Lemma A_lut_mono k k' : k <= k' -> A_ik_lut n xx yy k <= A_ik_lut n xx yy k'.
  Proof.
    intros K. unfold A_ik_lut. apply sum_n_le. intros i I. pose proof (linspace_incr lft rgt n i (width_pos _ _ _ Hr) Hn) as X.
    fold xx in X. pose proof (wet_mono k k' i K). pose proof (wet_mono k k' (S i) K). apply Rmult_le_compat_r; [lra|].
    apply Rmult_le_compat_l; lra.
  Qed.
  Lemma A_lut_pos k : 0 <= A_ik_lut n xx yy k.
  Proof.
    unfold A_ik_lut. apply sum_n_nonneg. intros i I. pose proof (linspace_incr lft rgt n i (width_pos _ _ _ Hr) Hn) as X.
    fold xx in X. pose proof (wet_pos k i). pose proof (wet_pos k (S i)). apply Rmult_le_pos; [|lra].
    apply Rmult_le_pos; lra.
  Qed.
  Lemma A_lut_bottom : A_ik_lut n xx yy lo = 0.
  Proof.
    unfold A_ik_lut. apply sum_n_0. intros i I.
    destruct (samples_exist i ltac:(lia)) as (y & _ & E & Y). destruct (samples_exist (S i) ltac:(lia)) as (z & _ & F & Z).
    unfold wet. rewrite E, F, !Rmax_right by lra. field.
  Qed.
  Lemma telescope (f : arr) k : sum_n (fun i => f (S i) - f i) k = f k - f O.
  Proof. induction k as [|k IH]; cbn [sum_n]; [ring|]. rewrite IH. ring. Qed.
  Lemma A_lut_bank : A_ik_lut n xx yy hi <= (rgt - lft) * (hi - lo).
  Proof.
    assert (T : sum_n (fun i => (xx (S i) - xx i) * (hi - lo)) (n - 1) = (rgt - lft) * (hi - lo)).
    { rewrite sum_n_scal_r, telescope. unfold xx. rewrite linspace_last, linspace_0 by auto. reflexivity. }
    rewrite <- T. unfold A_ik_lut. apply sum_n_le. intros i I.
    pose proof (linspace_incr lft rgt n i (width_pos _ _ _ Hr) Hn) as X. fold xx in X.
    destruct (samples_exist i ltac:(lia)) as (y & _ & E & Y). destruct (samples_exist (S i) ltac:(lia)) as (z & _ & F & Z).
    unfold Rdiv. rewrite Rmult_assoc. apply Rmult_le_compat_l; [lra|].
    unfold wet. rewrite E, F. unfold Rmax. repeat destruct Rle_dec; lra.
  Qed.
  Lemma B_lut_bank : B_ik_lut n xstep yy hi = INR n / INR (n - 1) * (rgt - lft).
  Proof.
    unfold B_ik_lut. rewrite (sum_n_ext _ (fun _ => xstep)).
    - assert (S : forall c k, sum_n (fun _ => c) k = INR k * c).
      { intros c k. induction k as [|k IH]; [cbn; ring|]. cbn [sum_n]. rewrite IH, S_INR. ring. }
      rewrite S. unfold xstep, spacing. pose proof (INR_pred_pos n Hn). field. lra.
    - intros i I. destruct (samples_exist i I) as (y & _ & E & Y). unfold put. rewrite E.
      destruct (Rleb_spec y hi); [reflexivity|lra].
  Qed.

  Lemma tab_cons f : exists r, tab f = (lo, f O) :: r /\ r <> [] /\ last r (lo, f O) = (hi, f (m - 1)%nat) /\ ascending (tab f).
  Proof.
    assert (P : tab f = (lo, f O) :: map (fun j => (h j, f j)) (seq 1 (m - 1))).
    { unfold tab. replace m with (S (m - 1)) at 1 by lia. cbn [seq map]. unfold h at 1. rewrite linspace_0. reflexivity. }
    exists (map (fun j => (h j, f j)) (seq 1 (m - 1))). split; [exact P|]. split.
    - destruct (m - 1)%nat eqn:M; [lia|]. discriminate.
    - split.
      + replace (m - 1)%nat with (S (m - 2)) at 1 by lia. rewrite table_last.
        replace (1 + (m - 2))%nat with (m - 1)%nat by lia. unfold h. rewrite linspace_last by auto. reflexivity.
      + unfold tab. apply table_ascending. intros j. apply linspace_incr; auto.
  Qed.

  (** What a method returns for two end depths: clipping moves the mean depth into the table when the bottom is at 0 or
      below. *)
  Lemma look_up_clip f h0 h1 : look_up (tab f) hi h0 h1 = interp1d (tab f) (cap hi (floor0 (mid h0 h1))).
  Proof. reflexivity. Qed.
  Lemma clip_range h0 h1 : lo <= 0 -> 0 <= hi -> lo <= cap hi (floor0 (mid h0 h1)) <= hi.
  Proof.
    intros. unfold cap, floor0. destruct (Rltb_spec (mid h0 h1) 0).
    - destruct (Rltb_spec hi 0); lra.
    - destruct (Rltb_spec hi (mid h0 h1)); lra.
  Qed.

  Lemma areas h0 h1 h0' h1' : lo <= 0 -> 0 <= hi -> h0 <= h0' -> h1 <= h1' ->
    exists A A', look_up (sv_A sv) (sv_ymax sv) h0 h1 = Some A /\ look_up (sv_A sv) (sv_ymax sv) h0' h1' = Some A' /\
      0 <= A /\ A <= A' /\ A' <= (rgt - lft) * (hi - lo) /\
      (lo = 0 -> h0 + h1 <= 0 -> A = 0).
  Proof.
    intros L0 H0 LA LB. rewrite survey_is. cbn [sv_A sv_ymax]. rewrite !look_up_clip.
    set (f := fun j => A_ik_lut n xx yy (h j)).
    destruct (tab_cons f) as (r & E & N & La & A). rewrite E in A |- *.
    assert (C : rising ((lo, f O) :: r)).
    { rewrite <- E. unfold tab. apply table_rising. intros j. apply A_lut_mono. left. apply linspace_incr; auto. }
    pose proof (clip_range h0 h1 L0 H0) as R0. pose proof (clip_range h0' h1' L0 H0) as R1.
    set (v := cap hi (floor0 (mid h0 h1))) in *. set (w := cap hi (floor0 (mid h0' h1'))) in *.
    assert (VW : v <= w).
    { unfold v, w, cap, floor0, mid. destruct (Rltb_spec ((h0 + h1) / 2) 0); destruct (Rltb_spec ((h0' + h1') / 2) 0);
        repeat match goal with |- context [Rltb ?x ?y] => destruct (Rltb_spec x y) end; lra. }
    destruct (interp_between r (lo, f O) v A N) as (y & Ey & By & _); [rewrite La; cbn [fst]; lra|].
    destruct (interp_between r (lo, f O) w A N) as (z & Ez & _ & Bz); [rewrite La; cbn [fst]; lra|].
    exists y, z. split; [exact Ey|]. split; [exact Ez|].
    assert (F : forall q, In q ((lo, f O) :: r) -> 0 <= snd q <= f (m - 1)%nat).
    { intros q I. rewrite <- E in I. unfold tab in I. apply in_map_iff in I. destruct I as (j & <- & J). apply in_seq in J.
      cbn [snd]. split; [apply A_lut_pos|]. apply A_lut_mono. unfold h. rewrite linspace_last by auto.
      apply linspace_range; auto. lia. }
    split; [apply By; apply F|]. split.
    - apply (interp_mono r (lo, f O) v w y z); auto; [cbn [fst]; lra|rewrite La; cbn [fst]; lra].
    - split.
      + apply Rle_trans with (f (m - 1)%nat); [apply Bz; apply F|]. unfold f, h. rewrite linspace_last by auto. apply A_lut_bank.
      + intros Z D. assert (v = lo).
        { unfold v, cap, floor0, mid. destruct (Rltb_spec ((h0 + h1) / 2) 0); [destruct (Rltb_spec hi 0); lra|].
          destruct (Rltb_spec hi ((h0 + h1) / 2)); lra. }
        pose proof (interp_first r (lo, f O) A N) as X. cbn [fst snd] in X. rewrite H in Ey. rewrite Ey in X.
        injection X as ->. unfold f, h. rewrite linspace_0. apply A_lut_bottom.
  Qed.

  Lemma widths h0 h1 : 0 <= hi -> hi <= (h0 + h1) / 2 ->
    look_up (sv_B sv) (sv_ymax sv) h0 h1 = Some (INR n / INR (n - 1) * (rgt - lft)).
  Proof.
    intros H0 D. rewrite survey_is. cbn [sv_B sv_ymax]. rewrite look_up_clip.
    assert (E0 : cap hi (floor0 (mid h0 h1)) = hi).
    { unfold cap, floor0, mid. destruct (Rltb_spec ((h0 + h1) / 2) 0); [lra|]. destruct (Rltb_spec hi ((h0 + h1) / 2)); lra. }
    rewrite E0. set (f := fun j => B_ik_lut n xstep yy (h j)). destruct (tab_cons f) as (r & E & N & La & A).
    rewrite E in A |- *. pose proof (interp_last r (lo, f O) A N) as X. rewrite La in X. cbn [fst snd] in X. rewrite X.
    f_equal. unfold f, h. rewrite linspace_last by auto. apply B_lut_bank.
  Qed.

  Lemma below_bottom f h0 h1 : 0 < lo -> (h0 + h1) / 2 < lo -> look_up (tab f) (sv_ymax sv) h0 h1 = None.
  Proof.
    intros L D. rewrite survey_is. cbn [sv_ymax]. rewrite look_up_clip.
    assert (V : cap hi (floor0 (mid h0 h1)) < lo).
    { unfold cap, floor0, mid. destruct (Rltb_spec ((h0 + h1) / 2) 0).
      - destruct (Rltb_spec hi 0); lra.
      - destruct (Rltb_spec hi ((h0 + h1) / 2)); lra. }
    destruct (tab_cons f) as (r & E & N & La & _). rewrite E. destruct r as [|q r]; [congruence|]. cbn [interp1d fst].
    destruct (Rltb_spec (cap hi (floor0 (mid h0 h1))) lo); [reflexivity|lra].
  Qed.
  Lemma tables_are : exists fA fPe fR fB, sv_A sv = tab fA /\ sv_Pe sv = tab fPe /\ sv_R sv = tab fR /\ sv_B sv = tab fB.
  Proof. rewrite survey_is. cbn. do 4 eexists. repeat split. Qed.
End Survey.

(** The area of a surveyed section grows with the depth, is 0 in a dry channel and stays within the rectangle around the
    survey; every depth has an area if the lowest point is at or below 0. *)
Theorem C71_survey_area : forall t n m lft rgt lo hi sv h0 h1 h0' h1',
  runs t lft rgt -> bottom t lo -> bank t hi -> lo < hi -> lo <= 0 <= hi -> (2 <= n)%nat -> (2 <= m)%nat ->
  Irregular_init t n m = Some sv -> h0 <= h0' -> h1 <= h1' ->
  exists A A', look_up (sv_A sv) (sv_ymax sv) h0 h1 = Some A /\ look_up (sv_A sv) (sv_ymax sv) h0' h1' = Some A' /\
    0 <= A /\ A <= A' /\ A' <= (rgt - lft) * (hi - lo) /\ (lo = 0 -> h0 + h1 <= 0 -> A = 0).
Proof. intros. apply (areas t n m lft rgt lo hi sv); auto; lra. Qed.

(** The top width of a full section is more than the survey is wide: every sample counts for a whole step, and there is
    one sample more than steps. *)
Theorem C71_survey_width_refuted : forall t n m lft rgt lo hi sv h0 h1,
  runs t lft rgt -> bottom t lo -> bank t hi -> lo < hi -> 0 <= hi -> (2 <= n)%nat -> (2 <= m)%nat ->
  Irregular_init t n m = Some sv -> hi <= (h0 + h1) / 2 ->
  exists B, look_up (sv_B sv) (sv_ymax sv) h0 h1 = Some B /\ B = (rgt - lft) + (rgt - lft) / INR (n - 1) /\ rgt - lft < B.
Proof.
  intros t n m lft rgt lo hi sv h0 h1 Hr Hlo Hhi Hz H0 Hn Hm Hi D. exists (INR n / INR (n - 1) * (rgt - lft)).
  split; [apply (widths t n m lft rgt lo hi sv); auto|].
  pose proof (INR_pred_pos n Hn) as P. pose proof (width_pos _ _ _ Hr) as W.
  assert (E : INR n / INR (n - 1) * (rgt - lft) = (rgt - lft) + (rgt - lft) / INR (n - 1)).
  { replace (INR n) with (INR (n - 1) + 1); [field; lra|]. rewrite <- S_INR. f_equal. lia. }
  split; [exact E|]. rewrite E. assert (0 < (rgt - lft) / INR (n - 1)); [|lra].
  apply Rmult_lt_0_compat; [lra|apply Rinv_0_lt_compat; auto].
Qed.

(** If the survey gives elevations above 0, every depth below its lowest point raises, in a dry channel too: depths are
    limited to 0 and not to the lowest point. *)
Theorem C71_raised_survey_refuted : forall t n m lft rgt lo hi sv h0 h1,
  runs t lft rgt -> bottom t lo -> bank t hi -> 0 < lo < hi -> (2 <= n)%nat -> (2 <= m)%nat ->
  Irregular_init t n m = Some sv -> (h0 + h1) / 2 < lo ->
  look_up (sv_A sv) (sv_ymax sv) h0 h1 = None /\ look_up (sv_Pe sv) (sv_ymax sv) h0 h1 = None /\
  look_up (sv_R sv) (sv_ymax sv) h0 h1 = None /\ look_up (sv_B sv) (sv_ymax sv) h0 h1 = None.
Proof.
  intros t n m lft rgt lo hi sv h0 h1 Hr Hlo Hhi Hz Hn Hm Hi D.
  destruct (tables_are t n m lft rgt lo hi sv Hr Hlo Hhi Hi) as (fA & fPe & fR & fB & -> & -> & -> & ->).
  repeat split; destruct Hz; apply (below_bottom t n m lft rgt lo hi sv Hr Hlo Hhi); auto.
Qed.

(** A ditch 4 m wide and 1 m deep, sampled at 100 points as by default; the same ditch 1 m higher. *)
Definition ditch (z : R) : list (R * R) := [(0, z + 1); (1, z); (3, z); (4, z + 1)].
Lemma ditch_runs z : runs (ditch z) 0 4.
Proof. split; [cbn; repeat split; lra|]. exists (0, z + 1), (4, z + 1), [(1, z); (3, z)]. repeat split. Qed.
Lemma ditch_bottom z : bottom (ditch z) z.
Proof. split; [|exists (1, z); cbn; auto]. intros p I. cbn in I. repeat (destruct I as [<-|I]; [cbn; lra|]). destruct I. Qed.
Lemma ditch_bank z : bank (ditch z) (z + 1).
Proof. split; [|exists (0, z + 1); cbn; auto]. intros p I. cbn in I. repeat (destruct I as [<-|I]; [cbn; lra|]). destruct I. Qed.
Definition pipe (d : R) : section :=
  {| shape := 1%nat; g1 := d; g2 := / 1000; g3 := 0; g4 := 0; g5 := 0; g6 := 0; g7 := 0 |}.
Example C71_example :
  (exists ag, class_geometry 1 (/ 1000) (fun _ => 0) (fun _ => 1) INR (fun j => INR (S j)) (fun _ => / 1000) (fun _ => 0)
              = Some ag /\
     forall i old, hydraulic_geometry (pipe (INR (S i))) 1 (INR i) old
                   = Some {| gm_A := ag_A ag i; gm_Pe := ag_Pe ag i; gm_R := ag_R ag i; gm_B := ag_B ag i |}) /\
  (exists sv A A', Irregular_init (ditch 0) 100 100 = Some sv /\ look_up (sv_A sv) (sv_ymax sv) 0 0 = Some A /\ A = 0 /\
     look_up (sv_A sv) (sv_ymax sv) (1/2) (1/2) = Some A' /\ A' <= 4 /\
     look_up (sv_B sv) (sv_ymax sv) 1 1 = Some (4 + 4 / 99)) /\
  (exists sv, Irregular_init (ditch 1) 100 100 = Some sv /\ look_up (sv_A sv) (sv_ymax sv) (1/2) (1/2) = None).
Proof.
  split; [|split].
  - eexists. split; [reflexivity|]. intros i old.
    destruct (C71_classes_agree_with_compiled 1 (/ 1000) (fun _ => 0) (fun j => pipe (INR (S j))) (fun _ => 1) INR old i)
      as (ag & E & F); try reflexivity; try lia; try discriminate.
    { split; [apply lt_0_INR; lia|cbn; lra]. }
    injection E as <-. exact F.
  - destruct (Irregular_init (ditch 0) 100 100) as [sv|] eqn:E; [|discriminate].
    destruct (C71_survey_area (ditch 0) 100 100 0 4 0 (0 + 1) sv 0 0 (1/2) (1/2)) as (A & A' & E1 & E2 & P & _ & Q & Z);
      auto using ditch_runs, ditch_bottom, ditch_bank; try lra; try lia.
    destruct (C71_survey_width_refuted (ditch 0) 100 100 0 4 0 (0 + 1) sv 1 1) as (B & E3 & E4 & _);
      auto using ditch_runs, ditch_bottom, ditch_bank; try lra; try lia.
    exists sv, A, A'. repeat split; auto; try lra; try (apply Z; lra). rewrite E3, E4. f_equal.
    replace (INR (100 - 1)) with 99; [lra|]. cbn [Nat.sub]. rewrite INR_IZR_INZ. reflexivity.
  - destruct (Irregular_init (ditch 1) 100 100) as [sv|] eqn:E; [|discriminate]. exists sv. split; [reflexivity|].
    apply (C71_raised_survey_refuted (ditch 1) 100 100 0 4 1 (1 + 1) sv (1/2) (1/2));
      auto using ditch_runs, ditch_bottom, ditch_bank; try lra; try lia.
Qed.
