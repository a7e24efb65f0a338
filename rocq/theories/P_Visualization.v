(** C83: the plots show the reported state in the right places. *)
From Coq Require Import Arith List Lra Lia Bool.
From Verif Require Import Prelude M_Layout.
From Verif Require Import M_Visualization.
Import ListNotations.
Local Open Scope R_scope.

(** ** Specification *)

(** Superlink k leads from a to b, and no later superlink of the table does. *)
Definition leads (v : view) (k a b : nat) : Prop := (k < v_K v)%nat /\ v_sj0 v k = a /\ v_sj1 v k = b.
Definition leads_last (v : view) (k a b : nat) : Prop :=
  leads v k a b /\ (forall k', leads v k' a b -> (k' <= k)%nat).
(** The space a path from a to b takes between the two boxes. *)
Definition gap_of (v : view) (gap : nat -> nat -> R) : Prop :=
  forall a b, (forall k, leads_last v k a b -> gap a b = v_len v k) /\ ((forall k, ~ leads v k a b) -> gap a b = 0).
(** Left edge of the i-th box. *)
Definition edge (gap : nat -> nat -> R) (width : R) (js : list nat) (i : nat) : R :=
  sum_n (fun r => width + gap (nth r js 0%nat) (nth (S r) js 0%nat)) i.
(** Water between the bed from (xl, zl) to (xr, zr) and the surface from sl to sr. *)
Definition quad (xl zl sl xr zr sr : R) : shape := [(xl, zl); (xl, sl); (xr, sr); (xr, zr)].
(** The internal junctions stand where the constructor puts them: dx_uk, then one link length after the other. *)
Definition placed (v : view) (dxu : arr) (dx : arr) (i1 : nat -> nat) : Prop :=
  forall k, (k < v_K v)%nat ->
    v_len v k = sum_n (fun l => dx (i1 k + l)%nat) (v_nk v k) /\
    (forall j, (j <= v_nk v k)%nat -> v_x v (v_I1 v k + j)%nat = x_Ik (dxu k) dx (i1 k) j).

(** ** The superlink of a pair *)

Lemma superlink_of_spec v a b :
  match superlink_of v a b with Some k => leads_last v k a b | None => forall k, ~ leads v k a b end.
Proof.
  unfold superlink_of, leads_last, leads.
  induction (v_K v) as [|K IH]; cbn [for_n].
  - intros k [H _]; lia.
  - destruct (Nat.eqb_spec (v_sj0 v K) a) as [Ha|Ha]; destruct (Nat.eqb_spec (v_sj1 v K) b) as [Hb|Hb]; cbn [andb].
    1:{ repeat split; auto. intros k' [H _]; lia. }
    all: destruct (for_n K _ None) as [k|].
    all: try (destruct IH as [[H1 H2] H3]; split; [split; [lia|exact H2]|];
      intros k' [L E]; apply H3; split; [|exact E];
      assert (k' <> K) by (intros ->; tauto); lia).
    all: intros k' [L E]; apply (IH k'); split; [|exact E]; assert (k' <> K) by (intros ->; tauto); lia.
Qed.

Definition the_gap (v : view) (a b : nat) : R := match superlink_of v a b with Some k => v_len v k | None => 0 end.
Lemma the_gap_spec v : gap_of v (the_gap v).
Proof.
  intros a b. unfold the_gap. generalize (superlink_of_spec v a b). destruct (superlink_of v a b) as [k|]; intros S0; split.
  - intros k' [L' M']. destruct S0 as [L M]. specialize (M _ L'). specialize (M' _ L). f_equal; lia.
  - intros N. exfalso. apply (N k). apply S0.
  - intros k [L _]. exfalso. apply (S0 k L).
  - reflexivity.
Qed.
Lemma gap_unique v gap : gap_of v gap -> forall a b, gap a b = the_gap v a b.
Proof.
  intros G a b. unfold the_gap. generalize (superlink_of_spec v a b). destruct (G a b) as [G1 G2].
  destruct (superlink_of v a b); auto.
Qed.

(** ** What is drawn, as one list *)

Definition between (v : view) (a b : nat) (off : R) : list shape :=
  match superlink_of v a b with Some k => superlink_water v k off | None => [] end.
Fixpoint items (v : view) (width : R) (box : nat -> R -> shape) (run : nat -> nat -> R -> list shape) (start : R) (js : list nat) : list shape :=
  match js with
  | [] => []
  | a :: l => box a start ::
      match l with
      | [] => []
      | b :: _ => run a b (start + width) ++ items v width box run (start + width + the_gap v a b) l
      end
  end.
Definition water_box (v : view) (width : R) (a : nat) (x : R) : shape := superjunction_water v a x width.
Definition bed_box (v : view) (width : R) (a : nat) (x : R) : shape := superjunction_bed v a x width.
Definition bed_run (v : view) (a b : nat) (off : R) : list shape :=
  match superlink_of v a b with Some k => [superlink_bed v k off] | None => [] end.
Definition drawn (v : view) (width start : R) (js : list nat) : list shape := items v width (water_box v width) (between v) start js.
Definition beds (v : view) (width start : R) (js : list nat) : list shape := items v width (bed_box v width) (bed_run v) start js.
Fixpoint reach (v : view) (width start : R) (js : list nat) : R :=
  match js with
  | a :: ((b :: _) as l) => reach v width (start + width + the_gap v a b) l
  | _ => start
  end.

Lemma draw_pair_water v width f a b :
  g_water (draw_pair v width f (a, b)) = (g_water f ++ superjunction_water v a (g_off f) width :: between v a b (g_off f + width))%list
  /\ g_beds (draw_pair v width f (a, b)) = (g_beds f ++ superjunction_bed v a (g_off f) width :: bed_run v a b (g_off f + width))%list
  /\ g_off (draw_pair v width f (a, b)) = g_off f + width + the_gap v a b.
Proof.
  unfold draw_pair, between, bed_run, the_gap.
  destruct (superlink_of v a b); cbn; rewrite <- ?app_assoc; cbn; repeat split; auto; lra.
Qed.

Lemma last_cons2 (a b : nat) l d : last (a :: b :: l) d = last (b :: l) d.
Proof. reflexivity. Qed.

Lemma path_water v width : forall l a f,
  let g := fold_left (draw_pair v width) (pairs (a :: l)) f in
  (g_water g ++ [superjunction_water v (last (a :: l) 0%nat) (g_off g) width])%list = (g_water f ++ drawn v width (g_off f) (a :: l))%list
  /\ (g_beds g ++ [superjunction_bed v (last (a :: l) 0%nat) (g_off g) width])%list = (g_beds f ++ beds v width (g_off f) (a :: l))%list
  /\ g_off g = reach v width (g_off f) (a :: l).
Proof.
  induction l as [|b l IH]; intros a f.
  - cbn. repeat split; auto.
  - change (pairs (a :: b :: l)) with ((a, b) :: pairs (b :: l)). cbn [fold_left].
    rewrite last_cons2.
    destruct (draw_pair_water v width f a b) as (W & B & O).
    specialize (IH b (draw_pair v width f (a, b))). cbv zeta in *. destruct IH as (I1 & I2 & I3).
    rewrite I1, I2, I3, W, B, O. repeat split.
    + rewrite <- app_assoc. reflexivity.
    + rewrite <- app_assoc. reflexivity.
Qed.

Lemma some_inj {A} (x y : A) : Some x = Some y -> x = y.
Proof. congruence. Qed.
Lemma plot_water v js width f : plot_profile v js width = Some f ->
  (2 <= length js)%nat /\ g_water f = drawn v width 0 js /\ g_beds f = beds v width 0 js /\ g_off f = reach v width 0 js + width.
Proof.
  unfold plot_profile. destruct js as [|a [|b l]]; try discriminate.
  intros E. apply some_inj in E. subst f. cbn [g_water g_off].
  destruct (path_water v width (b :: l) a (mkFigure [] [] 0 (max_upto (v_H v) (v_M v - 1)) (min_upto (v_H v) (v_M v - 1)))) as (W & B & O).
  cbn [g_water g_beds g_off app] in W, B, O. split; [cbn; lia|]. split; [|split].
  - exact W.
  - exact B.
  - f_equal. exact O.
Qed.

(** Membership, position by position. *)
Lemma edge_cons gap width a b l i :
  edge gap width (a :: b :: l) (S i) = width + gap a b + edge gap width (b :: l) i.
Proof.
  unfold edge. induction i as [|i IH].
  - cbn. lra.
  - cbn [sum_n] in *. rewrite IH. cbn [nth]. lra.
Qed.

Lemma items_in v width box run : forall js start s, In s (items v width box run start js) <->
  (exists i, (i < length js)%nat /\ s = box (nth i js 0%nat) (start + edge (the_gap v) width js i)) \/
  (exists i, (S i < length js)%nat /\
     In s (run (nth i js 0%nat) (nth (S i) js 0%nat) (start + edge (the_gap v) width js i + width))).
Proof.
  induction js as [|a l IH]; intros start s.
  - cbn. split; [tauto|]. intros [[i [H _]]|[i [H _]]]; lia.
  - destruct l as [|b l].
    + cbn. split.
      * intros [<-|[]]. left. exists 0%nat. split; [lia|]. cbn. f_equal. unfold edge; cbn; lra.
      * intros [[i [H E]]|[i [H _]]]; [|lia]. left. assert (i = 0%nat) by lia. subst i. cbn in E. rewrite E.
        f_equal. unfold edge; cbn; lra.
    + change (items v width box run start (a :: b :: l)) with
        (box a start :: run a b (start + width) ++
           items v width box run (start + width + the_gap v a b) (b :: l)).
      cbn [In]. rewrite in_app_iff, IH. split.
      * intros [<-|[B|[[i [L E]]|[i [L E]]]]].
        -- left. exists 0%nat. split; [cbn; lia|]. cbn [nth]. f_equal. unfold edge; cbn; lra.
        -- right. exists 0%nat. split; [cbn; lia|]. cbn [nth].
           replace (start + edge (the_gap v) width (a :: b :: l) 0 + width) with (start + width) by (unfold edge; cbn; lra). exact B.
        -- left. exists (S i). split; [cbn in *; lia|]. rewrite edge_cons. rewrite E. cbn [nth]. f_equal. lra.
        -- right. exists (S i). split; [cbn in *; lia|]. rewrite edge_cons. cbn [nth] in *.
           replace (start + (width + the_gap v a b + edge (the_gap v) width (b :: l) i) + width)
             with (start + width + the_gap v a b + edge (the_gap v) width (b :: l) i + width) by lra. exact E.
      * intros [[i [L E]]|[i [L E]]]; destruct i as [|i].
        -- left. rewrite E. cbn [nth]. f_equal. unfold edge; cbn; lra.
        -- right. right. left. exists i. split; [cbn in *; lia|]. rewrite edge_cons in E. rewrite E. cbn [nth]. f_equal. lra.
        -- right. left. cbn [nth] in E.
           replace (start + width) with (start + edge (the_gap v) width (a :: b :: l) 0 + width) by (unfold edge; cbn; lra). exact E.
        -- right. right. right. exists i. split; [cbn in *; lia|]. rewrite edge_cons in E. cbn [nth] in *.
           replace (start + width + the_gap v a b + edge (the_gap v) width (b :: l) i + width)
             with (start + (width + the_gap v a b + edge (the_gap v) width (b :: l) i) + width) by lra. exact E.
Qed.

Lemma reach_edge v width : forall js start, (1 <= length js)%nat ->
  reach v width start js = start + edge (the_gap v) width js (length js - 1).
Proof.
  induction js as [|a l IH]; intros start L; [cbn in L; lia|].
  destruct l as [|b l].
  - cbn. unfold edge; cbn; lra.
  - change (reach v width start (a :: b :: l)) with (reach v width (start + width + the_gap v a b) (b :: l)).
    rewrite IH by (cbn; lia). cbn [length]. replace (S (S (length l)) - 1)%nat with (S (S (length l) - 1)) by lia.
    rewrite edge_cons. lra.
Qed.

Lemma edge_ext g g' width js i : (forall a b, g a b = g' a b) -> edge g width js i = edge g' width js i.
Proof. intros E. unfold edge. induction i; cbn [sum_n]; [reflexivity|]. rewrite IHi, E. reflexivity. Qed.

Lemma between_in v a b off s : In s (between v a b off) <->
  exists k j, leads_last v k a b /\ (j < v_nk v k)%nat /\ s = link_water v k off j.
Proof.
  unfold between. generalize (superlink_of_spec v a b). destruct (superlink_of v a b) as [k|]; intros S0.
  - unfold superlink_water. rewrite in_map_iff. split.
    + intros (j & <- & H). apply in_seq in H. exists k, j. split; [exact S0|]. split; [lia|reflexivity].
    + intros (k' & j & [L' M'] & H & E).
      destruct S0 as [L M]. assert (k' = k) by (specialize (M _ L'); specialize (M' _ L); lia). subst k'.
      exists j. split; [auto|]. apply in_seq. lia.
  - cbn. split; [tauto|]. intros (k & j & [L _] & _). exact (S0 k L).
Qed.

(** ** Theorems *)

Lemma last_found v k a b : leads_last v k a b -> superlink_of v a b = Some k.
Proof.
  intros [L M]. generalize (superlink_of_spec v a b). destruct (superlink_of v a b) as [k'|]; intros S0.
  - f_equal. destruct S0 as [L' M']. specialize (M _ L'). specialize (M' _ L). lia.
  - destruct (S0 k L).
Qed.

(** The water drawn by plot_profile is exactly: for each superjunction of the path a box from its invert to its reported head; for
    each step of the path along a superlink, the water of each link between its bed and its reported surface, starting at the
    right edge of the box.  The boxes stand one superlink length apart. *)
Theorem C83_profile_draws_the_path : forall v js width f gap, gap_of v gap -> plot_profile v js width = Some f ->
  (forall s, In s (g_water f) <->
     (exists i, (i < length js)%nat /\ let j := nth i js 0%nat in let x := edge gap width js i in
        s = quad x (v_zj v j) (v_H v j) (x + width) (v_zj v j) (v_H v j)) \/
     (exists i k j, (S i < length js)%nat /\ leads_last v k (nth i js 0%nat) (nth (S i) js 0%nat) /\ (j < v_nk v k)%nat /\
        let I := (v_I1 v k + j)%nat in let I' := (v_I1 v k + S j)%nat in let x := edge gap width js i + width in
        s = quad (x + v_x v I) (v_z v I) (v_z v I + v_h v I) (x + v_x v I') (v_z v I') (v_z v I' + v_h v I'))) /\
  g_off f = edge gap width js (length js - 1) + width.
Proof.
  intros v js width f gap G P. destruct (plot_water v js width f P) as (L & W & _ & O).
  assert (E : forall i, edge gap width js i = edge (the_gap v) width js i) by (intros; apply edge_ext, gap_unique, G).
  split.
  - intros s. rewrite W. unfold drawn. rewrite items_in. unfold water_box. split.
    + intros [(i & Li & Es)|(i & Li & B)].
      * left. exists i. split; [exact Li|]. cbv zeta. rewrite E, Es. unfold superjunction_water, quad.
        rewrite !Rplus_0_l. reflexivity.
      * right. apply between_in in B. destruct B as (k & j & Lk & Lj & Es). exists i, k, j.
        split; [exact Li|]. split; [exact Lk|]. split; [exact Lj|]. cbv zeta. rewrite E, Es.
        unfold link_water, quad, at_x, at_z, at_s. rewrite Rplus_0_l.
        rewrite (Rplus_comm (v_x v (v_I1 v k + j)%nat)), (Rplus_comm (v_x v (v_I1 v k + S j)%nat)). reflexivity.
    + intros [(i & Li & Es)|(i & k & j & Li & Lk & Lj & Es)].
      * left. exists i. split; [exact Li|]. cbv zeta in Es. rewrite E in Es. rewrite Es. unfold superjunction_water, quad.
        rewrite !Rplus_0_l. reflexivity.
      * right. exists i. split; [exact Li|]. apply between_in. exists k, j.
        split; [exact Lk|]. split; [exact Lj|]. cbv zeta in Es. rewrite E in Es. rewrite Es.
        unfold link_water, quad, at_x, at_z, at_s. rewrite Rplus_0_l.
        rewrite (Rplus_comm (v_x v (v_I1 v k + j)%nat)), (Rplus_comm (v_x v (v_I1 v k + S j)%nat)). reflexivity.
  - rewrite O, E, reach_edge by lia. lra.
Qed.

(** The bed lines are exactly: the floor of each box, and for each step along a superlink the line through its internal
    junctions at their inverts. *)
Theorem C83_profile_draws_the_beds : forall v js width f gap, gap_of v gap -> plot_profile v js width = Some f ->
  forall s, In s (g_beds f) <->
     (exists i, (i < length js)%nat /\ let j := nth i js 0%nat in let x := edge gap width js i in
        s = [(x, v_zj v j); (x + width, v_zj v j)]) \/
     (exists i k, (S i < length js)%nat /\ leads_last v k (nth i js 0%nat) (nth (S i) js 0%nat) /\
        length s = S (v_nk v k) /\
        forall j, (j <= v_nk v k)%nat -> let I := (v_I1 v k + j)%nat in
          nth j s (0, 0) = (edge gap width js i + width + v_x v I, v_z v I)).
Proof.
  intros v js width f gap G P s. destruct (plot_water v js width f P) as (L & _ & W & _).
  assert (E : forall i, edge gap width js i = edge (the_gap v) width js i) by (intros; apply edge_ext, gap_unique, G).
  assert (B : forall k off, length (superlink_bed v k off) = S (v_nk v k) /\
            forall j, (j <= v_nk v k)%nat -> nth j (superlink_bed v k off) (0, 0) = (off + v_x v (v_I1 v k + j)%nat, v_z v (v_I1 v k + j)%nat)).
  { intros k off. unfold superlink_bed. split; [rewrite map_length, seq_length; reflexivity|]. intros j Hj.
    set (p := fun j : nat => (at_x v k j off, at_z v k j)).
    rewrite (nth_indep _ _ (p 0%nat)) by (rewrite map_length, seq_length; lia).
    rewrite map_nth, seq_nth by lia. unfold p, at_x, at_z. cbn [plus]. rewrite Rplus_comm. reflexivity. }
  rewrite W. unfold beds. rewrite items_in. unfold bed_box. split.
  - intros [(i & Li & Es)|(i & Li & Hb)].
    + left. exists i. split; [exact Li|]. cbv zeta. rewrite E, Es. unfold superjunction_bed. rewrite !Rplus_0_l. reflexivity.
    + right. unfold bed_run in Hb. generalize (superlink_of_spec v (nth i js 0%nat) (nth (S i) js 0%nat)).
      destruct (superlink_of v _ _) as [k|]; [|destruct Hb]. intros Lk. destruct Hb as [<-|[]].
      exists i, k. split; [exact Li|]. split; [exact Lk|]. rewrite E, Rplus_0_l. apply B.
  - intros [(i & Li & Es)|(i & k & Li & Lk & Ls & Es)].
    + left. exists i. split; [exact Li|]. cbv zeta in Es. rewrite E in Es. rewrite Es. unfold superjunction_bed. rewrite !Rplus_0_l. reflexivity.
    + right. exists i. split; [exact Li|]. unfold bed_run. rewrite (last_found v k _ _ Lk). left.
      destruct (B k (0 + edge (the_gap v) width js i + width)) as [B1 B2].
      apply nth_ext with (d := (0, 0)) (d' := (0, 0)); [lia|]. intros j Hj. rewrite B2, Es by lia. rewrite E, Rplus_0_l. reflexivity.
Qed.

(** Without an upstream margin (dx_uk = 0) the drawing of a superlink fills the space between its two boxes exactly; with one it
    reaches into, or beyond, the next box by that margin. *)
Theorem C83_profile_superlink_fits : forall v dxu dx i1 gap js width i k,
  placed v dxu dx i1 -> (forall l, 0 <= dx l) -> gap_of v gap ->
  leads_last v k (nth i js 0%nat) (nth (S i) js 0%nat) -> dxu k = 0 ->
  let at_ j := edge gap width js i + width + v_x v (v_I1 v k + j)%nat in
  at_ 0%nat = edge gap width js i + width /\ at_ (v_nk v k) = edge gap width js (S i) /\
  (forall j, (j < v_nk v k)%nat -> at_ j <= at_ (S j)).
Proof.
  intros v dxu dx i1 gap js width i k Pl D G Lk Z at_. unfold at_.
  destruct (Pl k (proj1 (proj1 Lk))) as [PL PX].
  assert (E : edge gap width js (S i) = edge gap width js i + width + v_len v k).
  { unfold edge. cbn [sum_n]. destruct (G (nth i js 0%nat) (nth (S i) js 0%nat)) as [G1 _]. rewrite (G1 k Lk). lra. }
  repeat split.
  - rewrite PX by lia. unfold x_Ik. cbn [sum_n]. lra.
  - rewrite PX by lia. unfold x_Ik. rewrite E, PL, Z. lra.
  - intros j Hj. rewrite !PX by lia. unfold x_Ik. cbn [sum_n]. specialize (D (i1 k + j)%nat). lra.
Qed.
Theorem C83_profile_overlaps_next_box_refuted : forall v dxu dx i1 gap js width i k,
  placed v dxu dx i1 -> gap_of v gap ->
  leads_last v k (nth i js 0%nat) (nth (S i) js 0%nat) -> 0 < dxu k ->
  edge gap width js i + width + v_x v (v_I1 v k + v_nk v k)%nat = edge gap width js (S i) + dxu k /\
  edge gap width js (S i) < edge gap width js i + width + v_x v (v_I1 v k + v_nk v k)%nat.
Proof.
  intros v dxu dx i1 gap js width i k Pl G Lk Z.
  destruct (Pl k (proj1 (proj1 Lk))) as [PL PX].
  assert (E : edge gap width js (S i) = edge gap width js i + width + v_len v k).
  { unfold edge. cbn [sum_n]. destruct (G (nth i js 0%nat) (nth (S i) js 0%nat)) as [G1 _]. rewrite (G1 k Lk). lra. }
  rewrite E, PX, PL by lia. unfold x_Ik. lra.
Qed.

(** ** Limits *)

Lemma min_upto_le f n : forall i, (i <= n)%nat -> min_upto f n <= f i.
Proof.
  induction n as [|n IH]; intros i H.
  - replace i with 0%nat by lia. cbn; lra.
  - cbn [min_upto]. destruct (Nat.eq_dec i (S n)) as [->|].
    + apply Rmin_r.
    + eapply Rle_trans; [apply Rmin_l|]. apply IH. lia.
Qed.
Lemma max_upto_ge f n : forall i, (i <= n)%nat -> f i <= max_upto f n.
Proof.
  induction n as [|n IH]; intros i H.
  - replace i with 0%nat by lia. cbn; lra.
  - cbn [max_upto]. destruct (Nat.eq_dec i (S n)) as [->|].
    + apply Rmax_r.
    + eapply Rle_trans; [apply IH; lia|apply Rmax_l].
Qed.

(** Range after one step, and that it only grows. *)
Definition covers (f : figure) (y : R) : Prop := g_lo f <= y <= g_hi f.
Lemma draw_pair_grows v width f key : g_lo (draw_pair v width f key) <= g_lo f /\ g_hi f <= g_hi (draw_pair v width f key).
Proof.
  destruct key as [a b]. unfold draw_pair. destruct (superlink_of v a b); cbn; [|lra]. split.
  - eapply Rle_trans; [apply Rmin_l|]. eapply Rle_trans; [apply Rmin_l|]. apply Rmin_l.
  - eapply Rle_trans; [|apply Rmax_l]. eapply Rle_trans; [|apply Rmax_l]. apply Rmax_l.
Qed.
Lemma fold_grows v width : forall l f,
  g_lo (fold_left (draw_pair v width) l f) <= g_lo f /\ g_hi f <= g_hi (fold_left (draw_pair v width) l f).
Proof.
  induction l as [|p l IH]; intros f; cbn [fold_left]; [lra|].
  destruct (draw_pair_grows v width f p), (IH (draw_pair v width f p)). lra.
Qed.
Lemma draw_pair_covers v width f a b k : superlink_of v a b = Some k ->
  let g := draw_pair v width f (a, b) in
  g_lo g <= v_zj v a /\ g_lo g <= v_zj v b /\ v_H v a <= g_hi g /\ v_H v b <= g_hi g /\
  (forall j, (j <= v_nk v k)%nat -> g_lo g <= at_z v k j /\ at_s v k j <= g_hi g).
Proof.
  intros E. unfold draw_pair. rewrite E. cbn. repeat split.
  - eapply Rle_trans; [apply Rmin_l|]. eapply Rle_trans; [apply Rmin_l|]. apply Rmin_r.
  - eapply Rle_trans; [apply Rmin_l|]. apply Rmin_r.
  - eapply Rle_trans; [|apply Rmax_l]. eapply Rle_trans; [|apply Rmax_l]. apply Rmax_r.
  - eapply Rle_trans; [|apply Rmax_l]. apply Rmax_r.
  - eapply Rle_trans; [apply Rmin_r|]. apply (min_upto_le (at_z v k)); auto.
  - eapply Rle_trans; [|apply Rmax_r]. apply (max_upto_ge (at_s v k)); auto.
Qed.
Lemma nth_pairs : forall js i, (S i < length js)%nat -> In (nth i js 0%nat, nth (S i) js 0%nat) (pairs js).
Proof.
  induction js as [|a l IH]; intros i H; [cbn in H; lia|].
  destruct l as [|b l]; [cbn in H; lia|]. destruct i as [|i]; [left; reflexivity|].
  right. apply (IH i). cbn in *; lia.
Qed.
Lemma fold_covers v width : forall l f a b k, In (a, b) l -> superlink_of v a b = Some k ->
  let g := fold_left (draw_pair v width) l f in
  g_lo g <= v_zj v a /\ g_lo g <= v_zj v b /\ v_H v a <= g_hi g /\ v_H v b <= g_hi g /\
  (forall j, (j <= v_nk v k)%nat -> g_lo g <= at_z v k j /\ at_s v k j <= g_hi g).
Proof.
  induction l as [|p l IH]; intros f a b k [] E; cbn [fold_left].
  - subst p. destruct (draw_pair_covers v width f a b k E) as (H1 & H2 & H3 & H4 & H5).
    destruct (fold_grows v width l (draw_pair v width f (a, b))). cbv zeta. repeat split; try lra.
    + destruct (H5 j H6); lra.
    + destruct (H5 j H6); lra.
  - exact (IH _ a b k H E).
Qed.
Lemma plot_range v js width f : plot_profile v js width = Some f ->
  exists f0, g_lo f = g_lo (fold_left (draw_pair v width) (pairs js) f0) /\ g_hi f = g_hi (fold_left (draw_pair v width) (pairs js) f0).
Proof.
  unfold plot_profile. destruct js as [|a [|b l]]; try discriminate. intros E. apply some_inj in E. subst f. eexists. split; reflexivity.
Qed.

Lemma lead_found v k a b : leads v k a b -> exists k', superlink_of v a b = Some k'.
Proof.
  intros L. generalize (superlink_of_spec v a b). destruct (superlink_of v a b) as [k'|]; [eauto|]. intros N. destruct (N k L).
Qed.
(** If every step of the path follows a superlink, all water lies within the axes, top and bottom. *)
Theorem C83_profile_inside_vertical_limits : forall v js width f, plot_profile v js width = Some f ->
  (forall i, (S i < length js)%nat -> exists k, leads v k (nth i js 0%nat) (nth (S i) js 0%nat)) ->
  (forall j, v_zj v j <= v_H v j) -> (forall I, 0 <= v_h v I) ->
  forall s x y, In s (g_water f) -> In (x, y) s -> fst (y_limits f) <= y <= snd (y_limits f).
Proof.
  intros v js width f P A HH Hh s x y Is Iy.
  destruct (plot_water v js width f P) as (L & _ & _ & _).
  destruct (plot_range v js width f P) as (f0 & Elo & Ehi).
  assert (B : covers f y).
  { apply (proj1 (C83_profile_draws_the_path v js width f _ (the_gap_spec v) P)) in Is.
    unfold covers. rewrite Elo, Ehi.
    destruct Is as [(i & Li & Es)|(i & k & j & Li & Lk & Lj & Es)]; cbv zeta in Es; subst s; cbn in Iy.
    - assert (C : g_lo (fold_left (draw_pair v width) (pairs js) f0) <= v_zj v (nth i js 0%nat) /\
                  v_H v (nth i js 0%nat) <= g_hi (fold_left (draw_pair v width) (pairs js) f0)).
      { destruct (Nat.eq_dec (S i) (length js)) as [Ei|Ei].
        - destruct i as [|i]; [lia|]. destruct (A i) as [k Lk]; [lia|]. destruct (lead_found v k _ _ Lk) as [k' F].
          destruct (fold_covers v width (pairs js) f0 _ _ k' (nth_pairs js i ltac:(lia)) F) as (_ & ? & _ & ? & _). auto.
        - destruct (A i) as [k Lk]; [lia|]. destruct (lead_found v k _ _ Lk) as [k' F].
          destruct (fold_covers v width (pairs js) f0 _ _ k' (nth_pairs js i ltac:(lia)) F) as (? & _ & ? & _ & _). auto. }
      specialize (HH (nth i js 0%nat)).
      destruct Iy as [E|[E|[E|[E|[]]]]]; injection E as _ <-; lra.
    - destruct (fold_covers v width (pairs js) f0 _ _ k (nth_pairs js i Li) (last_found v k _ _ Lk)) as (_ & _ & _ & _ & C).
      unfold at_z, at_s in C. destruct (C j) as [C1 C2]; [lia|]. destruct (C (S j)) as [C3 C4]; [lia|].
      generalize (Hh (v_I1 v k + j)%nat) (Hh (v_I1 v k + S j)%nat); intros.
      destruct Iy as [E|[E|[E|[E|[]]]]]; injection E as _ <-; lra. }
  unfold covers in B. unfold y_limits; cbn. lra.
Qed.

Lemma edge_mono v width js : 0 <= width -> (forall k, 0 <= v_len v k) -> forall i m, (i <= m)%nat ->
  edge (the_gap v) width js i <= edge (the_gap v) width js m.
Proof.
  intros W D i m H. induction H; [lra|]. unfold edge in *. cbn [sum_n].
  assert (0 <= the_gap v (nth m js 0%nat) (nth (S m) js 0%nat)) by (unfold the_gap; destruct superlink_of; [apply D|lra]). lra.
Qed.
Lemma sum_n_mono f a b : (forall i, 0 <= f i) -> (a <= b)%nat -> sum_n f a <= sum_n f b.
Proof. intros P H. induction H; [lra|]. cbn [sum_n]. specialize (P m). lra. Qed.

(** Without upstream margins everything also lies within the axes left and right. *)
Theorem C83_profile_inside_horizontal_limits : forall v dxu dx i1 js width f, plot_profile v js width = Some f ->
  placed v dxu dx i1 -> (forall l, 0 <= dx l) -> (forall k, (k < v_K v)%nat -> dxu k = 0) -> (forall k, 0 <= v_len v k) -> 0 <= width ->
  forall s x y, In s (g_water f) -> In (x, y) s -> fst (x_limits f) <= x <= snd (x_limits f).
Proof.
  intros v dxu dx i1 js width f P Pl D Z Ln W s x y Is Iy.
  destruct (plot_water v js width f P) as (L & _ & _ & _).
  destruct (C83_profile_draws_the_path v js width f _ (the_gap_spec v) P) as [Dr O].
  assert (M := edge_mono v width js W Ln).
  assert (E0 : edge (the_gap v) width js 0 = 0) by reflexivity.
  assert (B : 0 <= x <= g_off f).
  { apply Dr in Is. rewrite O.
    destruct Is as [(i & Li & Es)|(i & k & j & Li & Lk & Lj & Es)]; cbv zeta in Es; subst s; cbn in Iy.
    - generalize (M 0%nat i ltac:(lia)) (M i (length js - 1)%nat ltac:(lia)); intros.
      destruct Iy as [E|[E|[E|[E|[]]]]]; injection E as <- _; lra.
    - generalize (M 0%nat i ltac:(lia)) (M (S i) (length js - 1)%nat ltac:(lia)); intros.
      assert (Zk := Z k (proj1 (proj1 Lk))).
      destruct (Pl k (proj1 (proj1 Lk))) as [PL PX].
      assert (E : edge (the_gap v) width js (S i) = edge (the_gap v) width js i + width + v_len v k).
      { unfold edge. cbn [sum_n]. destruct (the_gap_spec v (nth i js 0%nat) (nth (S i) js 0%nat)) as [G1 _]. rewrite (G1 k Lk). lra. }
      assert (Q : forall m, (m <= v_nk v k)%nat -> 0 <= v_x v (v_I1 v k + m)%nat <= v_len v k).
      { intros m Hm. rewrite PX by exact Hm. unfold x_Ik. rewrite Zk, PL.
        assert (T := sum_n_mono (fun l => dx (i1 k + l)%nat) 0 m (fun l => D _) ltac:(lia)). cbn [sum_n] in T.
        assert (T' := sum_n_mono (fun l => dx (i1 k + l)%nat) m (v_nk v k) (fun l => D _) Hm). lra. }
      generalize (Q j ltac:(lia)) (Q (S j) ltac:(lia)); intros.
      destruct Iy as [E'|[E'|[E'|[E'|[]]]]]; injection E' as <- _; lra. }
  unfold x_limits; cbn. lra.
Qed.

(** A path no step of which follows a superlink (say, along orifices, weirs or pumps, or against the direction of the superlinks):
    no water is drawn between the boxes, and the vertical limits come out upside down: the lower one at or above the highest
    reported head, the upper one at or below the lowest. *)
Theorem C83_profile_without_superlinks_refuted : forall v js width f, plot_profile v js width = Some f ->
  (forall i k, (S i < length js)%nat -> ~ leads v k (nth i js 0%nat) (nth (S i) js 0%nat)) ->
  (forall s, In s (g_water f) -> exists i, (i < length js)%nat /\ s = superjunction_water v (nth i js 0%nat) (edge (fun _ _ => 0) width js i) width) /\
  (forall j, (j < v_M v)%nat -> snd (y_limits f) <= v_H v j <= fst (y_limits f)) .
Proof.
  intros v js width f P A.
  assert (N : forall i, (S i < length js)%nat -> superlink_of v (nth i js 0%nat) (nth (S i) js 0%nat) = None).
  { intros i Hi. generalize (superlink_of_spec v (nth i js 0%nat) (nth (S i) js 0%nat)).
    destruct (superlink_of v _ _) as [k|]; [|reflexivity]. intros [L _]. destruct (A i k Hi L). }
  split.
  - intros s Is. apply (proj1 (C83_profile_draws_the_path v js width f _ (the_gap_spec v) P)) in Is.
    destruct Is as [(i & Li & Es)|(i & k & j & Li & Lk & _)]; [|destruct (A i k Li (proj1 Lk))].
    exists i. split; [exact Li|]. cbv zeta in Es.
    assert (E : edge (the_gap v) width js i = edge (fun _ _ => 0) width js i).
    { unfold edge. clear Es. induction i as [|i IH]; [reflexivity|]. cbn [sum_n]. rewrite IH by lia.
      unfold the_gap at 1. rewrite N by lia. reflexivity. }
    rewrite <- E. exact Es.
  - assert (R0 : g_lo f = max_upto (v_H v) (v_M v - 1) /\ g_hi f = min_upto (v_H v) (v_M v - 1)).
    { assert (F : forall l g, (forall i, (S i < length l)%nat -> superlink_of v (nth i l 0%nat) (nth (S i) l 0%nat) = None) ->
        let h := fold_left (draw_pair v width) (pairs l) g in g_lo h = g_lo g /\ g_hi h = g_hi g).
      { induction l as [|a l IH]; intros g H; [split; reflexivity|]. destruct l as [|b l]; [split; reflexivity|].
        change (pairs (a :: b :: l)) with ((a, b) :: pairs (b :: l)). cbn [fold_left].
        destruct (IH (draw_pair v width g (a, b))) as [E1 E2].
        { intros i Hi. apply (H (S i)). cbn in *; lia. }
        cbv zeta. rewrite E1, E2. assert (Hab := H 0%nat ltac:(cbn; lia)). cbn [nth] in Hab.
        unfold draw_pair. rewrite Hab. split; reflexivity. }
      revert P N. unfold plot_profile. destruct js as [|a [|b l]]; try discriminate. intros P N. apply some_inj in P. subst f.
      exact (F (a :: b :: l) _ N). }
    destruct R0 as [E1 E2]. intros j Hj.
    assert (min_upto (v_H v) (v_M v - 1) <= v_H v j) by (apply min_upto_le; lia).
    assert (v_H v j <= max_upto (v_H v) (v_M v - 1)) by (apply max_upto_ge; lia).
    unfold y_limits; cbn. rewrite E1, E2. lra.
Qed.

(** A path of fewer than two superjunctions cannot be drawn; every longer one can. *)
Theorem C83_profile_needs_two_superjunctions : forall v js width, plot_profile v js width = None <-> (length js < 2)%nat.
Proof.
  intros v [|a [|b l]] width; cbn; split; try lia; try discriminate; auto.
Qed.

(** ** Maps *)

(** Without upstream margin the internal junctions of a superlink are mapped onto the straight line between its superjunctions, the
    first and last onto the superjunctions themselves, in order and in proportion to their distances. *)
Theorem C83_map_between_superjunctions : forall v dxu dx i1 k, placed v dxu dx i1 -> (k < v_K v)%nat -> dxu k = 0 ->
  (forall l, 0 <= dx l) -> 0 < v_len v k ->
  let A := (v_mx v (v_sj0 v k), v_my v (v_sj0 v k)) in let B := (v_mx v (v_sj1 v k), v_my v (v_sj1 v k)) in
  map_position v k 0 = A /\ map_position v k (v_nk v k) = B /\
  exists t : nat -> R,
    (forall j, (j <= v_nk v k)%nat -> 0 <= t j <= 1 /\
       map_position v k j = ((1 - t j) * fst A + t j * fst B, (1 - t j) * snd A + t j * snd B)) /\
    (forall j, (j < v_nk v k)%nat -> t (S j) - t j = dx (i1 k + j)%nat / v_len v k).
Proof.
  intros v dxu dx i1 k Pl Hk Z D Ln A B.
  destruct (Pl k Hk) as [PL PX].
  assert (F : forall j, (j <= v_nk v k)%nat -> fraction v k j = sum_n (fun l => dx (i1 k + l)%nat) j / v_len v k).
  { intros j Hj. unfold fraction. rewrite PX by exact Hj. unfold x_Ik. rewrite Z, Rplus_0_r. reflexivity. }
  assert (F0 : fraction v k 0 = 0) by (rewrite F by lia; cbn [sum_n]; unfold Rdiv; ring).
  assert (F1 : fraction v k (v_nk v k) = 1) by (rewrite F, <- PL by lia; field; lra).
  split; [|split].
  - unfold map_position, on_map, A. rewrite F0. f_equal; ring.
  - unfold map_position, on_map, B. rewrite F1. f_equal; ring.
  - exists (fraction v k). split.
    + intros j Hj. split.
      * rewrite F by exact Hj.
        assert (T := sum_n_mono (fun l => dx (i1 k + l)%nat) 0 j (fun l => D _) ltac:(lia)). cbn [sum_n] in T.
        assert (T' := sum_n_mono (fun l => dx (i1 k + l)%nat) j (v_nk v k) (fun l => D _) Hj). rewrite <- PL in T'.
        split.
        -- apply Rle_mult_inv_pos; assumption.
        -- apply Rmult_le_reg_r with (v_len v k); [exact Ln|]. unfold Rdiv. rewrite Rmult_assoc, Rinv_l by lra. lra.
      * unfold map_position, on_map, A, B; cbn. f_equal; ring.
    + intros j Hj. rewrite !F by lia. cbn [sum_n]. field. lra.
Qed.
(** Hence inside the axes of the 3D plot. *)
Theorem C83_map_inside_limits : forall v dxu dx i1 k j, placed v dxu dx i1 -> (k < v_K v)%nat -> dxu k = 0 ->
  (forall l, 0 <= dx l) -> 0 < v_len v k -> (v_sj0 v k < v_M v)%nat -> (v_sj1 v k < v_M v)%nat -> (j <= v_nk v k)%nat ->
  fst (map_limits v (v_mx v)) <= fst (map_position v k j) <= snd (map_limits v (v_mx v)) /\
  fst (map_limits v (v_my v)) <= snd (map_position v k j) <= snd (map_limits v (v_my v)).
Proof.
  intros v dxu dx i1 k j Pl Hk Z D Ln H0 H1 Hj.
  destruct (C83_map_between_superjunctions v dxu dx i1 k Pl Hk Z D Ln) as (_ & _ & t & T & _).
  destruct (T j Hj) as [[T0 T1] ->]. cbn [fst snd map_limits].
  assert (C : forall (m : arr), min_upto m (v_M v - 1) <= (1 - t j) * m (v_sj0 v k) + t j * m (v_sj1 v k) <= max_upto m (v_M v - 1)).
  { intros m.
    assert (A0 := min_upto_le m (v_M v - 1) (v_sj0 v k) ltac:(lia)). assert (A1 := min_upto_le m (v_M v - 1) (v_sj1 v k) ltac:(lia)).
    assert (B0 := max_upto_ge m (v_M v - 1) (v_sj0 v k) ltac:(lia)). assert (B1 := max_upto_ge m (v_M v - 1) (v_sj1 v k) ltac:(lia)).
    set (lo := min_upto _ _) in *. set (hi := max_upto _ _) in *.
    assert (P1 : 0 <= (1 - t j) * (m (v_sj0 v k) - lo)) by (apply Rmult_le_pos; lra).
    assert (P2 : 0 <= t j * (m (v_sj1 v k) - lo)) by (apply Rmult_le_pos; lra).
    assert (P3 : 0 <= (1 - t j) * (hi - m (v_sj0 v k))) by (apply Rmult_le_pos; lra).
    assert (P4 : 0 <= t j * (hi - m (v_sj1 v k))) by (apply Rmult_le_pos; lra).
    lra. }
  split; apply C.
Qed.
(** With an upstream margin the last internal junction is mapped beyond the downstream superjunction. *)
Theorem C83_map_beyond_downstream_end_refuted : forall v dxu dx i1 k, placed v dxu dx i1 -> (k < v_K v)%nat -> 0 < dxu k ->
  0 < v_len v k ->
  map_position v k (v_nk v k) =
    (v_mx v (v_sj1 v k) + dxu k / v_len v k * (v_mx v (v_sj1 v k) - v_mx v (v_sj0 v k)),
     v_my v (v_sj1 v k) + dxu k / v_len v k * (v_my v (v_sj1 v k) - v_my v (v_sj0 v k))) /\ 0 < dxu k / v_len v k.
Proof.
  intros v dxu dx i1 k Pl Hk Z Ln. destruct (Pl k Hk) as [PL PX]. split.
  - unfold map_position, on_map, fraction. rewrite PX by lia. unfold x_Ik. rewrite <- PL. f_equal; field; lra.
  - apply Rdiv_lt_0_compat; assumption.
Qed.

(** The 3D plot shows all water surfaces, but not all of the beds. *)
Theorem C83_surfaces_inside_3d_limits : forall v J,
  (forall I, (I < J)%nat -> fst (z_limits v J) <= v_z v I + v_h v I <= snd (z_limits v J)) /\
  (forall j, (j < v_M v)%nat -> fst (z_limits v J) <= v_H v j <= snd (z_limits v J)).
Proof.
  intros v J. unfold z_limits; cbn [fst snd].
  set (f := fun I : nat => v_z v I + v_h v I). set (g := fun j : nat => v_zj v j + (v_H v j - v_zj v j)).
  split.
  - intros I HI. change (v_z v I + v_h v I) with (f I). split.
    + eapply Rle_trans; [apply Rmin_l|]. apply min_upto_le. lia.
    + eapply Rle_trans; [|apply Rmax_l]. apply max_upto_ge. lia.
  - intros j Hj. replace (v_H v j) with (g j) by (unfold g; lra). split.
    + eapply Rle_trans; [apply Rmin_r|]. apply min_upto_le. lia.
    + eapply Rle_trans; [|apply Rmax_r]. apply max_upto_ge. lia.
Qed.
Theorem C83_beds_outside_3d_limits_refuted : forall v J d, 0 < d -> (0 < J)%nat -> (0 < v_M v)%nat ->
  (forall I, (I < J)%nat -> d <= v_h v I) -> (forall j, (j < v_M v)%nat -> v_zj v j + d <= v_H v j) ->
  exists z, ((exists I, (I < J)%nat /\ z = v_z v I) \/ (exists j, (j < v_M v)%nat /\ z = v_zj v j)) /\ z + d <= fst (z_limits v J).
Proof.
  intros v J d Hd HJ HM Hh HH. unfold z_limits; cbn [fst].
  assert (A : forall (f : arr) n, exists i, (i <= n)%nat /\ min_upto f n = f i).
  { intros f n. induction n as [|n IH]; [exists 0%nat; split; [lia|reflexivity]|].
    cbn [min_upto]. destruct IH as (i & Hi & E). unfold Rmin. destruct (Rle_dec _ _).
    - exists i. split; [lia|exact E].
    - exists (S n). split; [lia|reflexivity]. }
  destruct (A (fun I => v_z v I + v_h v I) (J - 1)%nat) as (I & HI & EI).
  destruct (A (fun j => v_zj v j + (v_H v j - v_zj v j)) (v_M v - 1)%nat) as (j & Hj & Ej).
  rewrite EI, Ej. unfold Rmin. destruct (Rle_dec _ _).
  - exists (v_z v I). split; [left; exists I; split; [lia|reflexivity]|]. specialize (Hh I ltac:(lia)). lra.
  - exists (v_zj v j). split; [right; exists j; split; [lia|reflexivity]|]. specialize (HH j ltac:(lia)). lra.
Qed.

(** ** A concrete network: superjunctions 0, 1, 2; two parallel superlinks from 0 to 1 and one from 1 to 2, two links of 10 m each;
    [d] is the upstream margin. *)
Definition demo (d : R) : view :=
  mkView 3 3 (fun k => match k with 2 => 1 | _ => 0 end)%nat (fun k => match k with 2 => 2 | _ => 1 end)%nat (fun _ => 2%nat) (fun k => 3 * k)%nat
    (fun I => d + 10 * INR (I mod 3)) (fun I => INR (I / 3)) (fun I => 1 + INR (I / 3)) (fun _ => 20)
    (fun _ => 0) (fun j => 5 + INR j) (fun j => 100 * INR j) (fun j => 50 * INR j).
Lemma demo_placed d : placed (demo d) (fun _ => d) (fun _ => 10) (fun k => 2 * k)%nat.
Proof.
  intros k Hk. cbn in Hk. split.
  - cbn [v_len v_nk demo sum_n]. lra.
  - intros j Hj. cbn [v_nk demo] in Hj. unfold x_Ik. cbn [v_x v_I1 demo].
    replace ((3 * k + j) mod 3)%nat with j.
    + destruct j as [|[|[|j]]]; try lia; cbn [sum_n INR]; lra.
    + replace (3 * k + j)%nat with (j + k * 3)%nat by lia. rewrite Nat.mod_add by lia. symmetry. apply Nat.mod_small. lia.
Qed.
Lemma demo_01 d : leads_last (demo d) 1 0 1.
Proof.
  split; [repeat split; cbn; lia|]. intros k (L & _ & E). cbn in L, E. destruct k as [|[|[|k]]]; try lia.
Qed.
Lemma demo_12 d : leads_last (demo d) 2 1 2.
Proof. split; [repeat split; cbn; lia|]. intros k (L & _). cbn in L. lia. Qed.
Lemma demo_joined d : forall i, (S i < 3)%nat -> exists k, leads (demo d) k (nth i [0; 1; 2]%nat 0%nat) (nth (S i) [0; 1; 2]%nat 0%nat).
Proof.
  intros i Hi. destruct i as [|[|i]]; [exists 1%nat|exists 2%nat|lia]; cbn [nth]; [apply demo_01|apply demo_12].
Qed.

Example C83_example :
  exists f, plot_profile (demo 0) [0; 1; 2]%nat 1 = Some f /\ length (g_water f) = 7%nat /\ g_off f = 43 /\
    gap_of (demo 0) (the_gap (demo 0)) /\
    (forall i, (S i < 3)%nat -> exists k, leads (demo 0) k (nth i [0; 1; 2]%nat 0%nat) (nth (S i) [0; 1; 2]%nat 0%nat)) /\
    placed (demo 0) (fun _ => 0) (fun _ => 10) (fun k => 2 * k)%nat /\ (forall j, v_zj (demo 0) j <= v_H (demo 0) j) /\
    (forall I, 0 <= v_h (demo 0) I) /\ (forall k, 0 < v_len (demo 0) k).
Proof.
  eexists. split; [reflexivity|]. repeat split.
  - cbn. lra.
  - apply the_gap_spec.
  - apply the_gap_spec.
  - apply demo_joined.
  - apply (demo_placed 0 k H).
  - apply (demo_placed 0 k H).
  - intros j. cbn [v_zj v_H demo]. generalize (pos_INR j). lra.
  - intros I. cbn [v_h demo]. generalize (pos_INR (I / 3)). lra.
  - intros k. cbn. lra.
Qed.
(** The two refuted theorems on margins apply to it with d = 5. *)
Example C83_margin_example : placed (demo 5) (fun _ => 5) (fun _ => 10) (fun k => 2 * k)%nat /\
  leads_last (demo 5) 1 (nth 0 [0; 1; 2]%nat 0%nat) (nth 1 [0; 1; 2]%nat 0%nat) /\ 0 < v_len (demo 5) 1%nat /\
  map_position (demo 5) 1 2 = (125, 125/2).
Proof.
  split; [apply demo_placed|]. split; [apply demo_01|]. split; [cbn; lra|].
  unfold map_position, on_map, fraction. cbn. f_equal; field.
Qed.
(** Against the direction of the superlinks. *)
Example C83_against_example : exists f, plot_profile (demo 0) [2; 1; 0]%nat 1 = Some f /\ length (g_water f) = 3%nat /\
  forall i k, (S i < 3)%nat -> ~ leads (demo 0) k (nth i [2; 1; 0]%nat 0%nat) (nth (S i) [2; 1; 0]%nat 0%nat).
Proof.
  eexists. split; [reflexivity|]. split; [reflexivity|].
  intros i k Hi (L & E0 & E1). destruct i as [|[|i]]; [| |lia]; cbn in *; destruct k as [|[|[|k]]]; try lia; discriminate.
Qed.
Example C83_3d_example : forall I, (I < 9)%nat -> 1 <= v_h (demo 0) I.
Proof. intros I _. cbn [v_h demo]. generalize (pos_INR (I / 3)). lra. Qed.

(** Of parallel superlinks only the last of the table is shown: there are a path and a superlink leading from one of its
    superjunctions to the next the water of which appears nowhere in the figure. *)
Theorem C83_profile_parallel_superlinks_refuted : exists v js width f i k, plot_profile v js width = Some f /\
  (S i < length js)%nat /\ leads v k (nth i js 0%nat) (nth (S i) js 0%nat) /\ (0 < v_nk v k)%nat /\
  forall off j, (j < v_nk v k)%nat -> ~ In (link_water v k off j) (g_water f).
Proof.
  eexists (demo 0), [0; 1; 2]%nat, 1, _, 0%nat, 0%nat. split; [reflexivity|]. split; [cbn; lia|].
  split; [repeat split; cbn; lia|]. split; [cbn; lia|].
  intros off j Hj. cbn [v_nk demo] in Hj.
  intros I. destruct j as [|[|j]]; [| |lia].
  all: cbn in I; repeat destruct I as [I|I]; try exact I; injection I; intros; unfold at_s, at_z in *; cbn in *; lra.
Qed.
