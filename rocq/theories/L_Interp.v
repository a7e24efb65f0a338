From Verif Require Import Prelude M_Numerics S_Numerics.

Lemma ascending_tail a l : ascending (a :: l) -> ascending l.
Proof. intros H i j x y Hij Hi Hj. apply (H (S i) (S j) x y); simpl; auto; lia. Qed.

Lemma ss_le_length xp x : (searchsorted xp x <= length xp)%nat.
Proof. induction xp as [|a l IH]; simpl; [lia|]. destruct (Rltb a x); lia. Qed.

Lemma ss_lt xp x : forall i a, (i < searchsorted xp x)%nat -> nth_error xp i = Some a -> a < x.
Proof.
  induction xp as [|b l IH]; intros i a Hi Ha; simpl in Hi; [lia|].
  destruct (Rltb_spec b x); [|lia].
  destruct i; simpl in Ha.
  - inversion Ha; subst; lra.
  - apply (IH i); auto; lia.
Qed.

Lemma ss_ge xp x : ascending xp -> forall i a, (searchsorted xp x <= i)%nat -> nth_error xp i = Some a -> x <= a.
Proof.
  induction xp as [|b l IH]; intros Hasc i a Hi Ha.
  - destruct i; discriminate.
  - simpl in Hi. destruct (Rltb_spec b x).
    + destruct i; [lia|]. simpl in Ha. apply (IH (ascending_tail _ _ Hasc) i); auto; lia.
    + destruct i; simpl in Ha.
      * inversion Ha; subst; lra.
      * assert (b < a) by (apply (Hasc 0%nat (S i)); simpl; auto; lia). lra.
Qed.

(** Where [searchsorted] lands for a query in (xp[i], xp[i+1]]. *)
Lemma ss_inside xp x i xl xr :
  ascending xp -> nth_error xp i = Some xl -> nth_error xp (S i) = Some xr ->
  xl < x -> x <= xr -> searchsorted xp x = S i.
Proof.
  intros Hasc Hl Hr H1 H2.
  destruct (lt_eq_lt_dec (searchsorted xp x) (S i)) as [[H|H]|H]; auto.
  - assert (x <= xl) by (apply (ss_ge xp x Hasc i); auto; lia). lra.
  - assert (xr < x) by (apply (ss_lt xp x (S i)); auto). lra.
Qed.

Lemma ss_zero xp x x0 : nth_error xp 0 = Some x0 -> x <= x0 -> searchsorted xp x = 0%nat.
Proof.
  destruct xp as [|a l]; simpl; intros H Hx; inversion H; subst.
  destruct (Rltb_spec x0 x); auto; lra.
Qed.

Lemma ss_last xp x xn :
  ascending xp -> nth_error xp (length xp - 1) = Some xn -> xn < x -> searchsorted xp x = length xp.
Proof.
  intros Hasc Hn Hx.
  assert (L : (length xp - 1 < length xp)%nat) by (apply nth_error_Some; congruence).
  destruct (le_lt_dec (length xp) (searchsorted xp x)) as [H|H].
  - pose proof (ss_le_length xp x); lia.
  - assert (x <= xn) by (apply (ss_ge xp x Hasc (length xp - 1)); auto; lia). lra.
Qed.

Lemma nth_some {A} (l : list A) i : (i < length l)%nat -> exists a, nth_error l i = Some a.
Proof.
  intros H. destruct (nth_error l i) eqn:E; eauto. apply nth_error_None in E; lia.
Qed.

Lemma interp_left xp fp x x0 m :
  length fp = length xp -> nth_error xp 0 = Some x0 -> x <= x0 ->
  interpolate_sample x xp fp m = nth_error fp 0.
Proof.
  intros Hl H0 Hx. unfold interpolate_sample. rewrite (ss_zero _ _ _ H0 Hx). reflexivity.
Qed.

Lemma interp_right_strict xp fp x xn m :
  ascending xp -> length fp = length xp -> nth_error xp (length xp - 1) = Some xn -> xn < x ->
  interpolate_sample x xp fp m = nth_error fp (length fp - 1).
Proof.
  intros Hasc Hl Hn Hx. unfold interpolate_sample. rewrite (ss_last _ _ _ Hasc Hn Hx).
  assert (L : (length xp - 1 < length xp)%nat) by (apply nth_error_Some; congruence).
  replace (Nat.eqb (length xp) 0) with false by (symmetry; apply Nat.eqb_neq; lia).
  rewrite Nat.leb_refl, Hl. reflexivity.
Qed.

(** Body of the interpolation for a query in (xp[i], xp[i+1]]. *)
Lemma interp_inside_raw xp fp x m i xl xr fl fr :
  ascending xp -> length fp = length xp ->
  nth_error xp i = Some xl -> nth_error xp (S i) = Some xr ->
  nth_error fp i = Some fl -> nth_error fp (S i) = Some fr ->
  xl < x -> x <= xr ->
  interpolate_sample x xp fp m =
    if Nat.eqb m 1 then Some ((1 - (x - xl) / (x - xl + (xr - x))) * fl + (x - xl) / (x - xl + (xr - x)) * fr)
    else if Nat.eqb m 0 then if Rleb (Rabs (x - xl)) (Rabs (xr - x)) then Some fl else Some fr
    else None.
Proof.
  intros Hasc Hlen Hl Hr Hfl Hfr H1 H2. unfold interpolate_sample.
  rewrite (ss_inside _ _ _ _ _ Hasc Hl Hr H1 H2).
  assert (Li : (S i < length xp)%nat) by (apply nth_error_Some; congruence).
  replace (Nat.eqb (S i) 0) with false by reflexivity.
  replace (Nat.leb (length xp) (S i)) with false by (symmetry; apply Nat.leb_gt; lia).
  replace (S i - 1)%nat with i by lia. rewrite Hl, Hr, Hfl, Hfr.
  destruct (Reqb_spec (x - xl + (xr - x)) 0); [lra|]. reflexivity.
Qed.

Lemma interp_affine xp fp x i xl xr fl fr :
  ascending xp -> length fp = length xp ->
  nth_error xp i = Some xl -> nth_error xp (S i) = Some xr ->
  nth_error fp i = Some fl -> nth_error fp (S i) = Some fr ->
  xl <= x <= xr ->
  interpolate_sample x xp fp 1 = Some (fl + (fr - fl) / (xr - xl) * (x - xl)).
Proof.
  intros Hasc Hlen Hl Hr Hfl Hfr [H1 H2].
  assert (Hlr : xl < xr) by (apply (Hasc i (S i)); auto; lia).
  destruct (Req_dec x xl) as [->|Hne].
  - (* at the left knot *)
    replace (fl + (fr - fl) / (xr - xl) * (xl - xl)) with fl by (field; lra).
    destruct i as [|i].
    + rewrite (interp_left xp fp xl xl); auto; lra.
    + assert (Li : (S i < length xp)%nat) by (apply nth_error_Some; congruence).
      destruct (nth_some xp i) as [xl' Hxl']; [lia|].
      destruct (nth_some fp i) as [fl' Hfl']; [lia|].
      assert (xl' < xl) by (apply (Hasc i (S i)); auto; lia).
      rewrite (interp_inside_raw xp fp xl 1 i xl' xl fl' fl); auto; try lra.
      simpl. f_equal. field. lra.
  - rewrite (interp_inside_raw xp fp x 1 i xl xr fl fr); auto; try lra.
    simpl. f_equal. field. lra.
Qed.

Lemma interp_knot xp fp i xi fi :
  ascending xp -> length fp = length xp ->
  nth_error xp i = Some xi -> nth_error fp i = Some fi ->
  interpolate_sample xi xp fp 1 = Some fi.
Proof.
  intros Hasc Hlen Hx Hf.
  assert (Li : (i < length xp)%nat) by (apply nth_error_Some; congruence).
  destruct i as [|i].
  - rewrite (interp_left xp fp xi xi); auto; lra.
  - destruct (nth_some xp i) as [xl' Hxl']; [lia|].
    destruct (nth_some fp i) as [fl' Hfl']; [lia|].
    assert (xl' < xi) by (apply (Hasc i (S i)); auto; lia).
    rewrite (interp_affine xp fp xi i xl' xi fl' fi); auto; try lra.
    f_equal. field. lra.
Qed.

Lemma interp_right xp fp x xn :
  ascending xp -> length fp = length xp -> nth_error xp (length xp - 1) = Some xn -> xn <= x ->
  interpolate_sample x xp fp 1 = nth_error fp (length fp - 1).
Proof.
  intros Hasc Hl Hn Hx.
  destruct (Req_dec x xn) as [->|Hne].
  - assert (L : (length xp - 1 < length xp)%nat) by (apply nth_error_Some; congruence).
    destruct (nth_some fp (length xp - 1)) as [fn Hfn]; [lia|].
    rewrite Hl, Hfn. eapply interp_knot; eauto.
  - apply (interp_right_strict _ _ _ xn); auto; lra.
Qed.

(** Every query is left of the table, right of it, or inside one cell. *)
Lemma locate xp x :
  ascending xp -> xp <> [] ->
  (exists x0, nth_error xp 0 = Some x0 /\ x <= x0) \/
  (exists xn, nth_error xp (length xp - 1) = Some xn /\ xn < x) \/
  (exists i xl xr, nth_error xp i = Some xl /\ nth_error xp (S i) = Some xr /\ xl < x <= xr).
Proof.
  intros Hasc Hne.
  assert (L : (0 < length xp)%nat) by (destruct xp; simpl; [congruence|lia]).
  destruct (searchsorted xp x) as [|i] eqn:E.
  - left. destruct (nth_some xp 0 L) as [x0 H0]. exists x0; split; auto.
    apply (ss_ge xp x Hasc 0); auto; lia.
  - right. destruct (le_lt_dec (length xp) (S i)) as [H|H].
    + left. destruct (nth_some xp (length xp - 1)) as [xn Hn]; [lia|].
      exists xn; split; auto. apply (ss_lt xp x (length xp - 1)); auto; lia.
    + right. destruct (nth_some xp i) as [xl Hl]; [lia|]. destruct (nth_some xp (S i)) as [xr Hr]; [lia|].
      exists i, xl, xr. repeat split; auto.
      * apply (ss_lt xp x i); auto; lia.
      * apply (ss_ge xp x Hasc (S i)); auto; lia.
Qed.

Lemma affine_between fl fr xl xr x :
  xl < xr -> xl <= x <= xr -> between fl fr (fl + (fr - fl) / (xr - xl) * (x - xl)).
Proof.
  intros H H1. unfold between.
  set (t := (x - xl) / (xr - xl)).
  assert (Ht : 0 <= t <= 1).
  { unfold t; split.
    - apply Rmult_le_pos; [lra|]. left; apply Rinv_0_lt_compat; lra.
    - apply Rmult_le_reg_r with (xr - xl); [lra|].
      unfold Rdiv. rewrite Rmult_assoc, Rinv_l by lra. lra. }
  replace (fl + (fr - fl) / (xr - xl) * (x - xl)) with (fl + (fr - fl) * t) by (unfold t; field; lra).
  unfold Rmin, Rmax; destruct (Rle_dec fl fr); split; nra.
Qed.

Lemma interp_total xp fp x :
  ascending xp -> xp <> [] -> length fp = length xp ->
  exists v i j a b, interpolate_sample x xp fp 1 = Some v /\
    nth_error fp i = Some a /\ nth_error fp j = Some b /\ a <= v <= b.
Proof.
  intros Hasc Hne Hlen.
  assert (L : (0 < length xp)%nat) by (destruct xp; simpl; [congruence|lia]).
  destruct (locate xp x Hasc Hne) as [[x0 [H0 Hx]]|[[xn [Hn Hx]]|[i [xl [xr [Hl [Hr Hx]]]]]]].
  - destruct (nth_some fp 0) as [f0 Hf0]; [lia|].
    exists f0, 0%nat, 0%nat, f0, f0. rewrite (interp_left xp fp x x0); auto. repeat split; auto; lra.
  - destruct (nth_some fp (length fp - 1)) as [fn Hfn]; [lia|].
    exists fn, (length fp - 1)%nat, (length fp - 1)%nat, fn, fn.
    rewrite (interp_right xp fp x xn); auto; try lra. repeat split; auto; lra.
  - assert (Li : (S i < length xp)%nat) by (apply nth_error_Some; congruence).
    destruct (nth_some fp i) as [fl Hfl]; [lia|]. destruct (nth_some fp (S i)) as [fr Hfr]; [lia|].
    assert (Hlr : xl < xr) by (apply (Hasc i (S i)); auto; lia).
    rewrite (interp_affine xp fp x i xl xr fl fr); auto; try lra.
    destruct (affine_between fl fr xl xr x Hlr) as [B1 B2]; [lra|].
    unfold Rmin, Rmax in *. destruct (Rle_dec fl fr).
    + eexists _, i, (S i), fl, fr. repeat split; eauto.
    + eexists _, (S i), i, fr, fl. repeat split; eauto.
Qed.

(** Nearest neighbour: the returned row is one whose time is nearest to the query. *)
Lemma interp_nearest xp fp x :
  ascending xp -> xp <> [] -> length fp = length xp ->
  exists i xi fi, nth_error xp i = Some xi /\ nth_error fp i = Some fi /\
    interpolate_sample x xp fp 0 = Some fi /\
    forall j xj, nth_error xp j = Some xj -> Rabs (x - xi) <= Rabs (x - xj).
Proof.
  intros Hasc Hne Hlen.
  assert (L : (0 < length xp)%nat) by (destruct xp; simpl; [congruence|lia]).
  destruct (locate xp x Hasc Hne) as [[x0 [H0 Hx]]|[[xn [Hn Hx]]|[i [xl [xr [Hl [Hr Hx]]]]]]].
  - destruct (nth_some fp 0) as [f0 Hf0]; [lia|].
    exists 0%nat, x0, f0. rewrite (interp_left xp fp x x0); auto. repeat split; auto.
    intros j xj Hj. destruct j; [rewrite H0 in Hj; inversion Hj; lra|].
    assert (x0 < xj) by (apply (Hasc 0%nat (S j)); auto; lia).
    rewrite !Rabs_left1; lra.
  - destruct (nth_some fp (length fp - 1)) as [fn Hfn]; [lia|].
    exists (length xp - 1)%nat, xn, fn. rewrite (interp_right_strict xp fp x xn); auto.
    rewrite <- Hlen at 2. repeat split; auto.
    intros j xj Hj.
    assert (Lj : (j < length xp)%nat) by (apply nth_error_Some; congruence).
    destruct (Nat.eq_dec j (length xp - 1)) as [->|]; [rewrite Hn in Hj; inversion Hj; lra|].
    assert (xj < xn) by (apply (Hasc j (length xp - 1)%nat); auto; lia).
    rewrite !Rabs_right; lra.
  - assert (Li : (S i < length xp)%nat) by (apply nth_error_Some; congruence).
    destruct (nth_some fp i) as [fl Hfl]; [lia|]. destruct (nth_some fp (S i)) as [fr Hfr]; [lia|].
    rewrite (interp_inside_raw xp fp x 0 i xl xr fl fr) by (auto; lra). simpl.
    assert (Hout : forall j xj, nth_error xp j = Some xj -> xj <= xl \/ xr <= xj).
    { intros j xj Hj. destruct (le_lt_dec j i) as [Hji|Hji].
      - left. destruct (Nat.eq_dec j i) as [->|]; [rewrite Hl in Hj; inversion Hj; lra|].
        left; apply (Hasc j i); auto; lia.
      - right. destruct (Nat.eq_dec j (S i)) as [->|]; [rewrite Hr in Hj; inversion Hj; lra|].
        left; apply (Hasc (S i) j); auto; lia. }
    rewrite (Rabs_right (x - xl)), (Rabs_right (xr - x)) by lra.
    destruct (Rleb_spec (x - xl) (xr - x)).
    + exists i, xl, fl. repeat split; auto. intros j xj Hj. rewrite (Rabs_right (x - xl)) by lra.
      destruct (Hout j xj Hj); [rewrite Rabs_right|rewrite Rabs_left1]; lra.
    + exists (S i), xr, fr. repeat split; auto. intros j xj Hj. rewrite (Rabs_left1 (x - xr)) by lra.
      destruct (Hout j xj Hj); [rewrite Rabs_right|rewrite Rabs_left1]; lra.
Qed.

Lemma interp_monotone xp fp x y vx vy :
  ascending xp -> xp <> [] -> length fp = length xp -> nondecreasing fp -> x <= y ->
  interpolate_sample x xp fp 1 = Some vx -> interpolate_sample y xp fp 1 = Some vy -> vx <= vy.
Proof.
  intros Hasc Hne Hlen Hmon Hxy Ex Ey.
  assert (L : (0 < length xp)%nat) by (destruct xp; simpl; [congruence|lia]).
  (* anything is at least the first and at most the last value *)
  assert (Hlo : forall z v f0, interpolate_sample z xp fp 1 = Some v -> nth_error fp 0 = Some f0 -> f0 <= v).
  { intros z v f0 Ez Hf0. destruct (interp_total xp fp z) as (v' & i & j & a & b & E & Ha & Hb & Hab); auto.
    rewrite Ez in E; inversion E; subst. assert (f0 <= a) by (apply (Hmon 0%nat i); auto; lia). lra. }
  assert (Hhi : forall z v fn, interpolate_sample z xp fp 1 = Some v -> nth_error fp (length fp - 1) = Some fn -> v <= fn).
  { intros z v fn Ez Hfn. destruct (interp_total xp fp z) as (v' & i & j & a & b & E & Ha & Hb & Hab); auto.
    rewrite Ez in E; inversion E; subst.
    assert (Lj : (j < length fp)%nat) by (apply nth_error_Some; congruence).
    assert (b <= fn) by (apply (Hmon j (length fp - 1)%nat); auto; lia). lra. }
  destruct (locate xp x Hasc Hne) as [[x0 [H0 Hx]]|[[xn [Hn Hx]]|[i [xl [xr [Hl [Hr Hx]]]]]]].
  - rewrite (interp_left xp fp x x0) in Ex; auto. eapply Hlo; eauto.
  - rewrite (interp_right xp fp x xn) in Ex by (auto; lra).
    rewrite (interp_right xp fp y xn) in Ey by (auto; lra). rewrite Ex in Ey; inversion Ey; lra.
  - destruct (locate xp y Hasc Hne) as [[y0 [H0' Hy]]|[[yn [Hn' Hy]]|[j [yl [yr [Hl' [Hr' Hy]]]]]]].
    + assert (x0_le : y0 <= xl).
      { destruct i; [rewrite Hl in H0'; inversion H0'; lra|]. left; apply (Hasc 0%nat (S i)); auto; lia. }
      lra.
    + rewrite (interp_right xp fp y yn) in Ey by (auto; lra). eapply Hhi; eauto.
    + assert (Li : (S i < length xp)%nat) by (apply nth_error_Some; congruence).
      assert (Lj : (S j < length xp)%nat) by (apply nth_error_Some; congruence).
      destruct (nth_some fp i) as [fl Hfl]; [lia|]. destruct (nth_some fp (S i)) as [fr Hfr]; [lia|].
      destruct (nth_some fp j) as [gl Hgl]; [lia|]. destruct (nth_some fp (S j)) as [gr Hgr]; [lia|].
      assert (Hlr : xl < xr) by (apply (Hasc i (S i)); auto; lia).
      assert (Hlr' : yl < yr) by (apply (Hasc j (S j)); auto; lia).
      rewrite (interp_affine xp fp x i xl xr fl fr) in Ex by (auto; lra). inversion Ex; subst; clear Ex.
      rewrite (interp_affine xp fp y j yl yr gl gr) in Ey by (auto; lra). inversion Ey; subst; clear Ey.
      assert (fl <= fr) by (apply (Hmon i (S i)); auto; lia).
      assert (gl <= gr) by (apply (Hmon j (S j)); auto; lia).
      destruct (lt_eq_lt_dec i j) as [[H1|H1]|H1].
      * assert (fr <= gl) by (apply (Hmon (S i) j); auto; lia).
        destruct (affine_between fl fr xl xr x Hlr) as [_ B]; [lra|].
        destruct (affine_between gl gr yl yr y Hlr') as [B' _]; [lra|].
        rewrite Rmax_right in B by lra. rewrite Rmin_left in B' by lra. lra.
      * subst j. rewrite Hl in Hl'; inversion Hl'; subst. rewrite Hr in Hr'; inversion Hr'; subst.
        rewrite Hfl in Hgl; inversion Hgl; subst. rewrite Hfr in Hgr; inversion Hgr; subst.
        apply Rplus_le_compat_l. apply Rmult_le_compat_l; [|lra].
        apply Rmult_le_pos; [lra|]. left; apply Rinv_0_lt_compat; lra.
      * assert (yr <= xl).
        { destruct (Nat.eq_dec (S j) i) as [<-|]; [rewrite Hr' in Hl; inversion Hl; lra|].
          left; apply (Hasc (S j) i); auto; lia. }
        lra.
Qed.
