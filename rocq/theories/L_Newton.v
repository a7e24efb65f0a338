From Verif Require Import Prelude M_Numerics S_Numerics.

Lemma between_mid lb ub : between lb ub (lb + 0.5 * (ub - lb)).
Proof. unfold between, Rmin, Rmax; destruct (Rle_dec lb ub); lra. Qed.

Lemma between_trans a b lb ub x :
  between a b lb -> between a b ub -> between lb ub x -> between a b x.
Proof.
  unfold between, Rmin, Rmax; intros.
  destruct (Rle_dec a b); destruct (Rle_dec lb ub); lra.
Qed.

Lemma between_prod lb ub x : (x - ub) * (x - lb) < 0 -> between lb ub x.
Proof. intros H. unfold between, Rmin, Rmax; destruct (Rle_dec lb ub); split; nra. Qed.

Lemma between_self_l a b : between a b a.
Proof. unfold between, Rmin, Rmax; destruct (Rle_dec a b); lra. Qed.
Lemma between_self_r a b : between a b b.
Proof. unfold between, Rmin, Rmax; destruct (Rle_dec a b); lra. Qed.
Lemma between_sym a b x : between a b x -> between b a x.
Proof. unfold between; rewrite Rmin_comm, Rmax_comm; auto. Qed.

Lemma Rdiv_sub_mult x fx dfx y :
  dfx <> 0 -> (x - fx / dfx - y) * dfx = (x - y) * dfx - fx.
Proof. intros; field; auto. Qed.

(** One move never divides by zero and stays in the current bracket. *)
Lemma move_ok s : exists dx' x', bnewton_move s = Some (dx', x') /\ between (b_lb s) (b_ub s) x'.
Proof.
  destruct s as [x lb ub dx fx dfx]. unfold bnewton_move; simpl.
  destruct (Rleb_spec 0 (((x - ub) * dfx - fx) * ((x - lb) * dfx - fx))) as [H|H]; simpl.
  - do 2 eexists; split; [reflexivity|apply between_mid].
  - destruct (Rltb_spec (Rabs (dx * dfx)) (Rabs (2 * fx))); simpl.
    + do 2 eexists; split; [reflexivity|apply between_mid].
    + destruct (Reqb_spec dfx 0) as [->|Hd].
      * exfalso. apply H. replace (((x - ub) * 0 - fx) * ((x - lb) * 0 - fx)) with (fx * fx) by ring. nra.
      * do 2 eexists; split; [reflexivity|]. apply between_prod.
        assert (E : ((x - fx / dfx) - ub) * ((x - fx / dfx) - lb) * (dfx * dfx)
                    = ((x - ub) * dfx - fx) * ((x - lb) * dfx - fx)).
        { rewrite <- !(Rdiv_sub_mult _ _ dfx) by auto. ring. }
        assert (0 < dfx * dfx) by (destruct (Rtotal_order dfx 0) as [|[|]]; [nra|congruence|nra]).
        nra.
Qed.

Lemma bnewton_loop_bracket f df atol n : forall a b s,
  between a b (b_lb s) -> between a b (b_ub s) ->
  match bnewton_loop f df atol n s with
  | Root x => between a b x
  | NoZeroFound => True
  | _ => False
  end.
Proof.
  induction n as [|n IH]; intros a b s Hl Hu; simpl; auto.
  destruct (move_ok s) as (dx' & x' & E & B). rewrite E.
  assert (Bx : between a b x') by (exact (between_trans _ _ _ _ _ Hl Hu B)).
  destruct (Rltb (Rabs dx') atol); auto.
  apply IH; unfold bnewton_update; destruct (Rltb (f x') 0); simpl; auto.
Qed.

Lemma init_bounds f df x0 x_lb x_ub :
  between x_lb x_ub (b_lb (bnewton_init f df x0 x_lb x_ub)) /\
  between x_lb x_ub (b_ub (bnewton_init f df x0 x_lb x_ub)).
Proof.
  unfold bnewton_init. destruct (Rltb (f x_ub) (f x_lb)); simpl;
    auto using between_self_l, between_self_r.
Qed.

Lemma bnewton_bracket f df x0 x_lb x_ub n atol :
  match bounded_newton_raphson f df x0 x_lb x_ub n atol with
  | Root x => between x_lb x_ub x
  | NoZeroFound => True
  | _ => False
  end.
Proof.
  destruct (init_bounds f df x0 x_lb x_ub). now apply bnewton_loop_bracket.
Qed.

(** Sign invariant and accuracy. *)
Lemma IVT_between f a b :
  (forall y, between a b y -> continuity_pt f y) -> f a < 0 -> 0 <= f b ->
  exists z, between a b z /\ f z = 0.
Proof.
  intros Hc Ha Hb.
  destruct (Req_dec (f b) 0) as [E|E].
  { exists b; split; auto using between_self_r. }
  destruct (Rtotal_order a b) as [H|[H|H]].
  - destruct (Ranalysis5.IVT_interv f a b) as [z [Hz E0]]; try lra.
    + intros y Hy. apply Hc. unfold between; rewrite Rmin_left, Rmax_right; lra.
    + exists z; split; auto. unfold between; rewrite Rmin_left, Rmax_right; lra.
  - subst; lra.
  - destruct (Ranalysis5.IVT_interv (fun y => - f y) b a) as [z [Hz E0]]; try lra.
    + intros y Hy. apply continuity_pt_opp. apply Hc. unfold between; rewrite Rmin_right, Rmax_left; lra.
    + exists z; split; [|lra]. unfold between; rewrite Rmin_right, Rmax_left; lra.
Qed.

Lemma bnewton_loop_accuracy f df atol n : forall s a b,
  (forall y, between a b y -> continuity_pt f y) ->
  between a b (b_lb s) -> between a b (b_ub s) -> between a b (b_x s) ->
  f (b_lb s) < 0 -> 0 <= f (b_ub s) ->
  b_fx s = f (b_x s) -> b_dfx s = df (b_x s) ->
  forall x, bnewton_loop f df atol n s = Root x ->
    (exists z, between a b z /\ f z = 0 /\ Rabs (x - z) < atol) \/
    (exists p, between a b p /\ df p <> 0 /\ x = p - f p / df p /\ Rabs (f p) < atol * Rabs (df p)).
Proof.
  induction n as [|n IH]; intros s a b Hc Hl Hu Hx Fl Fu Efx Edfx r; simpl; [discriminate|].
  destruct (move_ok s) as (dx' & x' & E & B). rewrite E.
  destruct (Rltb_spec (Rabs dx') atol) as [Hd|Hd].
  - intros R; inversion R; subst r; clear R.
    destruct s as [x lb ub dx fx dfx]; simpl in *. subst fx dfx.
    destruct (Rleb 0 (((x - ub) * df x - f x) * ((x - lb) * df x - f x)) ||
              Rltb (Rabs (dx * df x)) (Rabs (2 * f x))).
    + inversion E; subst dx' x'; clear E. left.
      destruct (IVT_between f lb ub) as [z [Hz Ez]]; auto.
      { intros y Hy; apply Hc; exact (between_trans _ _ _ _ _ Hl Hu Hy). }
      exists z; repeat split; auto; try (apply (between_trans _ _ _ _ _ Hl Hu Hz)).
      eapply Rle_lt_trans; [|exact Hd].
      unfold between, Rmin, Rmax in Hz. unfold Rabs.
      destruct (Rle_dec lb ub); destruct (Rcase_abs _); destruct (Rcase_abs _); lra.
    + destruct (Reqb_spec (df x) 0) as [E0|E0]; [discriminate|].
      inversion E; subst dx' x'; clear E. right. exists x; repeat split; auto; try apply Hx.
      unfold Rdiv in Hd. rewrite Rabs_mult, Rabs_inv in Hd.
      apply Rmult_lt_compat_r with (r := Rabs (df x)) in Hd; [|now apply Rabs_pos_lt].
      rewrite Rmult_assoc, Rinv_l in Hd by (now apply Rabs_no_R0). lra.
  - assert (Bx : between a b x') by (eapply between_trans; [exact Hl|exact Hu|exact B]).
    apply IH with (a := a) (b := b); auto;
      unfold bnewton_update; destruct (Rltb_spec (f x') 0); simpl; auto; try lra.
Qed.

Lemma init_x_between f df x0 x_lb x_ub :
  between x_lb x_ub (b_x (bnewton_init f df x0 x_lb x_ub)).
Proof.
  unfold bnewton_init.
  destruct (Rltb (f x_ub) (f x_lb)); simpl.
  - destruct (Rltb_spec x0 x_ub); simpl; [unfold between, Rmin, Rmax; destruct (Rle_dec x_lb x_ub); lra|].
    destruct (Rltb_spec x_lb x0); simpl; unfold between, Rmin, Rmax; destruct (Rle_dec x_lb x_ub); lra.
  - destruct (Rltb_spec x0 x_lb); simpl; [unfold between, Rmin, Rmax; destruct (Rle_dec x_lb x_ub); lra|].
    destruct (Rltb_spec x_ub x0); simpl; unfold between, Rmin, Rmax; destruct (Rle_dec x_lb x_ub); lra.
Qed.

Lemma bnewton_accuracy f df x0 x_lb x_ub n atol x :
  (forall y, between x_lb x_ub y -> continuity_pt f y) ->
  f x_lb * f x_ub < 0 ->
  bounded_newton_raphson f df x0 x_lb x_ub n atol = Root x ->
  (exists z, between x_lb x_ub z /\ f z = 0 /\ Rabs (x - z) < atol) \/
  (exists p, between x_lb x_ub p /\ df p <> 0 /\ x = p - f p / df p /\ Rabs (f p) < atol * Rabs (df p)).
Proof.
  intros Hc Hs E. unfold bounded_newton_raphson in E.
  destruct (init_bounds f df x0 x_lb x_ub) as [B1 B2].
  pose proof (init_x_between f df x0 x_lb x_ub) as B3.
  eapply bnewton_loop_accuracy; eauto;
    unfold bnewton_init; destruct (Rltb_spec (f x_ub) (f x_lb)); simpl; auto; nra.
Qed.

(** Termination: the loop needs at most K(K+1)/2 iterations on a bracket shorter than 2^K * atol. *)
Lemma move_dx s dx' x' :
  bnewton_move s = Some (dx', x') ->
  (Rabs dx' = Rabs (b_ub s - b_lb s) / 2 /\ x' = b_lb s + 0.5 * (b_ub s - b_lb s)) \/
  Rabs dx' <= Rabs (b_dx s) / 2.
Proof.
  destruct s as [x lb ub dx fx dfx]. unfold bnewton_move; simpl.
  destruct (Rleb 0 (((x - ub) * dfx - fx) * ((x - lb) * dfx - fx))); simpl.
  { intros E; inversion E; subst. left; split; auto. rewrite Rabs_mult, (Rabs_right 0.5); lra. }
  destruct (Rltb_spec (Rabs (dx * dfx)) (Rabs (2 * fx))) as [H|H]; simpl.
  { intros E; inversion E; subst. left; split; auto. rewrite Rabs_mult, (Rabs_right 0.5); lra. }
  destruct (Reqb_spec dfx 0) as [E0|E0]; [discriminate|].
  intros E; inversion E; subst. right.
  assert (0 < Rabs dfx) by now apply Rabs_pos_lt.
  apply Rmult_le_reg_r with (Rabs dfx); auto.
  unfold Rdiv at 1. rewrite Rabs_mult, Rabs_inv, Rmult_assoc, Rinv_l by lra.
  rewrite !Rabs_mult, (Rabs_right 2) in H by lra. lra.
Qed.

Lemma update_width f df s dx' x' :
  between (b_lb s) (b_ub s) x' ->
  Rabs (b_ub (bnewton_update f df s dx' x') - b_lb (bnewton_update f df s dx' x')) <= Rabs (b_ub s - b_lb s).
Proof.
  intros B. unfold bnewton_update. destruct (Rltb (f x') 0); simpl;
  unfold between, Rmin, Rmax in B; unfold Rabs;
    destruct (Rle_dec (b_lb s) (b_ub s)); destruct (Rcase_abs _); destruct (Rcase_abs _); lra.
Qed.

Lemma update_width_mid f df s dx' :
  let x' := b_lb s + 0.5 * (b_ub s - b_lb s) in
  Rabs (b_ub (bnewton_update f df s dx' x') - b_lb (bnewton_update f df s dx' x')) = Rabs (b_ub s - b_lb s) / 2.
Proof.
  intros x'. unfold bnewton_update. subst x'. destruct (Rltb _ 0); simpl.
  - replace (b_ub s - (b_lb s + 0.5 * (b_ub s - b_lb s))) with (0.5 * (b_ub s - b_lb s)) by lra.
    rewrite Rabs_mult, (Rabs_right 0.5); lra.
  - replace (b_lb s + 0.5 * (b_ub s - b_lb s) - b_lb s) with (0.5 * (b_ub s - b_lb s)) by lra.
    rewrite Rabs_mult, (Rabs_right 0.5); lra.
Qed.

(** triangular numbers *)
Fixpoint tri (k : nat) : nat := match k with O => O | S k' => (S k' + tri k')%nat end.
Lemma tri_formula k : (2 * tri k = k * (k + 1))%nat.
Proof. induction k as [|k IH]; simpl tri; [lia|]. nia. Qed.

Lemma bnewton_loop_terminates f df atol :
  0 < atol -> forall n j m s,
  (1 <= m)%nat -> (1 <= j)%nat -> (m + tri (j - 1) <= n)%nat ->
  Rabs (b_ub s - b_lb s) < 2 ^ j * atol -> Rabs (b_dx s) < 2 ^ m * atol ->
  exists x, bnewton_loop f df atol n s = Root x.
Proof.
  intros Ha. induction n as [|n IH]; intros j m s Hm Hj Hn Hw Hd; [lia|]. simpl.
  destruct (move_ok s) as (dx' & x' & E & B). rewrite E.
  destruct (Rltb_spec (Rabs dx') atol) as [Hx|Hx]; [eauto|].
  destruct (move_dx _ _ _ E) as [[D ->]|D].
  - (* bisection *)
    destruct j as [|[|j]]; [lia| |].
    + exfalso; apply Hx. rewrite D. simpl in Hw. lra.
    + apply (IH (S j) (S j)); try lia.
      * simpl tri in Hn. simpl in *. destruct j; simpl in *; lia.
      * rewrite update_width_mid. simpl in *. lra.
      * assert (Ed : b_dx (bnewton_update f df s dx' (b_lb s + 0.5 * (b_ub s - b_lb s))) = dx')
          by (unfold bnewton_update; destruct (Rltb _ 0); reflexivity).
        rewrite Ed, D. simpl in *. lra.
  - (* Newton step *)
    destruct m as [|[|m]]; [lia| |].
    + exfalso; apply Hx. simpl in Hd. lra.
    + apply (IH j (S m)); try lia.
      * eapply Rle_lt_trans; [apply update_width; auto|auto].
      * assert (Ed : b_dx (bnewton_update f df s dx' x') = dx')
          by (unfold bnewton_update; destruct (Rltb _ 0); reflexivity).
        rewrite Ed. simpl in *. lra.
Qed.

Lemma bnewton_terminates f df x0 x_lb x_ub atol K n :
  0 < atol -> (1 <= K)%nat -> Rabs (x_ub - x_lb) < 2 ^ K * atol -> (K * (K + 1) <= 2 * n)%nat ->
  exists x, bounded_newton_raphson f df x0 x_lb x_ub n atol = Root x.
Proof.
  intros Ha HK Hw Hn. unfold bounded_newton_raphson.
  pose proof (tri_formula K) as T.
  assert (W : Rabs (b_ub (bnewton_init f df x0 x_lb x_ub) - b_lb (bnewton_init f df x0 x_lb x_ub)) < 2 ^ K * atol
           /\ Rabs (b_dx (bnewton_init f df x0 x_lb x_ub)) < 2 ^ K * atol).
  { unfold bnewton_init. destruct (Rltb (f x_ub) (f x_lb)); simpl; rewrite Rabs_Rabsolu.
    - rewrite Rabs_minus_sym. auto.
    - auto. }
  destruct W as [W1 W2].
  apply (bnewton_loop_terminates f df atol Ha n K K); auto.
  destruct K as [|K]; [lia|]. simpl. rewrite Nat.sub_0_r. simpl tri in T. lia.
Qed.

(** *** Plain Newton *)
Lemma newton_iterate_shift f df x0 k :
  newton_iterate f df (x0 - f x0 / df x0) k = newton_iterate f df x0 (S k).
Proof. induction k as [|k IH]; simpl in *; auto. now rewrite IH. Qed.

Definition newton_outcome f df atol rtol n x0 (r : root_result) : Prop :=
  let it := newton_iterate f df x0 in
  match r with
  | Root x => exists k, (k < n)%nat /\
      (forall i, (i < k)%nat -> f (it i) <> 0 /\ df (it i) <> 0
                                /\ atol + rtol * Rabs (it i) < Rabs (it (S i) - it i)) /\
      ((x = it k /\ f x = 0) \/
       (x = it (S k) /\ f (it k) <> 0 /\ df (it k) <> 0 /\ Rabs (x - it k) <= atol + rtol * Rabs (it k)))
  | DerivativeIsZero => exists k, (k < n)%nat /\ f (it k) <> 0 /\ df (it k) = 0
  | NoZeroFound => forall k, (k < n)%nat -> f (it k) <> 0 /\ df (it k) <> 0
                     /\ atol + rtol * Rabs (it k) < Rabs (it (S k) - it k)
  | ZeroDivision => False
  end.

Lemma newton_loop_outcome f df atol rtol n : forall x0,
  newton_outcome f df atol rtol n x0 (newton_loop f df atol rtol n x0).
Proof.
  induction n as [|n IH]; intros x0; simpl.
  - intros k Hk; lia.
  - destruct (Reqb_spec (f x0) 0) as [E|E].
    { simpl. exists 0%nat. split; [lia|]. split; [intros; lia|]. left; auto. }
    destruct (Reqb_spec (df x0) 0) as [Ed|Ed].
    { simpl. exists 0%nat. split; [lia|]. auto. }
    destruct (Rleb_spec (Rabs (x0 - f x0 / df x0 - x0)) (atol + rtol * Rabs x0)) as [H|H].
    { simpl. exists 0%nat. split; [lia|]. split; [intros; lia|]. right; auto. }
    specialize (IH (x0 - f x0 / df x0)).
    set (it := newton_iterate f df x0).
    assert (Sh : forall k, newton_iterate f df (x0 - f x0 / df x0) k = it (S k))
      by (intros; apply newton_iterate_shift).
    assert (H0 : f (it 0%nat) <> 0 /\ df (it 0%nat) <> 0 /\
                 atol + rtol * Rabs (it 0%nat) < Rabs (it 1%nat - it 0%nat)).
    { unfold it; simpl. repeat split; auto; lra. }
    destruct (newton_loop f df atol rtol n (x0 - f x0 / df x0)); simpl in *.
    + destruct IH as [k [Hk [Hb Hr]]]. exists (S k). split; [lia|]. split.
      * intros [|i] Hi; [exact H0|].
        specialize (Hb i). pose proof (Sh (S i)) as S1. simpl in S1. rewrite S1, !Sh in Hb. apply Hb; lia.
      * pose proof (Sh (S k)) as S1; simpl in S1. rewrite S1, !Sh in Hr. exact Hr.
    + destruct IH as [k [Hk Hr]]. exists (S k). rewrite !Sh in Hr. split; [lia|exact Hr].
    + intros [|k] Hk; [exact H0|]. specialize (IH k). pose proof (Sh (S k)) as S1; simpl in S1.
      rewrite S1, !Sh in IH. apply IH; lia.
    + exact IH.
Qed.

Lemma newton_raphson_outcome f df x0 n atol rtol :
  newton_outcome f df atol rtol n x0 (newton_raphson f df x0 n atol rtol).
Proof. unfold newton_raphson. rewrite Rmult_1_l. apply newton_loop_outcome. Qed.
