(** C66: depths at the downstream ends of pipes under the option [exit_hydraulics]. *)
From Verif Require Import Prelude M_Coeffs M_ExitHydraulics S_ExitHydraulics L_Geometry L_ExitHydraulics.

Lemma np_eps_pos : 0 < np_eps.
Proof. apply Rinv_0_lt_compat, pow_lt. lra. Qed.

Lemma ratio_above a b : 0 < b -> b < a -> 1 < a / b.
Proof.
  intros Hb Ha. apply Rmult_lt_reg_r with b; auto. unfold Rdiv. rewrite Rmult_assoc, Rinv_l by lra. lra.
Qed.

Lemma critical_depths root x H Q h_c k : solve_critical_depth root x H Q = Some h_c -> (k < x_NK x)%nat ->
  H (x_J x k) - x_z x k < x_g1 x k ->
  root (critical_log (Q k) (x_g1 x k)) np_eps (x_g1 x k) = Some (h_c k).
Proof.
  intros E Hk Ht.
  refine (for_opt_inv (fun n h_c => forall k, (k < n)%nat -> exit_condition x H k = true ->
    root (critical_log (Q k) (x_g1 x k)) np_eps (x_g1 x k) = Some (h_c k)) _ _ _ _ _ _ E k Hk _).
  - intros; lia.
  - intros i s1 s2 Hi IH B j Hj Cj. destruct (exit_condition x H i) eqn:Ci.
    + destruct (root (critical_log (Q i) (x_g1 x i)) np_eps (x_g1 x i)) as [c|] eqn:R; [|discriminate].
      cbn [bind] in B. inversion B; subst s2. destruct (Nat.eq_dec j i) as [->|N].
      * rewrite upd_eq. exact R.
      * rewrite upd_neq by auto. apply IH; auto. lia.
    + inversion B; subst s2. apply IH; auto.
      assert (j <> i) by (intros ->; congruence). lia.
  - unfold exit_condition. destruct (Rltb_spec (H (x_J x k) - x_z x k) (x_g1 x k)); [auto|lra].
Qed.

(** The masks of [solve_exit_hydraulics], one entry. *)
Lemma exit_entry x H h_c h k : (H (x_J x k) - x_z x k < x_g1 x k -> 0 < h_c k) ->
  solve_exit_hydraulics x H h_c (fun _ => 0) h k =
  Rmax (x_min x) (if Rltb (H (x_J x k) - x_z x k) (x_g1 x k)
                  then if Rltb (h_c k) (H (x_J x k) - x_z x k) then H (x_J x k) - x_z x k else h k
                  else h k).
Proof.
  intros P. unfold solve_exit_hydraulics. cbv zeta beta. unfold exit_condition.
  set (t := H (x_J x k) - x_z x k) in *.
  assert (M : forall v, (if Rltb v (x_min x) then x_min x else v) = Rmax (x_min x) v).
  { intros v. destruct (Rltb_spec v (x_min x)); [rewrite Rmax_left|rewrite Rmax_right]; lra. }
  rewrite M. f_equal.
  destruct (Rltb_spec t (x_g1 x k)) as [L|L].
  - specialize (P L). destruct (Rltb_spec (h_c k) t); cbn [andb negb].
    + reflexivity.
    + destruct (Reqb_spec 0 (h_c k)); [lra|]. destruct (Rltb_spec (h_c k) 0); [lra|]. reflexivity.
  - rewrite !andb_false_r. reflexivity.
Qed.

(** Whatever the state: a submerged exit keeps its depth, an exit below the crown takes the tailwater depth if that
    exceeds the critical depth of the pipe's flow and keeps its depth otherwise; all at least the minimum depth. *)
Theorem C66_exit_depths root x H Q h h' : root_finder root ->
  (forall k, (k < x_NK x)%nat -> 2 * np_eps <= x_g1 x k) ->
  exit_step root x H Q h = Some h' ->
  forall k, (k < x_NK x)%nat ->
  let d := x_g1 x k in let tail := H (x_J x k) - x_z x k in
  (d <= tail -> h' k = Rmax (x_min x) (h k)) /\
  (tail < d -> exists c, 0 < c <= d /\
     (c < d -> critical_flow (Q k) d c) /\
     (c = d -> Q k ^ 2 * (0.001 * d) = 9.81 * (PI * (d / 2) ^ 2) ^ 3) /\
     (c < tail -> h' k = Rmax (x_min x) tail) /\
     (tail <= c -> h' k = Rmax (x_min x) (h k))).
Proof.
  intros RF Hd E k Hk d tail. specialize (Hd k Hk). fold d in Hd. pose proof np_eps_pos as Pe.
  unfold exit_step in E. destruct (solve_critical_depth root x H Q) as [h_c|] eqn:C; [|discriminate].
  cbn [bind] in E. inversion E; subst h'; clear E.
  split.
  - intros G. rewrite exit_entry by (intros W; fold d tail in W; lra). fold d tail.
    destruct (Rltb_spec tail d); [lra|reflexivity].
  - intros L. pose proof (critical_depths root x H Q h_c k C Hk L) as R. fold d in R.
    assert (Le : np_eps <= d) by lra.
    destruct (rf_sound root RF _ _ _ _ Le R) as [B Z].
    assert (Q0 : Q k <> 0).
    { intros Q0. rewrite Q0, log_still in Z. discriminate. }
    exists (h_c k). split; [lra|]. split; [|split]; [| |split].
    + intros Lc. apply critical_flow_iff; try lra. rewrite log_value in Z by (auto; lra). inversion Z as [Z'].
      rewrite <- ln_1 in Z'. pose proof (inv_froude_pos _ (ang_range d (h_c k) ltac:(lra) ltac:(lra))) as Ip.
      pose proof (level_pos (Q k) d ltac:(lra) Q0) as Lp.
      apply ln_inv in Z'; [|apply Rdiv_lt_0_compat; auto|lra].
      apply Rmult_eq_compat_r with (r := inv_froude (ang d (h_c k))) in Z'.
      unfold Rdiv in Z'. rewrite Rmult_assoc, Rinv_l in Z' by lra. lra.
    + intros Ec. rewrite Ec, log_full in Z by (auto; lra). inversion Z as [Z'].
      assert (P2 : 0 < Q k ^ 2) by (simpl; rewrite Rmult_1_r; apply Rsqr_pos_lt; auto).
      assert (Pa : 0 < PI * (d / 2) ^ 2) by (apply Rmult_lt_0_compat; [apply PI_RGT_0|apply pow_lt; lra]).
      pose proof (pow_lt _ 3 Pa) as P3.
      rewrite <- ln_1 in Z'. apply ln_inv in Z'; [|apply Rdiv_lt_0_compat; [apply Rmult_lt_0_compat|]; lra|lra].
      apply Rmult_eq_compat_r with (r := 9.81 * (PI * (d / 2) ^ 2) ^ 3) in Z'.
      unfold Rdiv at 1 in Z'. rewrite Rmult_assoc, Rinv_l in Z' by lra. lra.
    + intros Lt. rewrite exit_entry by (intros; lra). fold d tail.
      destruct (Rltb_spec tail d); [|lra]. destruct (Rltb_spec (h_c k) tail); [reflexivity|lra].
    + intros Lt. rewrite exit_entry by (intros; lra). fold d tail.
      destruct (Rltb_spec tail d); [|lra]. destruct (Rltb_spec (h_c k) tail); [lra|reflexivity].
Qed.

(** A pipe whose flow is neither vanishing nor enormous. *)
Definition flowing (Q d : R) : Prop :=
  39.24 * d * np_eps ^ 4 < Q ^ 2 /\ Q ^ 2 * (0.001 * d) < 9.81 * (PI * (d / 2) ^ 2) ^ 3.
Lemma flowing_nonzero Q d : 0 < d -> flowing Q d -> Q <> 0.
Proof.
  intros Hd [F _] ->. pose proof (pow_lt _ 4 np_eps_pos) as P.
  assert (0 < 39.24 * d * np_eps ^ 4) by (apply Rmult_lt_0_compat; lra). lra.
Qed.
Lemma bracket root Q d : root_finder root -> 2 * np_eps <= d -> flowing Q d ->
  exists c, np_eps < c < d /\ critical_flow Q d c /\ root (critical_log Q d) np_eps d = Some c.
Proof.
  intros RF Hd F. pose proof np_eps_pos as Pe. pose proof (flowing_nonzero Q d ltac:(lra) F) as Q0.
  destruct F as [F1 F2]. destruct (critical_exists Q d np_eps Pe Hd F1) as (c & Hc & C).
  exists c. split; [auto|]. split; [auto|].
  apply critical_flow_iff in C; try lra. pose proof (level_pos Q d ltac:(lra) Q0) as Lp.
  pose proof (inv_froude_pos _ (ang_range d c ltac:(lra) ltac:(lra))) as Ip.
  apply (rf_finds root RF); auto.
  - rewrite log_value by (auto; lra). rewrite C. unfold Rdiv. rewrite Rinv_r by lra. rewrite ln_1. reflexivity.
  - intros y Hy. destruct (ang_range d y ltac:(lra) ltac:(lra)) as [A1 A2].
    destruct (ang_range d c ltac:(lra) ltac:(lra)) as [A3 A4].
    pose proof (inv_froude_mono _ _ A1 (ang_mono d y c ltac:(lra) ltac:(lra) ltac:(lra) ltac:(lra)) A4) as M.
    rewrite log_value by (auto; lra). eexists. split; [reflexivity|]. rewrite <- ln_1. apply ln_increasing; [lra|].
    pose proof (inv_froude_pos _ (conj A1 A2)) as Iy.
    apply Rmult_lt_reg_r with (inv_froude (ang d y)); auto. unfold Rdiv. rewrite Rmult_assoc, Rinv_l by lra. lra.
  - intros y Hy. destruct (Req_dec y d) as [->|N].
    + rewrite log_full by (auto; lra). cbn [negative]. rewrite <- ln_1.
      assert (P2 : 0 < Q ^ 2) by (simpl; rewrite Rmult_1_r; apply Rsqr_pos_lt; auto).
      assert (Pa : 0 < PI * (d / 2) ^ 2) by (apply Rmult_lt_0_compat; [apply PI_RGT_0|apply pow_lt; lra]).
      pose proof (pow_lt _ 3 Pa) as P3.
      apply ln_increasing; [apply Rdiv_lt_0_compat; [apply Rmult_lt_0_compat|]; lra|].
      apply Rmult_lt_reg_r with (9.81 * (PI * (d / 2) ^ 2) ^ 3); [lra|].
      unfold Rdiv at 1. rewrite Rmult_assoc, Rinv_l by lra. lra.
    + destruct (ang_range d y ltac:(lra) ltac:(lra)) as [A1 A2].
      destruct (ang_range d c ltac:(lra) ltac:(lra)) as [A3 A4].
      pose proof (inv_froude_mono _ _ A3 (ang_mono d c y ltac:(lra) ltac:(lra) ltac:(lra) ltac:(lra)) A2) as M.
      rewrite log_value by (auto; lra). cbn [negative]. rewrite <- ln_1.
      pose proof (inv_froude_pos _ (conj A1 A2)) as Iy.
      apply ln_increasing; [apply Rdiv_lt_0_compat; auto|].
      apply Rmult_lt_reg_r with (inv_froude (ang d y)); auto. unfold Rdiv. rewrite Rmult_assoc, Rinv_l by lra. lra.
Qed.

(** When every pipe that ends below its crown is flowing, the step succeeds, each such pipe has exactly one critical
    depth, and the exit takes the tailwater depth exactly when that is greater. *)
Theorem C66_flowing_pipes_solved root x H Q h : root_finder root ->
  (forall k, (k < x_NK x)%nat -> 2 * np_eps <= x_g1 x k) ->
  (forall k, (k < x_NK x)%nat -> H (x_J x k) - x_z x k < x_g1 x k -> flowing (Q k) (x_g1 x k)) ->
  exists h', exit_step root x H Q h = Some h' /\
  forall k, (k < x_NK x)%nat ->
    let d := x_g1 x k in let tail := H (x_J x k) - x_z x k in
    tail < d -> exists c, 0 < c < d /\ critical_flow (Q k) d c /\
      (forall c', 0 < c' < d -> critical_flow (Q k) d c' -> c' = c) /\
      h' k = Rmax (x_min x) (if Rlt_dec c tail then tail else h k).
Proof.
  intros RF Hd HF. pose proof np_eps_pos as Pe.
  assert (T : exists h_c, solve_critical_depth root x H Q = Some h_c).
  { unfold solve_critical_depth.
    edestruct (for_opt_total (fun (_ : nat) (_ : nat -> R) => True)) as (h_c & E & _);
      [exact I| |exists h_c; exact E].
    intros i s1 Hi _. cbv beta. destruct (exit_condition x H i) eqn:C.
    - unfold exit_condition in C. destruct (Rltb_spec (H (x_J x i) - x_z x i) (x_g1 x i)) as [L|]; [|discriminate].
      destruct (bracket root (Q i) (x_g1 x i) RF (Hd i Hi) (HF i Hi L)) as (c & _ & _ & R). rewrite R.
      cbn [bind]. eauto.
    - eauto. }
  destruct T as [h_c C].
  assert (E : exit_step root x H Q h = Some (solve_exit_hydraulics x H h_c (fun _ => 0) h)).
  { unfold exit_step. rewrite C. reflexivity. }
  eexists. split; [exact E|].
  intros k Hk d tail L. pose proof (critical_depths root x H Q h_c k C Hk L) as R. fold d in R.
  destruct (bracket root (Q k) d RF (Hd k Hk) (HF k Hk L)) as (c & Hc & Cc & R').
  rewrite R in R'. inversion R'; subst c. exists (h_c k). split; [lra|]. split; [auto|]. split.
  - intros c' Hc' Cc'. apply (critical_unique (Q k) d); auto; lra.
  - rewrite exit_entry by (intros; lra). fold d tail. destruct (Rltb_spec tail d); [|lra].
    destruct (Rltb_spec (h_c k) tail), (Rlt_dec (h_c k) tail); auto; lra.
Qed.

(** A slope on which a given depth is the uniform one. *)
Lemma slope_exists Q d n y : 0 < Q -> 0 < d -> 0 < n -> 0 < y < d -> exists S, 0 < S /\ uniform_flow Q d n S y.
Proof.
  intros HQ Hd Hn Hy. set (A := (d / 2) ^ 2 * seg (ang d y)). set (P := d * ang d y).
  pose proof (exp_pos (5 / 3 * ln A)) as PA. fold (Rpower A (5 / 3)) in PA.
  pose proof (exp_pos (2 / 3 * ln P)) as PP. fold (Rpower P (2 / 3)) in PP.
  set (v := Q * n * Rpower P (2 / 3) / Rpower A (5 / 3)).
  assert (Pv : 0 < v).
  { unfold v. apply Rdiv_lt_0_compat; auto. repeat apply Rmult_lt_0_compat; auto. }
  exists (v ^ 2). split; [apply pow_lt; auto|].
  exists A, P. split; [apply area_seg; auto; lra|]. split.
  - exists (ang d y). split; [apply ang_half; lra|reflexivity].
  - rewrite sqrt_pow2 by lra. unfold v. field. repeat split; lra.
Qed.

(** One pipe of 1 m diameter ending above the water below it (a free outfall), carrying 0.1 m3/s. *)
Definition outfall : exits :=
  {| x_NK := 1; x_g1 := fun _ => 1; x_z := fun _ => 0; x_J := fun _ => 0%nat; x_min := 0 |}.
Lemma eps_small : 2 * np_eps <= 1.
Proof.
  unfold np_eps. apply Rmult_le_reg_r with (2 ^ 52); [apply pow_lt; lra|].
  rewrite Rmult_assoc, Rinv_l by (apply pow_nonzero; lra). rewrite Rmult_1_r.
  replace (2 ^ 52) with (2 * 2 ^ 51) by (simpl; ring). pose proof (pow_R1_Rle 2 51 ltac:(lra)). lra.
Qed.
Lemma flowing_1 : flowing 0.1 1.
Proof.
  pose proof PI_RGT_0. pose proof PI2_3_2. pose proof np_eps_pos as Pe. split.
  - assert (S : np_eps <= / 2 ^ 5).
    { unfold np_eps. apply Rinv_le_contravar; [apply pow_lt; lra|].
      apply Rle_pow; [lra|lia]. }
    assert (np_eps ^ 4 <= (/ 2 ^ 5) ^ 4) by (apply pow_incr; lra).
    simpl in *. lra.
  - assert (A : 3 / 4 <= PI * (1 / 2) ^ 2) by (simpl; lra).
    assert ((3 / 4) ^ 3 <= (PI * (1 / 2) ^ 2) ^ 3) by (apply pow_incr; lra). simpl in *. lra.
Qed.

(** On a mild slope (uniform depth above the critical depth) a free outfall should have critical depth, as the
    branches of the code intend; the uniform depth is reported instead, because the computation of the uniform
    ("normal") depth is commented out and compared as zero. *)
Theorem C66_mild_free_outfall_refuted :
  exists x H Q h n, forall root, root_finder root -> exists h' S c,
    exit_step root x H Q h = Some h' /\ (0 < x_NK x)%nat /\
    H (x_J x 0%nat) < x_z x 0%nat /\                    (* free outfall *)
    0 < n /\ 0 < S /\ uniform_flow (Q 0%nat) (x_g1 x 0%nat) n S (h 0%nat) /\
    critical_flow (Q 0%nat) (x_g1 x 0%nat) c /\ c < h 0%nat < x_g1 x 0%nat /\       (* mild slope *)
    h' 0%nat = h 0%nat.
Proof.
  destruct (critical_exists 0.1 1 np_eps np_eps_pos eps_small (proj1 flowing_1)) as (c & Hc & C).
  pose proof np_eps_pos.
  exists outfall, (fun _ => -1), (fun _ => 0.1), (fun _ => (c + 1) / 2), 0.01.
  intros root RF.
  destruct (C66_flowing_pipes_solved root outfall (fun _ => -1) (fun _ => 0.1) (fun _ => (c + 1) / 2) RF)
    as (h' & E & P).
  - intros; cbn. apply eps_small.
  - intros; cbn. apply flowing_1.
  - specialize (P 0%nat ltac:(cbn; lia)). cbn in P. destruct P as (c2 & Hc2 & C2 & U & V); [lra|].
    destruct (slope_exists 0.1 1 0.01 ((c + 1) / 2)) as (S & PS & US); try lra.
    exists h', S, c. split; [exact E|]. split; [cbn; lia|]. split; [cbn; lra|]. split; [lra|]. split; [exact PS|].
    split; [exact US|]. split; [exact C|]. split; [cbn; lra|].
    rewrite V. destruct (Rlt_dec c2 (-1 - 0)); [lra|]. rewrite Rmax_right; lra.
Qed.

(** With a pipe that ends below its crown and carries no flow, and with one whose flow exceeds the bound above,
    every step raises. *)
Theorem C66_still_or_huge_flow_raises_refuted root x H Q h k : root_finder root ->
  (k < x_NK x)%nat -> 2 * np_eps <= x_g1 x k -> H (x_J x k) - x_z x k < x_g1 x k ->
  Q k = 0 \/ (39.24 * x_g1 x k * np_eps ^ 4 < Q k ^ 2 /\
              9.81 * (PI * (x_g1 x k / 2) ^ 2) ^ 3 < Q k ^ 2 * (0.001 * x_g1 x k)) ->
  exit_step root x H Q h = None.
Proof.
  intros RF Hk Hd L F. pose proof np_eps_pos as Pe. set (d := x_g1 x k) in *.
  destruct (exit_step root x H Q h) as [h'|] eqn:E; auto. exfalso.
  unfold exit_step in E. destruct (solve_critical_depth root x H Q) as [h_c|] eqn:C; [|discriminate].
  pose proof (critical_depths root x H Q h_c k C Hk L) as R. fold d in R.
  rewrite (rf_refuses root RF) in R; [discriminate|lra|].
  destruct F as [Z|[F1 F2]].
  - right. rewrite Z, !log_still. split; exact I.
  - left. assert (Q0 : Q k <> 0).
    { intros Z. rewrite Z in F1. pose proof (pow_lt _ 4 Pe) as P.
      assert (0 < 39.24 * d * np_eps ^ 4) by (apply Rmult_lt_0_compat; lra). lra. }
    split.
    + rewrite log_value by (auto; lra). eexists. split; [reflexivity|]. rewrite <- ln_1.
      apply ln_increasing; [lra|]. pose proof (inv_froude_pos _ (ang_range d np_eps ltac:(lra) ltac:(lra))) as Ip.
      pose proof (tiny_depth (Q k) d np_eps Pe Hd F1) as T.
      apply Rmult_lt_reg_r with (inv_froude (ang d np_eps)); auto. unfold Rdiv. rewrite Rmult_assoc, Rinv_l by lra.
      lra.
    + rewrite log_full by (auto; lra). eexists. split; [reflexivity|]. rewrite <- ln_1.
      assert (Pa : 0 < PI * (d / 2) ^ 2) by (apply Rmult_lt_0_compat; [apply PI_RGT_0|apply pow_lt; lra]).
      pose proof (pow_lt _ 3 Pa) as P3. apply ln_increasing; [lra|].
      apply ratio_above; lra.
Qed.

(** The hypotheses are met: a root finder exists, and a pair of pipes, one submerged and one at a free outfall, is
    solved; and with the second pipe at rest the step raises. *)
Definition two_exits : exits :=
  {| x_NK := 2; x_g1 := fun _ => 1; x_z := fun k => match k with O => 0 | _ => 5 end; x_J := fun _ => 0%nat;
     x_min := 0 |}.
Example C66_example :
  root_finder lub_root /\
  (exists h', exit_step lub_root two_exits (fun _ => 3) (fun _ => 0.1) (fun _ => 0.5) = Some h' /\
     h' 0%nat = 0.5 /\ h' 1%nat = 0.5) /\
  exit_step lub_root two_exits (fun _ => 3) (fun k => match k with O => 0.1 | _ => 0 end) (fun _ => 0.5) = None.
Proof.
  pose proof lub_root_finder as RF. pose proof eps_small as Es. split; [exact RF|]. split.
  - destruct (C66_flowing_pipes_solved lub_root two_exits (fun _ => 3) (fun _ => 0.1) (fun _ => 0.5) RF)
      as (h' & E & P).
    + intros; cbn; auto.
    + intros; cbn. apply flowing_1.
    + exists h'. split; [exact E|].
      destruct (C66_exit_depths lub_root two_exits _ _ _ h' RF ltac:(intros; cbn; auto) E 0%nat ltac:(cbn; lia)) as [S0 _].
      split.
      * rewrite S0 by (cbn; lra). cbn. rewrite Rmax_right; lra.
      * destruct (P 1%nat ltac:(cbn; lia)) as (c & Hc & _ & _ & V); [cbn; lra|]. rewrite V. cbn.
        destruct (Rlt_dec c (3 - 5)); [lra|]. rewrite Rmax_right; lra.
  - apply (C66_still_or_huge_flow_raises_refuted lub_root two_exits) with (k := 1%nat); auto; cbn; auto; lra.
Qed.
