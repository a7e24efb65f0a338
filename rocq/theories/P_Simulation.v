(** Theorems on the step control (C40, C42-C46). *)
From Coq Require Import ZArith.
From Verif Require Import Prelude M_Coeffs M_Simulation S_Simulation.

(** ** C42: proposed step sizes *)

Lemma clip_range lo hi x : lo <= hi -> lo <= Rmin (Rmax x lo) hi <= hi.
Proof. intros H. pose proof (Rmax_r x lo). split; [apply Rmin_glb; lra|apply Rmin_r]. Qed.
Lemma clip_inside lo hi x : lo <= x <= hi -> Rmin (Rmax x lo) hi = x.
Proof. intros H. rewrite Rmax_left by lra. apply Rmin_left; lra. Qed.
Lemma clip_mono lo hi x y : x <= y -> Rmin (Rmax x lo) hi <= Rmin (Rmax y lo) hi.
Proof. intros. apply Rle_min_compat_r, Rle_max_compat_r; auto. Qed.

Lemma eps_pos : 0 < eps.
Proof. unfold eps. apply Rinv_0_lt_compat; lra. Qed.

(** [compute_step_size] with an error stays in the window; larger errors never propose a larger step; the step is
    kept when the error is half the tolerance scaled by the safety factor (elementary controller). *)
Theorem C42_computed_step_within_window :
  forall dt e min_dt max_dt tol min_rel max_rel safety, min_dt <= max_dt ->
  min_dt <= compute_step_size dt (Some e) min_dt max_dt tol min_rel max_rel safety <= max_dt.
Proof. intros. unfold compute_step_size. apply clip_range; auto. Qed.

Theorem C42_larger_error_never_larger_step :
  forall dt e e' min_dt max_dt tol min_rel max_rel safety,
  0 <= dt -> 0 <= safety -> 0 <= tol -> Rabs e <= Rabs e' ->
  compute_step_size dt (Some e') min_dt max_dt tol min_rel max_rel safety
  <= compute_step_size dt (Some e) min_dt max_dt tol min_rel max_rel safety.
Proof.
  intros dt e e' mn mx tol r0 r1 sf Hdt Hs Ht He. unfold compute_step_size. pose proof eps_pos as Ep.
  apply clip_mono. apply Rmult_le_compat_l; [apply Rmult_le_pos; auto|].
  apply clip_mono. apply sqrt_le_1_alt.
  assert (E1 : 0 < Rmax (Rabs e) eps) by (eapply Rlt_le_trans; [exact Ep|apply Rmax_r]).
  assert (E2 : Rmax (Rabs e) eps <= Rmax (Rabs e') eps) by (apply Rle_max_compat_r; auto).
  unfold Rdiv. apply Rmult_le_compat_l; [lra|]. apply Rinv_le_contravar; auto.
Qed.

(** An error of exactly [tol * safety^2 / 2] keeps the step. *)
Theorem C42_error_at_target_keeps_step :
  forall dt min_dt max_dt tol min_rel max_rel safety,
  0 < tol -> 0 < safety -> eps <= tol * safety ^ 2 / 2 ->
  min_rel <= / safety <= max_rel -> min_dt <= dt <= max_dt ->
  compute_step_size dt (Some (tol * safety ^ 2 / 2)) min_dt max_dt tol min_rel max_rel safety = dt.
Proof.
  intros dt mn mx tol r0 r1 sf Ht Hs He Hr Hd. unfold compute_step_size. pose proof eps_pos as Ep.
  rewrite Rabs_right by lra. rewrite (Rmax_left (tol * sf ^ 2 / 2) eps) by lra.
  replace (tol / 2 / (tol * sf ^ 2 / 2)) with ((/ sf) ^ 2) by (field; repeat split; nra).
  assert (0 < / sf) by (apply Rinv_0_lt_compat; auto).
  rewrite sqrt_pow2 by lra. rewrite (clip_inside r0 r1) by lra.
  replace (sf * dt * / sf) with dt by (field; lra). apply clip_inside; auto.
Qed.

Lemma posdiv_some x y q : posdiv x y = Some q -> 0 < x /\ 0 < y /\ q = x / y.
Proof.
  unfold posdiv. destruct (Rltb_spec 0 x); destruct (Rltb_spec 0 y); simpl; try discriminate.
  intros E; injection E as <-; auto.
Qed.
Lemma posdiv_pos x y : 0 < x -> 0 < y -> posdiv x y = Some (x / y).
Proof. intros. unfold posdiv. destruct (Rltb_spec 0 x); destruct (Rltb_spec 0 y); simpl; auto; lra. Qed.

(** [filter_step_size] with a full history of positive errors and steps: a step is proposed and lies in the window. *)
Theorem C42_filtered_step_within_window :
  forall own tol dt0 dt1 dt2 e0 e1 e2 b1 b2 b3 a2 a3 min_dt max_dt min_rel max_rel safety k,
  min_dt <= max_dt -> 0 < tol -> 0 < dt0 -> 0 < dt1 -> 0 < dt2 -> 0 < e0 -> 0 < e1 -> 0 < e2 ->
  exists dt', filter_step_size own tol [dt0; dt1; dt2] [Err e0; Err e1; Err e2] b1 b2 b3 a2 a3
                min_dt max_dt min_rel max_rel safety k = Some dt' /\ min_dt <= dt' <= max_dt.
Proof.
  intros. unfold filter_step_size. rewrite Bool.andb_false_r.
  rewrite !posdiv_pos by auto. cbn [bind]. eexists; split; [reflexivity|]. apply clip_range; auto.
Qed.

(** Every step the filter proposes lies in the window, unless the history is too short. *)
Theorem C42_any_filtered_step :
  forall own tol dts errs b1 b2 b3 a2 a3 min_dt max_dt min_rel max_rel safety k dt',
  min_dt <= max_dt ->
  filter_step_size own tol dts errs b1 b2 b3 a2 a3 min_dt max_dt min_rel max_rel safety k = Some dt' ->
  (length dts < 3)%nat /\ own = true /\ hd_error dts = Some dt' \/ min_dt <= dt' <= max_dt.
Proof.
  intros own tol dts errs b1 b2 b3 a2 a3 mn mx r0 r1 sf k dt' Hw. unfold filter_step_size.
  destruct own; cbn [andb].
  - destruct (Nat.ltb_spec (length dts) 3) as [L|L].
    + destruct dts as [|d q]; [discriminate|]. intros E; injection E as <-. left. auto.
    + intros E. right. revert E.
      destruct errs as [|[|x0|] [|[|x1|] [|[|x2|] [|? ?]]]]; try discriminate;
      destruct dts as [|d0 [|d1 [|d2 [|? ?]]]]; try discriminate.
      repeat (match goal with |- bind ?x _ = _ -> _ => destruct x; [cbn [bind]|discriminate] end).
      intros E; injection E as <-. apply clip_range; auto.
  - intros E. right. revert E.
    destruct errs as [|[|x0|] [|[|x1|] [|[|x2|] [|? ?]]]]; try discriminate;
    destruct dts as [|d0 [|d1 [|d2 [|? ?]]]]; try discriminate.
    repeat (match goal with |- bind ?x _ = _ -> _ => destruct x; [cbn [bind]|discriminate] end).
    intros E; injection E as <-. apply clip_range; auto.
Qed.

(** A constant history at the tolerance is a fixed point of the filter. *)
Theorem C42_steady_history_keeps_step :
  forall own tol dt b1 b2 b3 a2 a3 min_dt max_dt min_rel max_rel k,
  0 < tol -> 0 < dt -> min_dt <= dt <= max_dt -> min_rel <= 1 <= max_rel ->
  filter_step_size own tol [dt; dt; dt] [Err tol; Err tol; Err tol] b1 b2 b3 a2 a3 min_dt max_dt min_rel max_rel 1 k = Some dt.
Proof.
  intros. unfold filter_step_size. rewrite Bool.andb_false_r. rewrite !posdiv_pos by auto. cbn [bind].
  assert (O : forall x y, 0 < x -> Rpower (x / x) y = 1).
  { intros x y Hx. unfold Rdiv. rewrite Rinv_r by lra. unfold Rpower. rewrite ln_1, Rmult_0_r. apply exp_0. }
  rewrite !O by auto. replace (1 * 1 * 1 * 1 * 1) with 1 by ring. rewrite (clip_inside min_rel max_rel) by lra.
  replace (1 * 1 * dt) with dt by ring. rewrite clip_inside by auto. reflexivity.
Qed.

(** The newest error steers the step: with positive gain, a larger newest error never proposes a larger step. *)
Theorem C42_filter_larger_error_never_larger_step :
  forall own tol d0 d1 d2 e0 e0' e1 e2 b1 b2 b3 a2 a3 min_dt max_dt min_rel max_rel safety k x x',
  0 < d0 -> 0 < tol -> 0 < e0 <= e0' -> 0 <= b1 -> 0 < k -> 0 <= safety ->
  filter_step_size own tol [d0; d1; d2] [Err e0; Err e1; Err e2] b1 b2 b3 a2 a3 min_dt max_dt min_rel max_rel safety k = Some x ->
  filter_step_size own tol [d0; d1; d2] [Err e0'; Err e1; Err e2] b1 b2 b3 a2 a3 min_dt max_dt min_rel max_rel safety k = Some x' ->
  x' <= x.
Proof.
  intros own tol d0 d1 d2 e0 e0' e1 e2 b1 b2 b3 a2 a3 mn mx r0 r1 sf k x x' Hd Ht He Hb Hk Hs.
  unfold filter_step_size. rewrite Bool.andb_false_r. rewrite (posdiv_pos tol e0), (posdiv_pos tol e0') by lra.
  cbn [bind].
  repeat (match goal with |- bind ?x _ = _ -> _ => destruct x; [cbn [bind]|discriminate] end).
  intros E E'. injection E as <-. injection E' as <-.
  apply clip_mono. apply Rmult_le_compat_r; [lra|]. apply Rmult_le_compat_l; [auto|]. apply clip_mono.
  assert (P : forall x y, 0 <= Rpower x y) by (intros; unfold Rpower; apply Rlt_le, exp_pos).
  repeat (apply Rmult_le_compat_r; [apply P|]).
  apply Rle_Rpower_l; [apply Rmult_le_pos; [auto|apply Rlt_le, Rinv_0_lt_compat; auto]|].
  split.
  - apply Rdiv_lt_0_compat; lra.
  - unfold Rdiv. apply Rmult_le_compat_l; [lra|]. apply Rinv_le_contravar; lra.
Qed.

Example C42_example :
  compute_step_size 10 (Some (/ 100)) 1 200 (/ 50) 0 10 1 = 10 /\
  filter_step_size true 1 [10; 10; 10] [Err 1; Err 1; Err 1] (/2) (/2) 0 (/2) 0 1 200 0 10 1 2 = Some 10.
Proof.
  split.
  - replace (/ 100) with (/ 50 * 1 ^ 2 / 2) by field.
    apply C42_error_at_target_keeps_step; unfold eps; lra.
  - apply C42_steady_history_keeps_step; lra.
Qed.

(** ** C40: the clock *)

Section Stepper.
Variables (B V I : Type).
Variable save : B -> V.
Variable load : V -> B -> option B.
Variable setup : bool -> I -> R -> V -> B -> option B.
Variable solve : I -> R -> V -> B -> option B.
Variable heads : B -> arr.
Variable saved_heads : V -> arr.
Variable M : nat.

Local Notation model := (model B V).
Local Notation sim := (sim B V).
Local Notation step := (step B V I save setup solve heads saved_heads M).
Local Notation iterate := (iterate B V I save setup solve heads M).
Local Notation load_state := (load_state B V load).
Local Notation model_step := (model_step B V I save setup solve heads saved_heads M).
Local Notation fine_steps := (fine_steps B V I save setup solve heads saved_heads M).
Local Notation attempt := (attempt B V I save load setup solve heads saved_heads M).
Local Notation sim_step := (sim_step B V I save load setup solve heads saved_heads M).

(** One pass: coefficients, then solution, from the state saved at the start of the step. *)
Definition pass (first : bool) (i : I) (dt : R) (v : V) (b b' : B) : Prop :=
  exists b1, setup first i dt v b = Some b1 /\ solve i dt v b1 = Some b'.

Lemma all_below_spec tol a b : all_below M tol a b = true <-> close M tol a b.
Proof.
  unfold all_below, close. rewrite forallb_forall. split; intros H j Hj.
  - specialize (H j). rewrite in_seq in H. apply Rltb_true. apply H; lia.
  - rewrite in_seq in Hj. apply Rltb_true, H; lia.
Qed.

Lemma iterate_spec n i dt tol H_next m m' k :
  iterate n i dt tol H_next m = Some (m', k) ->
  m_t m' = m_t m /\ m_ic m' = m_ic m /\ m_saved m' = m_saved m /\ (k <= n)%nat /\
  exists bs : nat -> B, bs O = m_body m /\ bs k = m_body m' /\
    (forall j, (j < k)%nat -> pass false i dt (snd (m_saved m)) (bs j) (bs (S j))) /\
    (let hs := fun j => match j with O => H_next | S _ => heads (bs j) end in
     (k < n -> (0 < k)%nat /\ close M tol (hs (k - 1)%nat) (hs k))%nat /\
     (forall j, (S j < k)%nat -> ~ close M tol (hs j) (hs (S j)))).
Proof.
  revert H_next m m' k. induction n as [|n IH]; intros H_next m m' k E.
  - simpl in E. injection E as <- <-. repeat split; auto. exists (fun _ => m_body m). repeat split; auto; lia.
  - cbn [M_Simulation.iterate] in E. unfold setup_step', solve_step' in E. cbn [m_saved m_body m_t m_ic] in E.
    destruct (setup false i dt (snd (m_saved m)) (m_body m)) as [b1|] eqn:E1; [|discriminate]. cbn [bind m_saved m_body m_t m_ic] in E.
    destruct (solve i dt (snd (m_saved m)) b1) as [b2|] eqn:E2; [|discriminate]. cbn [bind m_saved m_body m_t m_ic] in E.
    destruct (all_below M tol H_next (heads b2)) eqn:Ec.
    + injection E as <- <-. cbn [m_t m_ic m_saved m_body].
      split; [lra|]. split; [lia|]. split; [auto|]. split; [lia|].
      exists (fun j => match j with O => m_body m | S _ => b2 end). repeat split; auto.
      * intros [|j] Hj; [|lia]. exists b1; auto.
      * apply all_below_spec, Ec.
      * intros; lia.
    + match type of E with bind ?x _ = _ => destruct x as [[m2 k2]|] eqn:E3; [|discriminate] end.
      cbn [bind fst snd] in E. injection E as <- <-.
      destruct (IH _ _ _ _ E3) as (T & C & S1 & L & bs & B0 & B1 & Ps & Q1 & Q2). cbn [m_t m_ic m_saved m_body] in *.
      split; [rewrite T; lra|]. split; [rewrite C; lia|]. split; [auto|]. split; [lia|].
      exists (fun j => match j with O => m_body m | S j => bs j end). repeat split; auto.
      * intros [|j] Hj; [|apply Ps; lia]. exists b1. rewrite B0. auto.
      * lia.
      * destruct Q1 as [Q1a Q1b]; [lia|]. replace (S k2 - 1)%nat with k2 by lia.
        destruct k2 as [|k2]; [lia|]. replace (S k2 - 1)%nat with k2 in Q1b by lia.
        destruct k2 as [|k2]; [|exact Q1b]. rewrite B0. exact Q1b.
      * intros [|j] Hj; cbv beta iota zeta.
        -- intros X. rewrite B0 in X. cbn in X. apply all_below_spec in X. congruence.
        -- specialize (Q2 j). cbv beta iota zeta in Q2. destruct j as [|j]; [rewrite B0; apply Q2; lia|apply Q2; lia].
Qed.

(** After a step the clock is at t + dt and the counter one higher; the saved state is that of the start of the step;
    between 1 and num_iter passes were made, all from that saved state; the last pass is the first one that changed
    every head by less than the tolerance, unless num_iter passes were used up. *)
Theorem C40_step_advances_clock_once :
  forall i dt num_iter tol m m' elapsed,
  step i dt num_iter tol m = Some (m', elapsed) ->
  m_t m' = m_t m + dt /\ m_ic m' = (m_ic m + 1)%Z /\
  m_saved m' = (m_t m, save (m_body m)) /\
  (1 <= elapsed <= Nat.max 1 num_iter)%nat /\
  exists bs : nat -> B, bs O = m_body m /\ bs elapsed = m_body m' /\
    (forall j, (j < elapsed)%nat -> pass (Nat.eqb j 0) i dt (save (m_body m)) (bs j) (bs (S j))) /\
    (let hs := fun j => match j with O => saved_heads (save (m_body m)) | S _ => heads (bs j) end in
     (elapsed < num_iter -> close M tol (hs elapsed) (hs (elapsed - 1)%nat))%nat /\
     (forall j, (1 < num_iter)%nat -> (S j < elapsed)%nat -> ~ close M tol (hs (S j)) (hs j))).
Proof.
  intros i dt n tol m m' e E. unfold M_Simulation.step in E. unfold setup_step', solve_step', save_state in E.
  cbn [m_saved m_body m_t m_ic snd] in E.
  destruct (setup true i dt (save (m_body m)) (m_body m)) as [b1|] eqn:E1; [|discriminate]. cbn [bind m_saved m_body m_t m_ic snd] in E.
  destruct (solve i dt (save (m_body m)) b1) as [b2|] eqn:E2; [|discriminate]. cbn [bind m_saved m_body m_t m_ic snd] in E.
  assert (One : forall m', m' = mkModel (m_t m + dt) (m_ic m + 1) b2 (m_t m, save (m_body m)) ->
     (1 < n -> close M tol (heads b2) (saved_heads (save (m_body m))))%nat ->
     m_t m' = m_t m + dt /\ m_ic m' = (m_ic m + 1)%Z /\ m_saved m' = (m_t m, save (m_body m)) /\
     (1 <= 1 <= Nat.max 1 n)%nat /\
     exists bs : nat -> B, bs O = m_body m /\ bs 1%nat = m_body m' /\
       (forall j, (j < 1)%nat -> pass (Nat.eqb j 0) i dt (save (m_body m)) (bs j) (bs (S j))) /\
       (let hs := fun j => match j with O => saved_heads (save (m_body m)) | S _ => heads (bs j) end in
        (1 < n -> close M tol (hs 1%nat) (hs (1 - 1)%nat))%nat /\
        (forall j, (1 < n)%nat -> (S j < 1)%nat -> ~ close M tol (hs (S j)) (hs j)))).
  { intros m1 -> Hc. cbn [m_t m_ic m_saved m_body]. repeat split; auto; try lia.
    exists (fun j => match j with O => m_body m | S _ => b2 end). repeat split; auto.
    - intros [|j] Hj; [|lia]. exists b1; auto.
    - intros; lia. }
  destruct (Nat.ltb_spec 0 (n - 1)) as [Hn|Hn].
  2:{ injection E as <- <-. apply One; auto. lia. }
  destruct (all_below M tol (heads b2) (saved_heads (save (m_body m)))) eqn:Ec.
  { injection E as <- <-. apply One; auto. intros _. now apply all_below_spec. }
  match type of E with bind ?x _ = _ => destruct x as [[m2 k2]|] eqn:E3; [|discriminate] end.
  cbn [bind fst snd] in E. injection E as <- <-.
  destruct (iterate_spec _ _ _ _ _ _ _ _ E3) as (T & C & S1 & L & bs & B0 & B1 & Ps & Q1 & Q2). cbn [m_t m_ic m_saved m_body snd] in *.
  split; [rewrite T; lra|]. split; [rewrite C; lia|]. split; [auto|]. split; [lia|].
  assert (Sym : forall a b, close M tol a b -> close M tol b a).
  { intros a b H j Hj. rewrite Rabs_minus_sym. auto. }
  exists (fun j => match j with O => m_body m | S j => bs j end). repeat split; auto.
  - intros [|j] Hj; [|apply Ps; lia]. exists b1. rewrite B0. auto.
  - intros Hk. destruct Q1 as [Q1a Q1b]; [lia|]. replace (S k2 - 1)%nat with k2 by lia.
    destruct k2 as [|k2]; [lia|]. replace (S k2 - 1)%nat with k2 in Q1b by lia. apply Sym.
    destruct k2 as [|k2]; [|exact Q1b]. cbn. rewrite B0. exact Q1b.
  - intros [|j] _ Hj X; cbn in X.
    + rewrite B0 in X. apply all_below_spec in X. congruence.
    + apply Sym in X. specialize (Q2 j). cbn in Q2. destruct j as [|j].
      * apply Q2; [lia|]. rewrite B0 in X. exact X.
      * apply Q2; [lia|exact X].
Qed.

(** ** C43-C45: retries *)

Lemma model_step_spec c dt m m' : model_step c dt m = Some m' ->
  m_t m' = m_t m + dt /\ m_saved m' = (m_t m, save (m_body m)).
Proof.
  unfold M_Simulation.model_step. destruct (step _ _ _ _ m) as [[m1 e]|] eqn:E; [|discriminate].
  cbn [bind fst]. intros H; injection H as <-.
  destruct (C40_step_advances_clock_once _ _ _ _ _ _ _ E) as (T & _ & S & _). auto.
Qed.

Lemma fine_steps_clock c n dt m m' : fine_steps c n dt m = Some m' -> m_t m' = m_t m + INR n * dt.
Proof.
  unfold M_Simulation.fine_steps.
  refine (for_opt_inv (fun k m' => m_t m' = m_t m + INR k * dt) _ _ _ _ _ _).
  - simpl. ring.
  - intros k m1 m2 _ IH E. destruct (model_step_spec _ _ _ _ E) as [-> _]. rewrite IH, S_INR. ring.
Qed.

Lemma attempt_spec c dt sub norm m m' init e : attempt c dt sub norm m = Some (m', init, e) ->
  m_t m' = m_t m + dt /\ init = (m_t m, save (m_body m)) /\ ((sub <= 1)%nat <-> e = NoErr).
Proof.
  unfold M_Simulation.attempt. destruct (model_step c dt m) as [m1|] eqn:E1; [|discriminate]. cbn [bind].
  destruct (model_step_spec _ _ _ _ E1) as [T1 S1].
  destruct (Nat.ltb_spec 1 sub) as [L|L].
  - destruct (load_state (m_saved m1) m1) as [m2|] eqn:E2; [|discriminate]. cbn [bind].
    destruct (fine_steps c sub (dt / INR sub) m2) as [m3|] eqn:E3; [|discriminate]. cbn [bind].
    match goal with |- bind ?x _ = _ -> _ => destruct x as [e'|] eqn:E4; [|discriminate] end. cbn [bind].
    intros E; injection E as <- <- <-. split; [|split; [auto|]].
    + rewrite (fine_steps_clock _ _ _ _ _ E3). unfold M_Simulation.load_state in E2.
      destruct (load _ _); [|discriminate]. injection E2 as <-. cbn [m_t]. rewrite S1. cbn [fst].
      field. apply not_0_INR; lia.
    + split; [lia|]. intros ->. unfold normed_error in E4.
      repeat match type of E4 with context [if ?b then _ else _] => destruct b end; discriminate.
  - intros E; injection E as <- <- <-. split; [auto|]. split; auto. split; auto.
Qed.

(** Fields of the saved state that loading restores exactly. *)
Variable core : Type.
Variable core_of : V -> core.
Hypothesis load_restores : forall v b b', load v b = Some b' -> core_of (save b') = core_of v.

(** The tolerance and the norm in force at attempt k. *)
Definition tol_at (tol : R) (k : nat) : R := match k with O => tol | S _ => 1 end.
Definition norm_at (norm : Z) (k : nat) : Z := match k with O => norm | S _ => 2%Z end.

Definition acceptable (e : errv) (tol : R) : Prop := match e with NoErr => True | Err r => r <= tol | NonFinite => False end.
Lemma too_large_spec e tol : too_large e tol = false <-> acceptable e tol.
Proof.
  destruct e as [|r|]; simpl; [tauto| |split; [discriminate|tauto]]. rewrite Rltb_false. tauto.
Qed.

Lemma halved_S dt k : halved (/ 2 * dt) k = halved dt (S k).
Proof. unfold halved. simpl. field. apply pow_nonzero; lra. Qed.

Lemma sim_step_spec retries : forall c dt sub tol norm (s s' : sim),
  sim_step retries c dt sub tol norm s = Some s' ->
  exists (r : nat) (starts ends : nat -> model) (es : nat -> errv),
    (r <= retries)%nat /\ starts O = s_model s /\ ends r = s_model s' /\
    (forall k, (k <= r)%nat ->
       attempt c (halved dt k) sub (norm_at norm k) (starts k)
         = Some (ends k, (m_t (s_model s), save (m_body (starts k))), es k) /\
       m_t (starts k) = m_t (s_model s) /\
       core_of (save (m_body (starts k))) = core_of (save (m_body (s_model s)))) /\
    (forall k, (k < r)%nat ->
       load_state (m_t (s_model s), save (m_body (starts k))) (ends k) = Some (starts (S k)) /\
       ~ acceptable (es k) (tol_at tol k) /\ c_min_dt c < halved dt (S k)) /\
    ((r < retries)%nat -> acceptable (es r) (tol_at tol r) \/ halved dt (S r) <= c_min_dt c) /\
    m_t (s_model s') = m_t (s_model s) + halved dt r /\
    s_dt s' = halved dt r /\ s_err s' = es r /\
    s_dts s' = newest 3 (halved dt r :: s_dts s) /\ s_errs s' = newest 3 (es r :: s_errs s).
Proof.
  induction retries as [|n IH]; intros c dt sub tol norm s s' E; cbn [M_Simulation.sim_step] in E;
    (destruct (attempt c dt sub norm (s_model s)) as [[[m init] e]|] eqn:EA; [|discriminate]);
    cbn [bind] in E; destruct (attempt_spec _ _ _ _ _ _ _ _ EA) as (T & -> & Ne).
  - injection E as <-. cbn [s_model s_dt s_dts s_err s_errs].
    exists O, (fun _ => s_model s), (fun _ => m), (fun _ => e).
    assert (H1 : halved dt 0 = dt) by (unfold halved; simpl; field).
    repeat split; auto; try lia; intros; try (replace k with O in * by lia); try rewrite H1; auto.
  - assert (H1 : halved dt 0 = dt) by (unfold halved; simpl; field).
    assert (H2 : halved dt 1 = / 2 * dt) by (unfold halved; simpl; field).
    assert (Stop : too_large e tol && Rltb (c_min_dt c) (/ 2 * dt) = false ->
        Some s' = Some (mkSim m dt (appendleft dt (s_dts s)) e (appendleft e (s_errs s)) (S (s_count s))) ->
        acceptable e tol \/ halved dt 1 <= c_min_dt c).
    { intros Eb _. apply Bool.andb_false_iff in Eb as [Eb|Eb].
      - left. now apply too_large_spec.
      - right. rewrite H2. now apply Rltb_false in Eb. }
    destruct (too_large e tol && Rltb (c_min_dt c) (/ 2 * dt)) eqn:Eb.
    + clear Stop. destruct (load_state _ _) as [m1|] eqn:EL in E; [|discriminate]. cbn [bind] in E.
      destruct (sim_step n c _ _ _ _ _) as [s1|] eqn:ES in E; [|discriminate]. cbn [bind] in E. injection E as <-.
      destruct (IH _ _ _ _ _ _ _ ES) as (r & starts & ends & es & R1 & R2 & R3 & R4 & R5 & R6 & R7 & R8 & R9 & R10 & R11).
      cbn [s_model s_dt s_dts s_err s_errs] in *.
      assert (Tm : m_t m1 = m_t (s_model s)).
      { unfold M_Simulation.load_state in EL. destruct (load _ _); [|discriminate]. injection EL as <-. reflexivity. }
      assert (Cm : core_of (save (m_body m1)) = core_of (save (m_body (s_model s)))).
      { unfold M_Simulation.load_state in EL. cbn [snd] in EL. destruct (load _ _) eqn:EV in EL; [|discriminate]. injection EL as <-.
        cbn [m_body]. apply (load_restores _ _ _ EV). }
      assert (Ta : forall k, tol_at tol (S k) = tol_at 1 k) by (destruct k; auto).
      assert (Na : forall k, norm_at norm (S k) = norm_at 2 k) by (destruct k; auto).
      apply Bool.andb_true_iff in Eb as [Eb1 Eb2]. apply Rltb_true in Eb2.
      exists (S r), (fun k => match k with O => s_model s | S k => starts k end),
             (fun k => match k with O => m | S k => ends k end), (fun k => match k with O => e | S k => es k end).
      assert (Q : forall A (x y : A) q, firstn 3 (x :: popleft (appendleft y q)) = firstn 3 (x :: q)).
      { intros A x y q. destruct q as [|q1 [|q2 [|q3 q]]]; reflexivity. }
      split; [lia|]. split; [auto|]. split; [auto|].
      split; [|split; [|split; [|split; [|split; [|split; [|split]]]]]].
      * intros [|k] Hk.
        -- rewrite H1. auto.
        -- destruct (R4 k) as (A1 & A2 & A3); [lia|]. rewrite halved_S, Tm in A1. rewrite Na.
           split; [exact A1|]. split; [congruence|congruence].
      * intros [|k] Hk.
        -- rewrite R2, H2. split; [exact EL|]. split; [|exact Eb2].
           intros X. apply too_large_spec in X. cbn [tol_at] in X. congruence.
        -- destruct (R5 k) as (A1 & A2 & A3); [lia|]. rewrite halved_S in A3. rewrite Ta. rewrite Tm in A1. auto.
      * intros Hr. destruct (R6 ltac:(lia)) as [A|A]; [left; now rewrite Ta|right; now rewrite halved_S in A].
      * rewrite R7, Tm, halved_S. reflexivity.
      * rewrite R8. apply halved_S.
      * exact R9.
      * rewrite R10, halved_S. apply Q.
      * rewrite R11. apply Q.
    + injection E as <-. cbn [s_model s_dt s_dts s_err s_errs].
      exists O, (fun _ => s_model s), (fun _ => m), (fun _ => e).
      repeat split; auto; try lia; intros; try (replace k with O in * by lia); try rewrite H1; auto.
Qed.

(** The clock advances by dt halved at most [retries] times; every attempt starts at the same time and from the same
    state; no attempt after the first is made at or below [min_dt]; the reported error and step are those of the last
    attempt, which is the one the model keeps. *)
Theorem C43_clock_and_retries :
  forall retries c dt sub tol norm (s s' : sim),
  sim_step retries c dt sub tol norm s = Some s' ->
  exists (r : nat) (starts ends : nat -> model) (es : nat -> errv),
    (r <= retries)%nat /\ starts O = s_model s /\ ends r = s_model s' /\
    m_t (s_model s') = m_t (s_model s) + dt / 2 ^ r /\ s_dt s' = dt / 2 ^ r /\ s_err s' = es r /\
    (forall k, (k <= r)%nat ->
       m_t (starts k) = m_t (s_model s) /\
       core_of (save (m_body (starts k))) = core_of (save (m_body (s_model s))) /\
       (exists init, attempt c (dt / 2 ^ k) sub (norm_at norm k) (starts k) = Some (ends k, init, es k)) /\
       ((0 < k)%nat -> c_min_dt c < dt / 2 ^ k)).
Proof.
  intros retries c dt sub tol norm s s' E.
  destruct (sim_step_spec _ _ _ _ _ _ _ _ E) as (r & starts & ends & es & R1 & R2 & R3 & R4 & R5 & R6 & R7 & R8 & R9 & _).
  exists r, starts, ends, es. unfold halved in *. repeat split; auto.
  - destruct (R4 k H) as (_ & A & _); auto.
  - destruct (R4 k H) as (_ & _ & A); auto.
  - destruct (R4 k H) as (A & _); eauto.
  - intros Hk. destruct k as [|k]; [lia|]. destruct (R5 k) as (_ & _ & A); [lia|]. exact A.
Qed.

(** The newest entries of both queues describe the accepted attempt and the older ones are the previous queue. *)
Theorem C44_queues_after_one_step :
  forall retries c dt sub tol norm (s s' : sim),
  sim_step retries c dt sub tol norm s = Some s' ->
  s_dts s' = newest 3 (s_dt s' :: s_dts s) /\ s_errs s' = newest 3 (s_err s' :: s_errs s).
Proof.
  intros retries c dt sub tol norm s s' E.
  destruct (sim_step_spec _ _ _ _ _ _ _ _ E) as (r & starts & ends & es & _ & _ & _ & _ & _ & _ & _ & R8 & R9 & R10 & R11).
  now rewrite R8, R9.
Qed.

(** Histories: any sequence of step calls. *)
Inductive call : Type := Call (retries : nat) (c : config I) (dt : R) (sub : nat) (tol : R) (norm : Z).
Inductive runs : list call -> sim -> list (R * errv) -> sim -> Prop :=
| runs_nil s : runs [] s [] s
| runs_cons q s log s1 s2 r c dt sub tol norm :
    runs q s log s1 -> sim_step r c dt sub tol norm s1 = Some s2 ->
    runs (Call r c dt sub tol norm :: q) s ((s_dt s2, s_err s2) :: log) s2.

Lemma firstn_snoc_newest {A} n (l l' : list A) x : newest n (x :: newest n (l ++ l')) = newest n (x :: l ++ l').
Proof.
  unfold newest. destruct n as [|n]; auto.
  change (x :: firstn n (firstn (S n) (l ++ l')) = x :: firstn n (l ++ l')).
  rewrite firstn_firstn. do 2 f_equal. lia.
Qed.

(** After any sequence of steps both queues hold the newest three of: the steps made (accepted sizes and errors),
    then the entry put in at construction; so they have equal length between 1 and 3. *)
Theorem C44_queues_after_any_history :
  forall q m dt0 log s', runs q (new_sim B V m dt0) log s' ->
  s_dts s' = newest 3 (map fst log ++ [dt0]) /\ s_errs s' = newest 3 (map snd log ++ [Err eps]) /\
  length (s_dts s') = length (s_errs s') /\ (1 <= length (s_dts s') <= 3)%nat /\
  (forall d e rest, log = (d, e) :: rest -> hd_error (s_dts s') = Some d /\ hd_error (s_errs s') = Some e).
Proof.
  intros q m dt0 log s' H.
  assert (K : s_dts s' = newest 3 (map fst log ++ [dt0]) /\ s_errs s' = newest 3 (map snd log ++ [Err eps])).
  { remember (new_sim B V m dt0) as s0 eqn:E0. induction H as [s|q s log s1 s2 r c dt sub tol norm H IH E]; subst.
    - split; reflexivity.
    - destruct (C44_queues_after_one_step _ _ _ _ _ _ _ _ E) as [D1 D2]. destruct (IH eq_refl) as [I1 I2].
      rewrite D1, D2, I1, I2. cbn [map fst snd app]. split; apply firstn_snoc_newest. }
  destruct K as [K1 K2]. rewrite K1, K2. repeat split; auto.
  - unfold newest. rewrite !firstn_length, !app_length, !map_length. reflexivity.
  - unfold newest. rewrite firstn_length, app_length. cbn [length]. lia.
  - unfold newest. rewrite firstn_length. lia.
  - subst log. reflexivity.
  - subst log. reflexivity.
Qed.

(** A step ends with an error above the tolerance in force only when the retries or [min_dt] are exhausted.  The
    tolerance in force is the caller's for the first attempt and 1 afterwards. *)
Theorem C45_large_error_only_when_exhausted :
  forall retries c dt sub tol norm (s s' : sim),
  sim_step retries c dt sub tol norm s = Some s' ->
  exists r, (r <= retries)%nat /\ s_dt s' = dt / 2 ^ r /\
    (acceptable (s_err s') (tol_at tol r) \/ r = retries \/ s_dt s' / 2 <= c_min_dt c).
Proof.
  intros retries c dt sub tol norm s s' E.
  destruct (sim_step_spec _ _ _ _ _ _ _ _ E) as (r & starts & ends & es & R1 & _ & _ & _ & _ & R6 & _ & R8 & R9 & _ & _).
  exists r. split; auto. split; [exact R8|]. rewrite R8, R9.
  destruct (Nat.eq_dec r retries) as [|N]; auto. destruct R6 as [A|A]; [lia|auto|].
  right; right. unfold halved in *. simpl in A. replace (dt / 2 ^ r / 2) with (dt / (2 * 2 ^ r)); auto.
  field. apply pow_nonzero; lra.
Qed.

(** For callers that use the default tolerance the property holds as stated. *)
Theorem C45_default_tolerance_respected :
  forall retries c dt sub norm (s s' : sim),
  sim_step retries c dt sub 1 norm s = Some s' ->
  acceptable (s_err s') 1 \/ s_dt s' = dt / 2 ^ retries \/ s_dt s' / 2 <= c_min_dt c.
Proof.
  intros retries c dt sub norm s s' E.
  destruct (C45_large_error_only_when_exhausted _ _ _ _ _ _ _ _ E) as (r & R1 & R2 & [A|[A|A]]); auto.
  - left. destruct r; auto.
  - right; left. now subst r.
Qed.

End Stepper.

(** ** A small model with one head, used for the counterexample and the witnesses: every step adds dt^2. *)
Definition toy_heads (b : R) : arr := fun _ => b.
Definition toy_solve (_ : unit) (dt v b : R) : option R := Some (v + dt ^ 2).
Definition toy_step := sim_step R R unit (fun b => b) (fun v _ => Some v) (fun _ _ _ _ b => Some b) toy_solve toy_heads toy_heads 1.
Definition toy_attempt := attempt R R unit (fun b => b) (fun v _ => Some v) (fun _ _ _ _ b => Some b) toy_solve toy_heads toy_heads 1.
Definition toy_config (min_dt : R) : config unit := mkConfig (fun _ => tt) min_dt 1 1.
Definition toy_sim (dt : R) : sim R R := new_sim R R (mkModel 0 0 0 (0, 0)) dt.

(** Error of the toy model at step dt from head 0: coarse dt^2, fine dt^2/2. *)
Definition toy_err (dt : R) : R := (dt ^ 2 / 2) / (/ 1000000 + dt ^ 2 / 2 * / 1000).

Lemma toy_attempt_value md dt t ic w : eps <= toy_err dt ->
  toy_attempt (toy_config md) dt 2 2 (mkModel t ic 0 w)
  = Some (mkModel (t + dt / 2 + dt / 2) (ic + 1 + 1 + 1) (dt ^ 2 / 2) (t + dt / 2, dt ^ 2 / 4), (t, 0), Err (toy_err dt)).
Proof.
  intros He.
  assert (I2 : INR 2 = 2) by (simpl; ring). assert (I1 : INR 1 = 1) by (simpl; ring).
  unfold toy_attempt, attempt, model_step, step, setup_step', solve_step', save_state, toy_solve, fine_steps, load_state.
  cbn [toy_config c_inputs c_num_iter c_head_tol bind m_t m_ic m_body m_saved fst snd Nat.sub Nat.ltb Nat.leb for_opt].
  cbn [model_step step setup_step' solve_step' save_state bind m_t m_ic m_body m_saved fst snd Nat.sub Nat.ltb Nat.leb for_opt toy_config c_inputs c_num_iter c_head_tol].
  unfold model_step, step, setup_step', solve_step', save_state.
  cbn [bind m_t m_ic m_body m_saved fst snd Nat.sub Nat.ltb Nat.leb for_opt toy_config c_inputs c_num_iter c_head_tol toy_heads].
  rewrite !I2.
  replace (0 + (dt / 2) ^ 2 + (dt / 2) ^ 2) with (dt ^ 2 / 2) by field.
  replace (0 + (dt / 2) ^ 2) with (dt ^ 2 / 4) by field.
  assert (N : normed_error 2 1 (fun j => toy_heads (0 + dt ^ 2) j - toy_heads (dt ^ 2 / 2) j) (toy_heads (dt ^ 2 / 2)) (toy_heads (dt ^ 2 / 4))
              = Some (Err (toy_err dt))).
  { unfold normed_error, error_scale, toy_heads. pose proof (pow2_ge_0 dt) as P.
    cbn [Nat.eqb Z.eqb Pos.eqb existsb seq orb sum_n].
    assert (Mx : Rmax (dt ^ 2 / 2) (dt ^ 2 / 4) = dt ^ 2 / 2) by (apply Rmax_left; lra). rewrite Mx.
    destruct (Reqb_spec (/ 1000000 + dt ^ 2 / 2 * / 1000) 0) as [X|X]; [lra|]. cbn [orb].
    change (INR 1) with 1.
    replace (0 + dt ^ 2 - dt ^ 2 / 2) with (dt ^ 2 / 2) by field.
    fold (toy_err dt). replace ((0 + toy_err dt ^ 2) / 1) with (toy_err dt ^ 2) by field.
    pose proof eps_pos. rewrite sqrt_pow2 by lra. rewrite Rabs_right by lra. rewrite Rmax_left by lra. reflexivity. }
  change (Pos.of_succ_nat 1) with 2%positive in *.
  rewrite N. cbn [bind]. reflexivity.
Qed.

Definition toy_finish (s : sim R R) : sim R R := mkSim (s_model s) (s_dt s) (s_dts s) (s_err s) (s_errs s) (S (s_count s)).
Lemma toy_step_S n c dt sub tol norm s :
  toy_step (S n) c dt sub tol norm s =
  do r <- toy_attempt c dt sub norm (s_model s);
  let '(m, init, e) := r in
  let s := mkSim m dt (appendleft dt (s_dts s)) e (appendleft e (s_errs s)) (s_count s) in
  if too_large e tol && Rltb (c_min_dt c) (/ 2 * dt) then
    do m <- load_state R R (fun v _ => Some v) init (s_model s);
    do s <- toy_step n c (/ 2 * dt) sub 1 2 (mkSim m (s_dt s) (popleft (s_dts s)) (s_err s) (popleft (s_errs s)) (s_count s));
    Some (toy_finish s)
  else Some (toy_finish s).
Proof. reflexivity. Qed.
Lemma toy_step_0 c dt sub tol norm s :
  toy_step 0 c dt sub tol norm s =
  do r <- toy_attempt c dt sub norm (s_model s);
  let '(m, init, e) := r in
  Some (toy_finish (mkSim m dt (appendleft dt (s_dts s)) e (appendleft e (s_errs s)) (s_count s))).
Proof. reflexivity. Qed.

Lemma toy_err_2 : toy_err (/ 500) = 1000 / 501.
Proof. unfold toy_err. field. Qed.
Lemma toy_err_1 : toy_err (/ 1000) = 1000 / 2001.
Proof. unfold toy_err. field. Qed.

(** The retried attempt of a step with tolerance 0.4 is accepted with an error above 0.4, although another retry was
    allowed and half its step is still above [min_dt]: retries do not inherit the caller's tolerance. *)
Theorem C45_retries_ignore_tolerance_refuted :
  exists s', toy_step 2 (toy_config 0) (/ 500) 2 (2 / 5) 2 (toy_sim (/ 500)) = Some s' /\
    s_dt s' = / 500 / 2 ^ 1 /\ ~ acceptable (s_err s') (2 / 5) /\ 0 < s_dt s' / 2.
Proof.
  rewrite toy_step_S. unfold toy_sim, new_sim. cbn [s_model s_dts s_errs s_count].
  rewrite toy_attempt_value by (rewrite toy_err_2; unfold eps; lra). cbn [bind]. rewrite toy_err_2. cbn [too_large].
  destruct (Rltb_spec (2 / 5) (1000 / 501)); [|lra]. cbn [c_min_dt toy_config]. destruct (Rltb_spec 0 (/ 2 * / 500)); [|lra].
  cbn [andb]. unfold load_state. cbn [bind fst snd s_model m_ic m_body m_saved s_dts s_errs s_count s_dt s_err].
  replace (/ 2 * / 500) with (/ 1000) by field. rewrite toy_step_S. cbn [s_model].
  rewrite toy_attempt_value by (rewrite toy_err_1; unfold eps; lra). cbn [bind]. rewrite toy_err_1. cbn [too_large].
  destruct (Rltb_spec 1 (1000 / 2001)); [lra|]. cbn [andb bind].
  eexists; split; [reflexivity|]. cbn [toy_finish s_dt s_err acceptable]. repeat split; lra.
Qed.

(** Witness for C40 and C43-C45: a step of the toy model with one retry. *)
Example C43_example :
  exists s', toy_step 1 (toy_config 0) (/ 500) 2 1 2 (toy_sim (/ 500)) = Some s' /\
    s_dts s' = [/ 1000; / 500] /\ m_t (s_model s') = / 1000 /\ m_body (s_model s') = / 2000000.
Proof.
  rewrite toy_step_S. unfold toy_sim, new_sim. cbn [s_model s_dts s_errs s_count].
  rewrite toy_attempt_value by (rewrite toy_err_2; unfold eps; lra). cbn [bind]. rewrite toy_err_2. cbn [too_large].
  destruct (Rltb_spec 1 (1000 / 501)); [|lra]. cbn [c_min_dt toy_config]. destruct (Rltb_spec 0 (/ 2 * / 500)); [|lra].
  cbn [andb]. unfold load_state. cbn [bind fst snd s_model m_ic m_body m_saved s_dts s_errs s_count s_dt s_err].
  replace (/ 2 * / 500) with (/ 1000) by field. rewrite toy_step_0. cbn [s_model].
  rewrite toy_attempt_value by (rewrite toy_err_1; unfold eps; lra). cbn [bind].
  eexists; split; [reflexivity|]. cbn [toy_finish s_model m_t m_body s_dts popleft appendleft firstn tl]. repeat split; lra.
Qed.

(** ** C46: the recorded table *)

Section Recording.
Context {A : Type}.

(** [owned r]: array [r] is reachable from the model (attributes, saved states, work arrays), so a step may write it.
    [frame w w']: what a step, load or any other model operation may do: write owned arrays, allocate new ones, move
    the clock and the attributes.  It has no access to the tables of the simulation. *)
Record frame (owned owned' : nat -> Prop) (w w' : world A) : Prop := mkFrame {
  fr_heap : forall r, (r < w_next w)%nat -> ~ owned r -> w_heap w' r = w_heap w r;
  fr_next : (w_next w <= w_next w')%nat;
  fr_owned : forall r, owned' r -> owned r \/ (w_next w <= r)%nat;
  fr_lt : forall r, owned' r -> (r < w_next w')%nat;
  fr_attr : forall v, (w_attr w' v < w_next w')%nat;
  fr_table : w_table w' = w_table w }.

(** A session: model operations and record_state calls.  The log lists what was recorded: for each variable the
    time and the contents of the variable at that moment, newest first. *)
Inductive session (vars : list nat) : (nat -> Prop) -> world A -> (nat -> list (R * A)) -> Prop :=
| ss_start (owned : nat -> Prop) (w : world A) : (forall v, w_table w v = None) -> (forall r, owned r -> (r < w_next w)%nat) ->
    (forall v, (w_attr w v < w_next w)%nat) -> session vars owned w (fun _ => [])
| ss_model (owned owned' : nat -> Prop) (w w' : world A) log : session vars owned w log -> frame owned owned' w w' -> session vars owned' w' log
| ss_record (owned : nat -> Prop) (w : world A) log : session vars owned w log ->
    session vars owned (record_state vars w)
      (fun v => if in_dec Nat.eq_dec v vars then
                  match w_saved w v with None => log v | Some _ => (w_t w, w_heap w (w_attr w v)) :: log v end
                else log v).

(** The table as the user reads it. *)
Definition recorded (w : world A) (v : nat) (t : R) : option A :=
  match w_table w v with
  | None => None
  | Some d => match dict_get d t with None => None | Some r => Some (w_heap w r) end
  end.

Lemma dict_get_set d t r t' : dict_get (dict_set d t r) t' = if Req_EM_T t t' then Some r else dict_get d t'.
Proof.
  induction d as [|[t0 r0] d IH]; simpl.
  - destruct (Reqb_spec t t'); destruct (Req_EM_T t t'); auto; contradiction.
  - destruct (Reqb_spec t0 t) as [E|E]; simpl.
    + subst t0. destruct (Reqb_spec t t'); destruct (Req_EM_T t t'); auto; contradiction.
    + rewrite IH. destruct (Reqb_spec t0 t') as [E2|E2]; auto.
      destruct (Req_EM_T t t'); auto. congruence.
Qed.

(** Arrays referenced by the tables are not the model's. *)
Definition table_inv (owned : nat -> Prop) (w : world A) : Prop :=
  (forall v d t r, w_table w v = Some d -> dict_get d t = Some r -> (r < w_next w)%nat /\ ~ owned r) /\
  (forall r, owned r -> (r < w_next w)%nat) /\ (forall v, (w_attr w v < w_next w)%nat).

Lemma record_one_facts owned v w : table_inv owned w ->
  table_inv owned (record_one v w) /\
  w_t (record_one v w) = w_t w /\ w_saved (record_one v w) = w_saved w /\ w_attr (record_one v w) = w_attr w /\
  (forall r, (r < w_next w)%nat -> w_heap (record_one v w) r = w_heap w r) /\
  (forall u t, recorded (record_one v w) u t =
     if Nat.eq_dec u v then
       match w_saved w v with
       | None => recorded w u t
       | Some _ => if Req_EM_T (w_t w) t then Some (w_heap w (w_attr w v)) else recorded w u t
       end
     else recorded w u t).
Proof.
  intros (T1 & T2 & T3). unfold record_one.
  destruct (w_saved w v) as [r0|] eqn:Es.
  2:{ repeat split; auto; try (eapply T1; eauto); intros; destruct (Nat.eq_dec u v); auto. }
  cbn [np_copy w_heap w_next w_t w_attr w_saved w_table].
  set (d := match w_table w v with None => [] | Some d => d end).
  assert (D : forall t r, dict_get d t = Some r -> (r < w_next w)%nat /\ ~ owned r).
  { intros t r Hg. unfold d in Hg. destruct (w_table w v) as [d0|] eqn:Ed; [eapply T1; eauto|discriminate]. }
  split; [|repeat split].
  - split; [|split]; cbn [w_table w_next w_attr w_heap].
    + intros u du t r Hu Hg. unfold upd in Hu. destruct (Nat.eqb_spec u v).
      * injection Hu as <-. rewrite dict_get_set in Hg. destruct (Req_EM_T (w_t w) t).
        -- injection Hg as <-. split; [lia|]. intros X. apply T2 in X. lia.
        -- destruct (D _ _ Hg). split; [lia|auto].
      * destruct (T1 _ _ _ _ Hu Hg). split; [lia|auto].
    + intros r Hr. apply T2 in Hr. lia.
    + intros u. specialize (T3 u). lia.
  - intros r Hr. cbn [w_heap]. apply upd_neq. lia.
  - intros u t. unfold recorded. cbn [w_table w_heap]. unfold upd at 1.
    destruct (Nat.eqb_spec u v) as [->|N]; destruct (Nat.eq_dec v v) as [_|X]; try contradiction.
    + rewrite dict_get_set. destruct (Req_EM_T (w_t w) t).
      * now rewrite upd_eq.
      * unfold d. destruct (w_table w v) as [d0|] eqn:Ed; [|reflexivity].
        destruct (dict_get d0 t) as [r|] eqn:Eg; auto. destruct (T1 _ _ _ _ Ed Eg). rewrite upd_neq by lia. reflexivity.
    + destruct (Nat.eq_dec u v); [contradiction|].
      destruct (w_table w u) as [d0|] eqn:Ed; [|reflexivity].
      destruct (dict_get d0 t) as [r|] eqn:Eg; auto. destruct (T1 _ _ _ _ Ed Eg). rewrite upd_neq by lia. reflexivity.
Qed.

Lemma record_state_facts owned vars w : table_inv owned w ->
  table_inv owned (record_state vars w) /\
  (forall u t, recorded (record_state vars w) u t =
     if in_dec Nat.eq_dec u vars then
       match w_saved w u with
       | None => recorded w u t
       | Some _ => if Req_EM_T (w_t w) t then Some (w_heap w (w_attr w u)) else recorded w u t
       end
     else recorded w u t).
Proof.
  revert w. induction vars as [|v vars IH]; intros w Hi.
  - split; [exact Hi|]. intros u t. reflexivity.
  - cbn [record_state fold_left]. fold (record_state vars (record_one v w)).
    destruct (record_one_facts owned v w Hi) as (I1 & T1 & S1 & A1 & H1 & R1).
    destruct (IH _ I1) as (I2 & R2). split; [exact I2|]. intros u t. rewrite R2, T1, S1, A1.
    rewrite H1 by apply Hi. rewrite R1.
    destruct (in_dec Nat.eq_dec u vars) as [Hin|Hin]; destruct (in_dec Nat.eq_dec u (v :: vars)) as [Hin2|Hin2];
      cbn [In] in Hin2; try tauto;
      destruct (Nat.eq_dec u v) as [->|N]; try tauto; auto.
    + destruct (w_saved w v); auto. destruct (Req_EM_T (w_t w) t); auto.
    + assert (False) by (destruct Hin2; auto). contradiction.
Qed.

(** After any session, the table holds at every time exactly the contents the variable had when it was last recorded
    at that time, whatever the model did since, and nothing at other times. *)
Theorem C46_table_holds_last_record :
  forall vars owned w log, session vars owned w log ->
  forall v t, recorded w v t = last_at (log v) t.
Proof.
  intros vars owned w log H.
  assert (K : table_inv owned w /\ forall v t, recorded w v t = last_at (log v) t).
  { induction H as [owned w Ht Ho Ha|owned owned' w w' log H IH F|owned w log H IH].
    - split; [split; [|split]; auto|].
      + intros v d t r E. rewrite Ht in E. discriminate.
      + intros v t. unfold recorded. now rewrite Ht.
    - destruct IH as [(T1 & T2 & T3) R1]. destruct F as [F1 F2 F3 F4 F5 F6]. split; [split; [|split]; auto|].
      + intros v d t r E G. rewrite F6 in E. destruct (T1 _ _ _ _ E G) as [L N]. split; [lia|].
        intros X. destruct (F3 _ X); [contradiction|lia].
      + intros v t. rewrite <- R1. unfold recorded. rewrite F6.
        destruct (w_table w v) as [d|] eqn:Ed; auto. destruct (dict_get d t) as [r|] eqn:Eg; auto.
        destruct (T1 _ _ _ _ Ed Eg) as [L N]. now rewrite F1.
    - destruct IH as [Hi R1]. destruct (record_state_facts owned vars w Hi) as [I2 R2]. split; auto.
      intros v t. rewrite R2. destruct (in_dec Nat.eq_dec v vars); auto.
      destruct (w_saved w v); auto. cbn [last_at]. destruct (Req_EM_T (w_t w) t); auto. }
  apply K.
Qed.

End Recording.

(** The record made at construction copies the dictionary of saved states instead of the model's attributes: for a
    model that has already made a step, the first row of the table is the state before that step, under the time
    after it. *)
Theorem C46_initial_record_refuted :
  exists w : world R, w_saved w 0%nat = Some 1%nat /\ w_heap w (w_attr w 0%nat) = 5 /\ w_t w = 10 /\
    recorded (init_record [0%nat] w) 0%nat 10 = Some 3 /\ recorded (record_state [0%nat] w) 0%nat 10 = Some 5.
Proof.
  exists (mkWorld (fun r => match r with O => 5 | S O => 3 | _ => 0 end) 2 10 (fun _ => O)
            (fun v => match v with O => Some 1%nat | _ => None end) (fun _ => None)).
  repeat split.
  - unfold recorded, init_record, init_record_one. cbn. unfold upd. cbn. destruct (Reqb_spec 10 10); [reflexivity|lra].
  - unfold recorded, record_state, record_one. cbn. unfold upd. cbn. destruct (Reqb_spec 10 10); [reflexivity|lra].
Qed.

(** Witness for C46: record, then a step that overwrites the head array in place, then record again. *)
Example C46_example :
  exists (owned : nat -> Prop) (w : world R) log, session [0%nat] owned w log /\
    recorded w 0%nat 0 = Some 5 /\ recorded w 0%nat 1 = Some 7.
Proof.
  set (ow := fun r : nat => (r < 2)%nat).
  set (sv := fun v : nat => match v with O => Some 1%nat | _ => None end).
  set (w0 := mkWorld (fun r => match r with O => 5 | S O => 3 | _ => 0 end) 2 0 (fun _ => O) sv (fun _ => None) : world R).
  set (w1 := record_state [0%nat] w0).
  set (w2 := mkWorld (upd (w_heap w1) O 7) (w_next w1) 1 (w_attr w1) (w_saved w1) (w_table w1)).
  assert (S1 := ss_record [0%nat] ow w0 _ (ss_start [0%nat] ow w0 ltac:(auto) ltac:(intros; unfold ow in *; simpl; lia) ltac:(intros; simpl; lia))).
  fold w1 in S1.
  assert (F : frame ow ow w1 w2).
  { constructor; auto.
    - intros r Hr No. cbn [w2 w_heap]. apply upd_neq. intros ->. apply No. unfold ow; lia.
    - intros r Hr. unfold ow in Hr. cbn. lia.
    - intros v. cbn. lia. }
  assert (S2 := ss_record _ _ _ _ (ss_model _ _ _ _ _ _ S1 F)).
  exists ow, (record_state [0%nat] w2). eexists. split; [exact S2|].
  rewrite !(C46_table_holds_last_record _ _ _ _ S2). cbn.
  destruct (Req_EM_T 1 0); [lra|]. destruct (Req_EM_T 0 0); [|lra]. destruct (Req_EM_T 1 1); [|lra]. auto.
Qed.
