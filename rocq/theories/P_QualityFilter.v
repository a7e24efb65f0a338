(** Theorems on the Kalman filters of the water-quality object (C63). *)
From Coq Require Import FunctionalExtensionality List.
From Verif Require Import Prelude M_Coeffs M_Recurrence M_Assembly M_Step S_Superlink S_Network S_Step M_Simulation M_Kalman
  P_Kalman M_Quality S_Quality L_Quality L_QualityStep L_QualityNet L_QualitySolve P_Quality L_Inverse M_QualityFilter L_QualityFilter.

(** Two solutions of a system whose matrix has an inverse agree. *)
Lemma solutions_agree n (A B : mat) (x y : arr) : inverse n A B ->
  (forall j, (j < n)%nat -> sum_n (fun l => A j l * x l) n = sum_n (fun l => A j l * y l) n) ->
  forall j, (j < n)%nat -> x j = y j.
Proof.
  intros HI E j Hj. apply Rminus_diag_uniq. apply (inverse_nonsingular n A B HI (fun l => x l - y l)); [|exact Hj].
  intros i Hi. rewrite (sum_n_ext _ (fun l => A i l * x l - A i l * y l)) by (intros; ring). rewrite sum_n_minus, E by auto. ring.
Qed.

(** ** Spreading the estimate along the superlinks *)

(** Concentrations inside the superlinks depend on those at their ends only, not on what the arrays held before. *)
Lemma superlink_fresh P f b c1 cN i1 I1 n cI ci cI' ci' rI ri rI' ri' : (1 <= n)%nat ->
  q_internals_superlink P f b c1 cN i1 I1 n (cI, ci) = (rI, ri) ->
  q_internals_superlink P f b c1 cN i1 I1 n (cI', ci') = (rI', ri') ->
  (forall I, ((I1 <= I <= I1 + n)%nat \/ cI I = cI' I) -> rI I = rI' I) /\
  (forall i, ((i1 <= i < i1 + n)%nat \/ ci i = ci' i) -> ri i = ri' i).
Proof.
  intros Hn. unfold q_internals_superlink.
  set (g := fun j s => q_internal_step P f b c1 cN (i1 + n - 1 - j) (I1 + n - 1 - j) s).
  set (s0 := (upd (upd cI I1 c1) (I1 + n) cN, ci)). set (s0' := (upd (upd cI' I1 c1) (I1 + n) cN, ci')).
  assert (HV : forall m, (m <= n - 1)%nat ->
    let s := for_n m g s0 in let s' := for_n m g s0' in
    (forall I, (I = I1 \/ (I1 + n - m <= I <= I1 + n)%nat \/ cI I = cI' I) -> fst s I = fst s' I) /\
    (forall i, ((i1 + n - m <= i < i1 + n)%nat \/ ci i = ci' i) -> snd s i = snd s' i)).
  { induction m as [|m IH]; intros Hm; cbv zeta.
    - cbn [for_n]. unfold s0, s0'. cbn [fst snd]. split.
      + intros I HI. unfold upd. destruct (Nat.eqb_spec I (I1 + n)); auto. destruct (Nat.eqb_spec I I1); auto.
        destruct HI as [->|[HI|HI]]; [contradiction|lia|auto].
      + intros i [Hi|Hi]; [lia|auto].
    - cbn [for_n]. specialize (IH ltac:(lia)). cbv zeta in IH. destruct (for_n m g s0) as [a a2], (for_n m g s0') as [b' b2].
      cbn [fst snd] in IH. destruct IH as [V1 V2]. unfold g, q_internal_step. cbn [fst snd].
      assert (EX : a (I1 + n - 1 - m + 1)%nat = b' (I1 + n - 1 - m + 1)%nat) by (apply V1; lia).
      rewrite !upd_eq, EX. split.
      + intros I HI. unfold upd. destruct (Nat.eqb_spec I (I1 + n - 1 - m)); auto. apply V1.
        destruct HI as [->|[HI|HI]]; [auto|lia|auto].
      + intros i Hi. unfold upd. destruct (Nat.eqb_spec i (i1 + n - 1 - m)); auto. apply V2. destruct Hi; [lia|auto]. }
  specialize (HV (n - 1)%nat (le_n _)). cbv zeta in HV. replace (I1 + n - 1)%nat with (I1 + (n - 1))%nat in * by lia.
  replace (i1 + n - 1)%nat with (i1 + (n - 1))%nat in * by lia.
  destruct (for_n (n - 1) g s0) as [a a2], (for_n (n - 1) g s0') as [b' b2]. cbn [fst snd] in HV. destruct HV as [V1 V2].
  intros E1 E2. injection E1 as <- <-. injection E2 as <- <-. split.
  - intros I [HI|HI]; apply V1; [|auto]. destruct (Nat.eq_dec I I1); [auto|right; left; lia].
  - intros i Hi. rewrite (V1 I1) by auto. unfold upd. destruct (Nat.eqb_spec i i1); auto. apply V2. destruct Hi; [lia|auto].
Qed.
Lemma internals_fresh N P f b c1 cN c1' cN' s s' : well_formed N ->
  (forall k, (k < n_K N)%nat -> c1 k = c1' k /\ cN k = cN' k) ->
  forall k, (k < n_K N)%nat ->
  (forall j, (j <= n_nk N k)%nat -> fst (q_solve_internals N P f b c1 cN s) (n_I1 N k + j)%nat = fst (q_solve_internals N P f b c1' cN' s') (n_I1 N k + j)%nat) /\
  (forall j, (j < n_nk N k)%nat -> snd (q_solve_internals N P f b c1 cN s) (n_i1 N k + j)%nat = snd (q_solve_internals N P f b c1' cN' s') (n_i1 N k + j)%nat).
Proof.
  intros HW HE k Hk. unfold q_solve_internals. destruct (wf_layout N HW) as [Hn _].
  assert (HV : forall m, (m <= n_K N)%nat -> (k < m)%nat ->
    (forall j, (j <= n_nk N k)%nat ->
       fst (for_n m (fun k s => q_internals_superlink P f b (c1 k) (cN k) (n_i1 N k) (n_I1 N k) (n_nk N k) s) s) (n_I1 N k + j)%nat =
       fst (for_n m (fun k s => q_internals_superlink P f b (c1' k) (cN' k) (n_i1 N k) (n_I1 N k) (n_nk N k) s) s') (n_I1 N k + j)%nat) /\
    (forall j, (j < n_nk N k)%nat ->
       snd (for_n m (fun k s => q_internals_superlink P f b (c1 k) (cN k) (n_i1 N k) (n_I1 N k) (n_nk N k) s) s) (n_i1 N k + j)%nat =
       snd (for_n m (fun k s => q_internals_superlink P f b (c1' k) (cN' k) (n_i1 N k) (n_I1 N k) (n_nk N k) s) s') (n_i1 N k + j)%nat)).
  { induction m as [|m IH]; intros Hm Hkm; [lia|]. cbn [for_n].
    destruct (for_n m (fun k s => q_internals_superlink P f b (c1 k) (cN k) (n_i1 N k) (n_I1 N k) (n_nk N k) s) s) as [a a2].
    destruct (for_n m (fun k s => q_internals_superlink P f b (c1' k) (cN' k) (n_i1 N k) (n_I1 N k) (n_nk N k) s) s') as [d d2].
    cbn [fst snd] in IH. destruct (HE m ltac:(lia)) as [-> ->].
    destruct (q_internals_superlink P f b (c1' m) (cN' m) (n_i1 N m) (n_I1 N m) (n_nk N m) (a, a2)) as [r r2] eqn:E1.
    destruct (q_internals_superlink P f b (c1' m) (cN' m) (n_i1 N m) (n_I1 N m) (n_nk N m) (d, d2)) as [q q2] eqn:E2.
    destruct (superlink_fresh _ _ _ _ _ _ _ _ _ _ _ _ _ _ _ _ (Hn m ltac:(lia)) E1 E2) as [G1 G2]. cbn [fst snd].
    split; intros j Hj; [apply G1 | apply G2]; (destruct (Nat.eq_dec k m) as [->|]; [left; lia|right; apply IH; [lia|lia|auto]]). }
  apply HV; auto.
Qed.

Lemma spread_agree N P u c c' cj cj' : well_formed N -> (forall j, (j < n_M N)%nat -> cj j = cj' j) ->
  agree N (q_spread N P u c cj) (q_spread N P u c' cj').
Proof.
  intros HW HE. unfold q_spread.
  assert (EU : forall k, (k < n_K N)%nat -> q_end_u N u cj k = q_end_u N u cj' k)
    by (intros k Hk; destruct (wf_ends N HW k Hk); unfold q_end_u; now rewrite !HE).
  assert (ED : forall k, (k < n_K N)%nat -> q_end_d N u cj k = q_end_d N u cj' k)
    by (intros k Hk; destruct (wf_ends N HW k Hk); unfold q_end_d; now rewrite !HE).
  pose proof (internals_fresh N P (su_f u) (su_b u) (fun k => q_clip P (q_node_1 N u cj k)) (fun k => q_clip P (q_node_N N u cj k))
    (fun k => q_clip P (q_node_1 N u cj' k)) (fun k => q_clip P (q_node_N N u cj' k)) (c_I c, c_i c) (c_I c', c_i c') HW) as HI.
  destruct (q_solve_internals N P (su_f u) (su_b u) (fun k => q_clip P (q_node_1 N u cj k)) _ _) as [a a2].
  destruct (q_solve_internals N P (su_f u) (su_b u) (fun k => q_clip P (q_node_1 N u cj' k)) _ _) as [d d2].
  cbn [fst snd] in HI.
  assert (HN : forall k, (k < n_K N)%nat -> q_clip P (q_node_1 N u cj k) = q_clip P (q_node_1 N u cj' k) /\
    q_clip P (q_node_N N u cj k) = q_clip P (q_node_N N u cj' k)).
  { intros k Hk. destruct (wf_ends N HW k Hk). unfold q_node_1, q_node_N. rewrite EU, ED, !HE by auto. auto. }
  specialize (HI HN). constructor.
  - intros j Hj. cbn [c_j]. auto.
  - intros k j Hk Hj. unfold pieces_of. cbn [c_u c_i c_d]. destruct j as [|j]; [rewrite !along_0; now rewrite EU|].
    destruct (Nat.eq_dec j (n_nk N k)) as [->|]; [rewrite !along_end; now rewrite ED|].
    rewrite !along_mid by lia. destruct (HI k Hk) as [_ V]. now rewrite V by lia.
  - intros k j Hk Hj. unfold junctions_of. cbn [c_I]. destruct (HI k Hk) as [V _]. now rewrite V by lia.
Qed.
Lemma finish_spread N P u c sol : q_finish N P u c sol = q_spread N P u c (fun j => q_clip P (sol j)).
Proof. reflexivity. Qed.
Lemma agree_trans N a b c : agree N a b -> agree N b c -> agree N a c.
Proof. intros [A1 A2 A3] [B1 B2 B3]. constructor; intros; [rewrite A1, B1|rewrite A2, B2|rewrite A3, B3]; auto. Qed.

Section Object.
Variable inv : nat -> mat -> option mat.
Hypothesis inv_ok : forall n A B, inv n A = Some B -> inverse n A B.
Variables (N : network) (Pa : wq_par) (CO CW CP : wq_ctl) (p : nat) (sp sm : R).
Local Notation M := (n_M N).
Hypothesis Hp : (p < M)%nat.
Local Notation cycle := (kf_cycle inv N Pa CO CW CP p sp sm).
Local Notation cycles := (kf_cycles inv N Pa CO CW CP p sp sm).
Local Notation lin u x := (solves M (q_matrix CO CW CP (su_s u)) (s_b (su_s u)) x).

(** What the filter keeps between calls. *)
Definition good_kf (k : wq_kf) : Prop := supported M M (k_P k) /\ symmetric (k_P k) /\ psd M (k_P k).
(** The estimate and the concentrations of the last call agree: true once the filter has been called. *)
Definition settled (k : wq_kf) : Prop := forall j, (j < M)%nat -> k_x k j = k_prev k j.

Lemma fresh_good c : good_kf (fresh_kf c).
Proof.
  split; [intros i j _; reflexivity|]. split; [intros i j; reflexivity|]. intros v. unfold quad, mvec. cbn.
  right. symmetry. apply sum_n_0. intros i Hi. rewrite sum_n_0; [ring|]. intros; ring.
Qed.

Lemma boxed_row (A : mat) (x : arr) j : (j < M)%nat -> sum_n (fun l => boxed M M A j l * x l) M = sum_n (fun l => A j l * x l) M.
Proof. intros Hj. apply sum_n_ext. intros l Hl. now rewrite boxed_in. Qed.

(** One call, on the object's own data. *)
Lemma filter_spec z dt cor V s k r : good_kf k -> kf_call inv N CO CW CP p sp sm cor z dt V s k = Some r ->
  exists (pred : arr) (P1 : mat),
    (forall j, (j < M)%nat -> sum_n (fun l => q_matrix CO CW CP s j l * pred l) M = s_b s j + V j / dt * (k_x k j - k_prev k j)) /\
    P1 p p + sm ^ 2 <> 0 /\ symmetric P1 /\ psd M P1 /\
    (forall j, kf_x r j = Rmax 0 (pred j + P1 j p / (P1 p p + sm ^ 2) * (z - pred p))) /\
    good_kf (mkKf (kf_x r) (kf_P r) (kf_x r)) /\
    (forall i j, kf_P r i j = P1 i j - P1 i p / (P1 p p + sm ^ 2) * P1 p j) /\
    (forall v, quad M (kf_P r) v <= quad M P1 v) /\
    (exists Ai, inverse M (boxed M M (q_matrix CO CW CP s)) Ai /\ kf_A r = mmul M Ai (storage_rate M V dt)) /\
    P1 = madd (mmul M (mmul M (kf_A r) (k_P k)) (tr (kf_A r))) (process_noise M sp cor).
Proof.
  intros (SP & YP & PP) E. unfold kf_call in E.
  destruct (call_spec inv inv_ok M p V dt _ _ _ _ _ _ sm z Hp (vsup_vboxed M (s_b s)) (sup_boxed M M _) SP (sup_noise M sp cor) r E)
    as (pred & P1 & E1 & NZ & EX & _ & ko & _ & _ & SP2 & Ai & IA & EA & EP1 & EP2).
  destruct (call_covariance inv inv_ok M p V dt _ _ _ _ _ _ sm z Hp (vsup_vboxed M (s_b s)) (sup_boxed M M _) SP (sup_noise M sp cor) r E
    YP PP (noise_symmetric M sp cor) (noise_psd M sp cor)) as (Y2 & P2 & Y1 & PS1 & LE).
  rewrite <- EP1 in Y1, PS1, LE. exists pred, P1. split.
  { intros j Hj. rewrite <- (boxed_row _ pred j Hj), E1, !vboxed_in by auto. reflexivity. }
  split; [exact NZ|]. split; [exact Y1|]. split; [exact PS1|]. split; [exact EX|]. split; [split; [exact SP2|split; [exact Y2|exact P2]]|].
  split; [exact EP2|]. split; [exact LE|]. split; [exists Ai; split; [exact IA|exact EA]|exact EP1].
Qed.

Lemma cycle_keeps i m s s' : cycle i m s s' -> good_kf (snd s) ->
  good_kf (snd s') /\ settled (snd s') /\ (forall j, 0 <= c_j (ob_c (fst s')) j) /\ 
  (obj_clean N Pa CO CW CP (fst s) -> obj_clean N Pa CO CW CP (fst s')) /\ k_P (snd s') p p <= sm ^ 2.
Proof.
  intros H. destruct H as [o k u sol k' Hu HS HF o1]. cbn [fst snd]. intros HG.
  unfold filter_WQ2 in HF. destruct (kf_call inv N CO CW CP p sp sm (ob_corr m) (ob_z m) (i_dt i) (f_V (i_F i)) (su_s u) k) as [r|] eqn:E; [|discriminate].
  cbn [bind] in HF. injection HF as <-.
  destruct (filter_spec _ _ _ _ _ _ _ HG E) as (pred & P1 & _ & NZ & _ & PS1 & EX & G' & EP2 & _).
  split; [exact G'|]. split; [intros j _; reflexivity|]. split; [|split].
  - intros j. cbn [ob_c k_x]. unfold q_spread. destruct (q_solve_internals _ _ _ _ _ _ _). cbn [c_j]. rewrite EX. apply Rmax_l.
  - intros Hc. apply (step_clean _ _ _ _ _ i o o1 Hc). constructor; [exact Hu|exact HS].
  - cbn [k_P]. rewrite EP2. pose proof (psd_diag M P1 p PS1 Hp) as D. pose proof (pow2_ge_0 sm) as S0.
    set (a := P1 p p) in *. set (b := sm ^ 2) in *. assert (0 < a + b) by lra.
    replace (a - a / (a + b) * a) with (b * (a / (a + b))) by (field; lra).
    apply Rle_trans with (b * 1); [|lra]. apply Rmult_le_compat_l; [exact S0|].
    apply (Rmult_le_reg_r (a + b)); [lra|]. unfold Rdiv. rewrite Rmult_assoc, Rinv_l, Rmult_1_r by lra. lra.
Qed.
Lemma cycles_keep ims s s' : cycles ims s s' -> good_kf (snd s) ->
  good_kf (snd s') /\
  (ims <> nil -> settled (snd s') /\ (forall j, 0 <= c_j (ob_c (fst s')) j) /\ k_P (snd s') p p <= sm ^ 2) /\
  (obj_clean N Pa CO CW CP (fst s) -> obj_clean N Pa CO CW CP (fst s')).
Proof.
  intros H. induction H as [s|im rest s s1 s2 H1 H2 IH]; intros HG.
  - split; [exact HG|]. split; [congruence|auto].
  - destruct (cycle_keeps _ _ _ _ H1 HG) as (G1 & S1 & C1 & K1 & V1). destruct (IH G1) as (G2 & R2 & K2).
    split; [exact G2|]. split; [|auto]. intros _. destruct rest as [|im' rest'].
    + inversion H2; subst. auto.
    + apply R2. discriminate.
Qed.

(** ** C63 *)

(** After any number of assimilations the covariance is symmetric and nonnegative; after at least one, the variance at
    the observed junction is at most that of the measurement, and no concentration is negative. *)
Theorem C63_covariance_stays_valid ims o0 c0 o k : cycles ims (o0, fresh_kf c0) (o, k) ->
  symmetric (k_P k) /\ psd M (k_P k) /\
  (ims <> nil -> k_P k p p <= sm ^ 2 /\ forall j, 0 <= c_j (ob_c o) j).
Proof.
  intros H. destruct (cycles_keep _ _ _ H (fresh_good c0)) as ((_ & Y & PS) & R & _). cbn [fst snd] in *.
  split; [exact Y|]. split; [exact PS|]. intros Ne. destruct (R Ne) as (_ & C1 & V). auto.
Qed.

(** What a further assimilation does to a filter that has been called before. *)
Lemma correction i m o k o' k' : good_kf k -> settled k -> cycle i m (o, k) (o', k') ->
  exists u sol P1, q_prepare N Pa CO CW CP i o = Some u /\ lin u sol /\ (forall x, lin u x -> forall j, (j < M)%nat -> x j = sol j) /\
    symmetric P1 /\ psd M P1 /\ P1 p p + sm ^ 2 <> 0 /\
    (forall j, (j < M)%nat -> c_j (ob_c o') j = Rmax 0 (sol j + P1 j p / (P1 p p + sm ^ 2) * (ob_z m - sol p))) /\
    (forall v, quad M (k_P k') v <= quad M P1 v) /\
    ob_c o' = q_spread N Pa u (ob_c (q_complete N Pa u o sol)) (c_j (ob_c o')) /\ ob_w o' = ob_w (q_complete N Pa u o sol).
Proof.
  intros HG HS H. inversion H as [o0 k0 u sol k1 Hu HL HF o1 E1 E2]; subst.
  unfold filter_WQ2 in HF. destruct (kf_call inv N CO CW CP p sp sm (ob_corr m) (ob_z m) (i_dt i) (f_V (i_F i)) (su_s u) k) as [r|] eqn:E; [|discriminate].
  cbn [bind] in HF. injection HF as <-.
  destruct (filter_spec _ _ _ _ _ _ _ HG E) as (pred & P1 & EQ & NZ & Y1 & PS1 & EX & _ & _ & LE & (Ai & IA & _) & _).
  assert (UN : forall x y, lin u x -> lin u y -> forall j, (j < M)%nat -> x j = y j).
  { intros x y Hx Hy. apply (solutions_agree M _ Ai x y IA). intros j Hj. rewrite !boxed_row by auto.
    rewrite (Hx j Hj), (Hy j Hj). reflexivity. }
  assert (HPred : lin u pred).
  { intros j Hj. unfold row_holds. rewrite EQ by auto. rewrite (HS j Hj). ring. }
  exists u, sol, P1. split; [exact Hu|]. split; [exact HL|]. split; [intros x Hx; apply UN; auto|].
  split; [exact Y1|]. split; [exact PS1|]. split; [exact NZ|].
  assert (ECJ : forall c x, c_j (q_spread N Pa u c x) = x).
  { intros c x. unfold q_spread. destruct (q_solve_internals _ _ _ _ _ _ _). reflexivity. }
  cbn [ob_c ob_w k_x k_P]. split; [|split; [exact LE|split; [now rewrite ECJ|reflexivity]]].
  intros j Hj. rewrite ECJ, EX. rewrite (UN pred sol HPred HL j Hj), (UN pred sol HPred HL p Hp). reflexivity.
Qed.

(** Every assimilation after the first: the superjunction concentrations are those the step computed, plus the
    difference between the measurement and the computed value at the observed junction times a gain, cut off at 0.  The
    gain at the observed junction lies between 0 and 1, so the new value there lies between the computed and the measured
    one, and covariances do not exceed those of the prediction. *)
Theorem C63_measurement_pulls_estimate im ims o0 c0 o k i m o' k' :
  cycles (cons im ims) (o0, fresh_kf c0) (o, k) -> cycle i m (o, k) (o', k') ->
  exists u sol gain, q_prepare N Pa CO CW CP i o = Some u /\ lin u sol /\ 0 <= gain p <= 1 /\
    (forall j, (j < M)%nat -> c_j (ob_c o') j = Rmax 0 (sol j + gain j * (ob_z m - sol p))) /\
    (0 <= sol p -> 0 <= ob_z m -> Rmin (sol p) (ob_z m) <= c_j (ob_c o') p <= Rmax (sol p) (ob_z m)).
Proof.
  intros HC H1. destruct (cycles_keep _ _ _ HC (fresh_good c0)) as (G & R & _). cbn [fst snd] in *.
  destruct (R ltac:(discriminate)) as (S1 & _).
  destruct (correction i m o k o' k' G S1 H1) as (u & sol & P1 & Hu & HL & _ & Y1 & PS1 & NZ & EX & _).
  pose proof (psd_diag M P1 p PS1 Hp) as D. pose proof (pow2_ge_0 sm) as S0.
  assert (G01 : 0 <= P1 p p / (P1 p p + sm ^ 2) <= 1).
  { assert (0 < P1 p p + sm ^ 2) by lra. split; [apply Rmult_le_pos; [exact D | left; apply Rinv_0_lt_compat; auto]|].
    apply (Rmult_le_reg_r (P1 p p + sm ^ 2)); [auto|]. unfold Rdiv. rewrite Rmult_assoc, Rinv_l, Rmult_1_r by lra. lra. }
  exists u, sol, (fun j => P1 j p / (P1 p p + sm ^ 2)). split; [exact Hu|]. split; [exact HL|]. split; [exact G01|].
  split; [exact EX|]. intros Z1 Z2. rewrite EX by exact Hp. set (g := P1 p p / (P1 p p + sm ^ 2)) in *. clearbody g.
  set (a := sol p) in *. set (z := ob_z m) in *. clearbody a z. clear EX HL Hu Y1 PS1 NZ D S0.
  destruct (Rle_dec a z) as [L|L]; [rewrite Rmin_left, (Rmax_right a z) by lra | rewrite Rmin_right, (Rmax_left a z) by lra].
  - assert (0 <= g * (z - a) <= z - a).
    { split; [apply Rmult_le_pos; lra|]. rewrite <- (Rmult_1_l (z - a)) at 2. apply Rmult_le_compat_r; lra. }
    rewrite Rmax_right by lra. lra.
  - assert (0 <= g * (a - z) <= a - z).
    { split; [apply Rmult_le_pos; lra|]. rewrite <- (Rmult_1_l (a - z)) at 2. apply Rmult_le_compat_r; lra. }
    rewrite Rmax_right by lra. lra.
Qed.

Lemma agreeing o k i m o' k' o1 :
  well_formed N -> q_ends_in N CO CW CP -> obj_clean N Pa CO CW CP o -> good_input N Pa CO CW CP i -> 0 <= p_min Pa <= p_max Pa ->
  good_kf k -> settled k -> cycle i m (o, k) (o', k') ->
  q_step N Pa CO CW CP i o o1 -> transported N Pa CO CW CP i o o1 -> ob_z m = c_j (ob_c o1) p ->
  agree N (ob_c o') (ob_c o1) /\ ob_w o' = ob_w o1.
Proof.
  intros HW HE KC [Hdt Hwet Hcon] Hpm G S1 H1 [u1 sol1 Hu1 HL1] HT Hz.
  destruct (correction i m o k o' k' G S1 H1) as (u & sol & P1 & Hu & HL & UN & _ & _ & NZ & EX & _ & EO & EW).
  rewrite Hu in Hu1. injection Hu1 as <-.
  assert (HL2 : lin u (c_j (q_finish N Pa u (ob_c o) sol1))).
  { apply (state_solution N Pa CO CW CP (i_F i) (i_0j i) (i_Q0j i) (i_0I i) (i_Q0I i) (i_dt i) (ob_w o) HW Hdt HE Hwet Hcon KC (ob_c o) (i_bc i) u Hu).
    exact HT. }
  pose proof (UN _ HL2) as E2.
  assert (ECJ : forall j, c_j (q_finish N Pa u (ob_c o) sol1) j = q_clip Pa (sol1 j)).
  { intros j. unfold q_finish. destruct (q_solve_internals _ _ _ _ _ _ _). reflexivity. }
  split; [|rewrite EW; reflexivity].
  rewrite EO. cbn [q_complete ob_c]. rewrite finish_spread. apply spread_agree; [exact HW|].
  intros j Hj. rewrite EX by auto. unfold q_complete in Hz. cbn [ob_c] in Hz. rewrite Hz, (E2 p Hp), (Rminus_diag_eq (sol p) (sol p) eq_refl), Rmult_0_r, Rplus_0_r.
  rewrite <- (E2 j Hj), ECJ. apply Rmax_right. destruct (clip_range Pa (sol1 j)); lra.
Qed.

(** Every assimilation after the first of a value that agrees with the model leaves the whole object as the step alone
    would have, provided the step's concentrations were not cut off at the limits. *)
Theorem C63_agreeing_measurement_changes_nothing im ims o0 c0 o k i m o' k' o1 :
  well_formed N -> q_ends_in N CO CW CP -> obj_clean N Pa CO CW CP o0 -> good_input N Pa CO CW CP i -> 0 <= p_min Pa <= p_max Pa ->
  cycles (cons im ims) (o0, fresh_kf c0) (o, k) -> cycle i m (o, k) (o', k') ->
  q_step N Pa CO CW CP i o o1 -> transported N Pa CO CW CP i o o1 -> ob_z m = c_j (ob_c o1) p ->
  agree N (ob_c o') (ob_c o1) /\ ob_w o' = ob_w o1.
Proof.
  intros HW HE Hcl Hi Hpm HC H1 Hst HT Hz.
  destruct (cycles_keep _ _ _ HC (fresh_good c0)) as (G & R & KC). cbn [fst snd] in *.
  destruct (R ltac:(discriminate)) as (S1 & _). apply (agreeing o k i m o' k' o1); auto.
Qed.

(** Assimilations are defined. *)
Lemma call_exists i o u k cor z :
  (forall n A, nonsingular n A -> exists B, inv n A = Some B) ->
  well_formed N -> q_ends_in N CO CW CP -> good_input N Pa CO CW CP i -> obj_clean N Pa CO CW CP o -> sm <> 0 -> good_kf k ->
  q_prepare N Pa CO CW CP i o = Some u ->
  (exists sol, lin u sol) /\ exists r, kf_call inv N CO CW CP p sp sm cor z (i_dt i) (f_V (i_F i)) (su_s u) k = Some r.
Proof.
  intros HCo HW HE [Hdt Hwet Hcon] Hcl Hsm (SP & YP & PP) Hu.
  destruct (lin_solvable N Pa CO CW CP (i_F i) (i_0j i) (i_Q0j i) (i_0I i) (i_Q0I i) (i_dt i) (ob_w o) HW Hdt HE Hwet Hcon Hcl _ _ u Hu) as [sol HS].
  split; [exists sol; exact HS|]. unfold kf_call. apply call_defined; [exact Hp|exact HCo| |exact PP|apply noise_psd|exact Hsm].
  intros v Hv j Hj.
  pose proof (lin_unique N Pa CO CW CP (i_F i) (i_0j i) (i_Q0j i) (i_0I i) (i_Q0I i) (i_dt i) (ob_w o) HW Hdt HE Hwet Hcon Hcl _ _ u Hu
    (fun l => sol l + v l) sol) as UQ.
  assert (X : sol j + v j = sol j); [|lra]. apply UQ; [|exact HS|exact Hj].
  intros l Hl. unfold row_holds. rewrite (sum_n_ext _ (fun q => q_matrix CO CW CP (su_s u) l q * sol q + q_matrix CO CW CP (su_s u) l q * v q)) by (intros; ring).
  rewrite sum_n_plus. rewrite <- (boxed_row _ v l Hl), (Hv l Hl), Rplus_0_r. exact (HS l Hl).
Qed.
Theorem C63_assimilation_defined ims o0 c0 :
  (forall n A, nonsingular n A -> exists B, inv n A = Some B) ->
  well_formed N -> covered N -> q_ends_in N CO CW CP -> obj_clean N Pa CO CW CP o0 -> sm <> 0 ->
  List.Forall (fun im => good_input N Pa CO CW CP (fst im)) ims ->
  exists o k, cycles ims (o0, fresh_kf c0) (o, k).
Proof.
  intros HCo HW HCv HE Hcl Hsm HF.
  assert (GEN : forall s, good_kf (snd s) -> obj_clean N Pa CO CW CP (fst s) -> exists s', cycles ims s s').
  { clear Hcl o0 c0. induction HF as [|im rest Hi HF IH]; intros s HG Hcl; [eexists; constructor|].
    assert (exists s1, cycle (fst im) (snd im) s s1) as [s1 Hs1].
    { destruct s as [o k]. cbn [fst snd] in *. destruct im as [i m]. cbn [fst snd] in *.
      destruct (setup_defined N Pa CO CW CP i o HW HCv Hi) as [u Hu].
      destruct (call_exists i o u k (ob_corr m) (ob_z m) HCo HW HE Hi Hcl Hsm HG Hu) as [[sol HS] [r Hr]].
      eexists. apply (kf_cycle_intro _ _ _ _ _ _ _ _ _ i m o k u sol); [exact Hu|exact HS|].
      unfold filter_WQ2. rewrite Hr. cbn [bind]. reflexivity. }
    destruct (cycle_keeps _ _ _ _ Hs1 HG) as (G1 & _ & _ & K1 & _).
    destruct (IH s1 G1 (K1 Hcl)) as [s2 H2]. exists s2. econstructor; eauto. }
  destruct (GEN (o0, fresh_kf c0) (fresh_good c0) Hcl) as [[o k] H]. eauto.
Qed.
Theorem C63_tracking_defined ims o0 c0 :
  (forall n A, nonsingular n A -> exists B, inv n A = Some B) ->
  well_formed N -> covered N -> q_ends_in N CO CW CP -> obj_clean N Pa CO CW CP o0 -> sm <> 0 ->
  List.Forall (fun im => good_input N Pa CO CW CP (fst im)) ims ->
  exists o k, track_cycles inv N Pa CO CW CP p sp sm ims (o0, fresh_kf c0) (o, k).
Proof.
  intros HCo HW HCv HE Hcl Hsm HF.
  assert (GEN : forall s, good_kf (snd s) -> obj_clean N Pa CO CW CP (fst s) -> exists s', track_cycles inv N Pa CO CW CP p sp sm ims s s').
  { clear Hcl o0 c0. induction HF as [|im rest Hi HF IH]; intros s HG Hcl; [eexists; constructor|].
    destruct s as [o k]. cbn [fst snd] in *.
    destruct (setup_defined N Pa CO CW CP (fst im) o HW HCv Hi) as [u Hu].
    pose proof (call_exists (fst im) o u k false) as CE.
    destruct (CE 0 HCo HW HE Hi Hcl Hsm HG Hu) as [[sol HS] _].
    set (o1 := q_complete N Pa u o sol).
    destruct (CE (c_j (ob_c o1) p + snd im) HCo HW HE Hi Hcl Hsm HG Hu) as [_ [r Hr]].
    assert (Hst : q_step N Pa CO CW CP (fst im) o o1) by (constructor; [exact Hu|exact HS]).
    destruct (IH (o1, mkKf (kf_x r) (kf_P r) (c_j (ob_c o1)))) as [s2 H2].
    - destruct (filter_spec _ _ _ _ _ _ _ HG Hr) as (_ & _ & _ & _ & _ & _ & _ & G' & _). exact G'.
    - exact (step_clean _ _ _ _ _ _ _ _ Hcl Hst).
    - exists s2. econstructor; [|exact H2]. econstructor; [exact Hst|].
      unfold filter_WQ1. cbn [o1 q_complete ob_w ww_s]. cbn [o1 q_complete] in Hr. rewrite Hr. cbn [bind]. reflexivity. }
  destruct (GEN (o0, fresh_kf c0) (fresh_good c0) Hcl) as [[o k] H]. eauto.
Qed.

(** The transition matrix and input vector of [KF_Multi_WQ]: applied to any superjunction concentrations they solve the
    rows of the system that a step from these concentrations would solve, at every junction without prescribed
    concentration. *)
Definition with_cj (o : wq_obj) (x : arr) : wq_obj :=
  mkObj (mkWq x (c_I (ob_c o)) (c_i (ob_c o)) (c_u (ob_c o)) (c_d (ob_c o))) (ob_w o).
Lemma multi_spec i u k A B x : i_dt i <> 0 ->
  KF_Multi_WQ inv N CO CW CP (i_dt i) (f_V (i_F i)) (su_s u) k = Some (A, B) ->
  forall j, (j < M)%nat -> sum_n (fun l => q_matrix CO CW CP (su_s u) j l * (mvec M A x l + B l)) M =
    s_b (su_s u) j + f_V (i_F i) j / i_dt i * (x j - k_prev k j).
Proof.
  clear Hp p. intros Hdt. unfold KF_Multi_WQ. destruct (inv M (boxed M M (q_matrix CO CW CP (su_s u)))) as [Ai|] eqn:EA; [|discriminate].
  cbn [bind]. injection 1 as <- <-. intros j Hj. pose proof (inv_ok _ _ _ EA) as IA.
  rewrite <- (boxed_row _ (fun l => mvec M (mmul M Ai (storage_rate M (f_V (i_F i)) (i_dt i))) x l + _) j Hj).
  change (mvec M (boxed M M (q_matrix CO CW CP (su_s u))) (vadd (mvec M (mmul M Ai (storage_rate M (f_V (i_F i)) (i_dt i))) x)
    (mvec M Ai (vsub (vboxed M (s_b (su_s u))) (mvec M (storage_rate M (f_V (i_F i)) (i_dt i)) (vboxed M (k_prev k)))))) j =
    s_b (su_s u) j + f_V (i_F i) j / i_dt i * (x j - k_prev k j)).
  rewrite mvec_mmul, <- mvec_vadd, <- mvec_mmul. destruct (inverse_eq M _ Ai (sup_boxed M M _) IA) as [-> _].
  rewrite eye_vec.
  - unfold vadd, vsub. rewrite !rate_vec. destruct (Nat.ltb_spec j M); [|lia]. rewrite !vboxed_in by auto. ring.
  - intros l Hl. unfold vadd, vsub. rewrite !rate_vec. unfold vboxed. destruct (Nat.ltb_spec l M); [lia|ring].
Qed.
Theorem C63_transition_matrix_advances_any_state i o u x u' k A B :
  i_dt i <> 0 -> q_prepare N Pa CO CW CP i o = Some u -> q_prepare N Pa CO CW CP i (with_cj o x) = Some u' ->
  (forall j, (j < M)%nat -> k_prev k j = c_j (ob_c o) j) ->
  KF_Multi_WQ inv N CO CW CP (i_dt i) (f_V (i_F i)) (su_s u) k = Some (A, B) ->
  forall j, (j < M)%nat -> p_bc Pa j = false ->
  row_holds M (q_matrix CO CW CP (su_s u')) (s_b (su_s u')) (fun l => mvec M A x l + B l) j.
Proof.
  clear Hp p. intros Hdt Hu Hu' Hk HM j Hj Hb. unfold row_holds.
  assert (EM : q_matrix CO CW CP (su_s u') = q_matrix CO CW CP (su_s u) /\
               s_b (su_s u') j = s_b (su_s u) j + f_V (i_F i) j / i_dt i * (x j - c_j (ob_c o) j)).
  { revert Hu Hu'. unfold q_prepare, q_setup, with_cj. cbn [ob_c ob_w].
    set (c' := mkWq x (c_I (ob_c o)) (c_i (ob_c o)) (c_u (ob_c o)) (c_d (ob_c o))).
    change (q_node_coeffs N Pa (i_F i) c' (i_0I i) (i_Q0I i) (i_dt i) (ww_nd (ob_w o)))
      with (q_node_coeffs N Pa (i_F i) (ob_c o) (i_0I i) (i_Q0I i) (i_dt i) (ww_nd (ob_w o))).
    change (q_link_coeffs N Pa (i_F i) c' (i_dt i)) with (q_link_coeffs N Pa (i_F i) (ob_c o) (i_dt i)).
    destruct (q_node_coeffs _ _ _ _ _ _ _ _) as [nd|]; [|discriminate]. cbn [bind]. injection 1 as <-. injection 1 as <-.
    cbn [su_s]. unfold q_sparse_matrix_equations.
    destruct (q_create_A_matrix _ _ _ _ _ _ _). destruct (q_controls _ _ _ _ CO _), (q_controls _ _ _ _ CW _), (q_controls _ _ _ _ CP _).
    split; [reflexivity|]. cbn [s_b c_j c']. rewrite Hb. field. exact Hdt. }
  destruct EM as [-> ->]. rewrite (multi_spec i u k A B x Hdt HM j Hj), (Hk j Hj). reflexivity.
Qed.
End Object.
