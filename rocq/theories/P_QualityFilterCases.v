(** C63: the first assimilation, prescribed concentrations, limits, the tracking filter, and an example. *)
From Coq Require Import FunctionalExtensionality List.
From Verif Require Import Prelude M_Coeffs M_Recurrence M_Assembly M_Step S_Superlink S_Network S_Step L_Assembly M_Simulation M_Kalman
  P_Kalman M_Quality S_Quality L_Quality L_QualityStep L_QualityNet L_QualitySolve L_QualityMax P_Superlink P_Step P_Quality P_QualityCases L_Inverse
  M_QualityFilter L_QualityFilter P_QualityFilter.

(** Row of a junction with prescribed concentration. *)
Lemma boundary_row N P CO CW CP i o u j v : obj_clean N P CO CW CP o -> q_ends_in N CO CW CP ->
  q_prepare N P CO CW CP i o = Some u -> (j < n_M N)%nat -> p_bc P j = true ->
  sum_n (fun l => q_matrix CO CW CP (su_s u) j l * v l) (n_M N) = v j /\ s_b (su_s u) j = i_bc i j.
Proof.
  intros Hc (E1 & E2 & E3 & E4) Hu Hj Hb.
  destruct (setup_parts _ _ _ _ _ _ _ _ _ _ _ _ _ _ _ Hu) as (_ & _ & _ & _ & _ & ->).
  destruct (q_assembly_ok N P CO CW CP (i_F i) (su_B u) (c_j (ob_c o)) (i_bc i) (i_Q0j i) (i_0j i) (i_dt i) (ww_s (ob_w o)) Hc) as (_ & VM & Vb).
  cbv zeta in *. split; [|rewrite Vb, Hb; reflexivity].
  match type of VM with forall i j, _ -> _ = @?e1 i j + @?e2 i j + @?e3 i j + @?e4 i j =>
    rewrite (sum_n_ext _ (fun l => e1 j l * v l + e2 j l * v l + e3 j l * v l + e4 j l * v l)) end.
  2:{ intros l Hl. rewrite VM by auto. ring. }
  cbv beta. rewrite !sum_n_plus, !entry_row by auto. rewrite Hb. ring.
Qed.

Section Cases.
Variable inv : nat -> mat -> option mat.
Hypothesis inv_ok : forall n A B, inv n A = Some B -> inverse n A B.
Variables (N : network) (Pa : wq_par) (CO CW CP : wq_ctl) (p : nat) (sp sm : R).
Local Notation M := (n_M N).
Hypothesis Hp : (p < M)%nat.
Local Notation cycle := (kf_cycle inv N Pa CO CW CP p sp sm).
Local Notation track := (track_cycles inv N Pa CO CW CP p sp sm).
Local Notation lin u x := (solves M (q_matrix CO CW CP (su_s u)) (s_b (su_s u)) x).

Lemma zero_good k : (forall i j, k_P k i j = 0) -> good_kf N k.
Proof.
  intros H. replace k with (mkKf (k_x k) (k_P k) (k_prev k)) by (destruct k; reflexivity).
  replace (k_P k) with (k_P (fresh_kf zeros)) by (cbn; fext; now rewrite H). exact (fresh_good N zeros).
Qed.
Lemma zero_prediction A P cor : (forall i j, P i j = 0) ->
  madd (mmul M (mmul M A P) (tr A)) (process_noise M sp cor) = process_noise M sp cor.
Proof.
  intros H. fext. unfold madd. rewrite <- (Rplus_0_l (process_noise M sp cor x x0)) at 2. f_equal.
  unfold mmul at 1. apply sum_n_0. intros l Hl. unfold mmul. rewrite sum_n_0; [ring|]. intros q Hq. rewrite H. ring.
Qed.

(** A call while the covariance is zero. *)
Lemma zero_call z dt cor V s k r : (forall i j, k_P k i j = 0) -> kf_call inv N CO CW CP p sp sm cor z dt V s k = Some r ->
  let w := fun j => process_noise M sp cor j p / (process_noise M sp cor p p + sm ^ 2) in
  exists pred : arr,
    (forall j, (j < M)%nat -> sum_n (fun l => q_matrix CO CW CP s j l * pred l) M = s_b s j + V j / dt * (k_x k j - k_prev k j)) /\
    (forall j, kf_x r j = Rmax 0 (pred j + w j * (z - pred p))) /\
    (forall i j, kf_P r i j = process_noise M sp cor i j - w i * process_noise M sp cor p j) /\
    (exists Ai, inverse M (boxed M M (q_matrix CO CW CP s)) Ai).
Proof.
  intros HZ E. destruct (filter_spec inv inv_ok N CO CW CP p sp sm Hp _ _ _ _ _ _ _ (zero_good k HZ) E)
    as (pred & P1 & EQ & _ & _ & _ & EX & _ & EP & _ & (Ai & IA & _) & E1).
  rewrite (zero_prediction (kf_A r) (k_P k) cor HZ) in E1. subst P1. cbv zeta.
  exists pred. split; [exact EQ|]. split; [exact EX|]. split; [exact EP|]. exists Ai. exact IA.
Qed.
Lemma no_noise cor i j : sp = 0 -> process_noise M sp cor i j = 0.
Proof. intros ->. unfold process_noise. destruct cor; [unfold boxed; destruct (_ && _)|]; ring. Qed.
Lemma full_noise i j : (i < M)%nat -> (j < M)%nat -> process_noise M sp true i j = sp ^ 2.
Proof. intros. cbn. now rewrite boxed_in. Qed.

Lemma fresh_zero c : forall i j, k_P (fresh_kf c) i j = 0.
Proof. reflexivity. Qed.
Lemma cycle_call i m o k o' k' : cycle i m (o, k) (o', k') -> exists u r, q_prepare N Pa CO CW CP i o = Some u /\
  kf_call inv N CO CW CP p sp sm (ob_corr m) (ob_z m) (i_dt i) (f_V (i_F i)) (su_s u) k = Some r /\
  (forall j, c_j (ob_c o') j = kf_x r j) /\ k' = mkKf (kf_x r) (kf_P r) (kf_x r).
Proof.
  intros H. inversion H as [o0 k0 u sol k1 Hu HL HF o1 E1 E2]; subst.
  unfold filter_WQ2 in HF. destruct (kf_call inv N CO CW CP p sp sm (ob_corr m) (ob_z m) (i_dt i) (f_V (i_F i)) (su_s u) k) as [r|] eqn:E; [|discriminate].
  cbn [bind] in HF. injection HF as <-. exists u, r. split; [exact Hu|]. split; [exact E|]. split; [|reflexivity].
  intros j. cbn [ob_c k_x]. unfold q_spread. destruct (q_solve_internals _ _ _ _ _ _ _). reflexivity.
Qed.

(** The first assimilation starts from an estimate of zero instead of the model's concentrations, so the water initially
    stored at the superjunctions is taken to be clean: without process noise, whatever the measurement, the result is
    not the solution of the step unless that water was clean. *)
Theorem C63_first_assimilation_refuted i m o c0 o' k' u sol j :
  sp = 0 -> cycle i m (o, fresh_kf c0) (o', k') -> q_prepare N Pa CO CW CP i o = Some u -> lin u sol ->
  (forall j, (j < M)%nat -> 0 < sol j) -> 0 < i_dt i -> (j < M)%nat -> f_V (i_F i) j * c0 j <> 0 ->
  ~ (forall j, (j < M)%nat -> c_j (ob_c o') j = sol j).
Proof.
  intros Hsp H Hu HL HS Hdt Hj HV HE. destruct (cycle_call _ _ _ _ _ _ H) as (u1 & r & Hu1 & E & EC & _).
  rewrite Hu in Hu1. injection Hu1 as <-.
  destruct (zero_call _ _ _ _ _ _ _ (fresh_zero c0) E) as (pred & EQ & EX & _).
  assert (EPr : forall l, (l < M)%nat -> pred l = sol l).
  { intros l Hl. specialize (HE l Hl). rewrite EC, EX, !no_noise in HE by exact Hsp. unfold Rdiv in HE.
    rewrite !Rmult_0_l, Rplus_0_r in HE. specialize (HS l Hl). unfold Rmax in HE. destruct (Rle_dec 0 (pred l)); lra. }
  specialize (EQ j Hj). rewrite (sum_n_ext _ (fun l => q_matrix CO CW CP (su_s u) j l * sol l)) in EQ by (intros l Hl; now rewrite EPr).
  rewrite (HL j Hj) in EQ. cbn [k_x k_prev fresh_kf] in EQ. unfold zeros in EQ. apply HV.
  assert (X : f_V (i_F i) j / i_dt i * (0 - c0 j) = 0) by lra.
  replace (f_V (i_F i) j * c0 j) with (- (f_V (i_F i) j / i_dt i * (0 - c0 j)) * i_dt i) by (field; lra). rewrite X. ring.
Qed.

(** A model that starts with clean water.  With correlated process noise a measurement above the computed value raises
    every superjunction concentration by the same amount, also prescribed ones, and above the upper limit of the
    concentrations. *)
Theorem C63_limits_and_boundaries_refuted i m o c0 o' k' u sol j :
  (forall l, (l < M)%nat -> c0 l = 0) -> ob_corr m = true -> sp <> 0 ->
  obj_clean N Pa CO CW CP o -> q_ends_in N CO CW CP ->
  cycle i m (o, fresh_kf c0) (o', k') -> q_prepare N Pa CO CW CP i o = Some u -> lin u sol ->
  (j < M)%nat -> p_bc Pa j = true -> 0 <= i_bc i j -> sol p < ob_z m ->
  c_j (ob_c o') j = i_bc i j + sp ^ 2 / (sp ^ 2 + sm ^ 2) * (ob_z m - sol p) /\
  i_bc i j < c_j (ob_c o') j /\ (i_bc i j = p_max Pa -> p_max Pa < c_j (ob_c o') j).
Proof.
  intros H0 Hc Hsp Hcl HE H Hu HL Hj Hb HB Hz. destruct (cycle_call _ _ _ _ _ _ H) as (u1 & r & Hu1 & E & EC & _).
  rewrite Hu in Hu1. injection Hu1 as <-. rewrite Hc in E.
  destruct (zero_call _ _ _ _ _ _ _ (fresh_zero c0) E) as (pred & EQ & EX & _ & Ai & IA).
  assert (EPr : forall l, (l < M)%nat -> pred l = sol l).
  { apply (solutions_agree M _ Ai pred sol IA). intros l Hl. rewrite !boxed_row by auto. rewrite EQ, (HL l Hl) by auto.
    cbn [k_x k_prev fresh_kf]. unfold zeros. rewrite H0 by auto. ring. }
  assert (S2 : 0 < sp ^ 2) by (rewrite <- Rsqr_pow2; apply Rsqr_pos_lt; exact Hsp). pose proof (pow2_ge_0 sm) as S3.
  destruct (boundary_row N Pa CO CW CP i o u j sol Hcl HE Hu Hj Hb) as [RB BB]. pose proof (HL j Hj) as R1. unfold row_holds in R1.
  rewrite RB, BB in R1.
  assert (G : 0 < sp ^ 2 / (sp ^ 2 + sm ^ 2) * (ob_z m - sol p)).
  { apply Rmult_lt_0_compat; [|lra]. apply Rmult_lt_0_compat; [exact S2|]. apply Rinv_0_lt_compat. lra. }
  assert (EF : c_j (ob_c o') j = i_bc i j + sp ^ 2 / (sp ^ 2 + sm ^ 2) * (ob_z m - sol p)).
  { rewrite EC, EX, !full_noise by auto. rewrite !EPr, R1 by auto. apply Rmax_right. lra. }
  split; [exact EF|]. rewrite EF. split; [lra|]. intros ->. lra.
Qed.

(** The tracking filter ([Kalman_Filter_WQ1]).  With exact measurements of a model that starts with clean water the
    estimate is the model's concentrations at every superjunction, whatever the covariances. *)
Lemma track_step i o k o1 k' lo hi :
  well_formed N -> q_ends_in N CO CW CP -> good_input N Pa CO CW CP i -> obj_clean N Pa CO CW CP o ->
  p_min Pa <= lo -> hi <= p_max Pa -> 0 <= lo -> (lo <= 0 <= hi \/ no_reaction N Pa) ->
  inputs_within N Pa lo hi (i_bc i) (i_0j i) (i_0I i) -> within N lo hi (ob_c o) ->
  good_kf N k -> settled N k -> track_cycle inv N Pa CO CW CP p sp sm i 0 (o, k) (o1, k') ->
  within N lo hi (ob_c o1) /\ obj_clean N Pa CO CW CP o1 /\ good_kf N k' /\ settled N k' /\
  (forall j, (j < M)%nat -> k_x k' j = c_j (ob_c o1) j).
Proof.
  intros HW HE Hi Hcl H1 H2 H3 HR HI HB HG HS H. inversion H as [o0 k0 o2 k2 Hst HF E1 E2]; subst.
  destruct (step_main N Pa CO CW CP i o o1 lo hi HW HE Hi Hcl Hst H1 H2 HR HI HB) as [HT HB1].
  split; [exact HB1|]. split; [exact (step_clean _ _ _ _ _ _ _ _ Hcl Hst)|].
  unfold filter_WQ1 in HF. destruct Hst as [u sol Hu HL]. cbn [q_complete ob_w ww_s] in HF.
  destruct (kf_call inv N CO CW CP p sp sm false _ (i_dt i) (f_V (i_F i)) (su_s u) k) as [r|] eqn:E; [|discriminate].
  cbn [bind] in HF. injection HF as <-.
  destruct (filter_spec inv inv_ok N CO CW CP p sp sm Hp _ _ _ _ _ _ _ HG E) as (pred & P1 & EQ & _ & _ & _ & EX & G' & _ & _ & (Ai & IA & _) & _).
  destruct Hi as [Hdt Hwet Hcon].
  assert (HL2 : lin u (c_j (q_finish N Pa u (ob_c o) sol))).
  { apply (state_solution N Pa CO CW CP (i_F i) (i_0j i) (i_Q0j i) (i_0I i) (i_Q0I i) (i_dt i) (ob_w o) HW Hdt HE Hwet Hcon Hcl (ob_c o) (i_bc i) u Hu).
    exact HT. }
  cbn [q_complete ob_c] in *.
  assert (EPr : forall l, (l < M)%nat -> pred l = c_j (q_finish N Pa u (ob_c o) sol) l).
  { apply (solutions_agree M _ Ai pred _ IA). intros l Hl. rewrite !boxed_row by auto. rewrite EQ, (HL2 l Hl) by auto.
    rewrite (HS l Hl). ring. }
  assert (EK : forall j, (j < M)%nat -> kf_x r j = c_j (q_finish N Pa u (ob_c o) sol) j).
  { intros j Hj. rewrite EX, !EPr by auto. rewrite Rplus_0_r, (Rminus_diag_eq _ _ eq_refl), Rmult_0_r, Rplus_0_r.
    apply Rmax_right. pose proof (wi_j _ _ _ _ HB1 j Hj). lra. }
  split; [exact G'|]. split; [exact EK|exact EK].
Qed.
Theorem C63_tracking_follows_model is o0 c0 o k lo hi :
  well_formed N -> q_ends_in N CO CW CP -> obj_clean N Pa CO CW CP o0 ->
  p_min Pa <= lo -> hi <= p_max Pa -> 0 <= lo -> (lo <= 0 <= hi \/ no_reaction N Pa) ->
  List.Forall (fun i => good_input N Pa CO CW CP i /\ inputs_within N Pa lo hi (i_bc i) (i_0j i) (i_0I i)) is ->
  within N lo hi (ob_c o0) -> (forall j, (j < M)%nat -> c0 j = 0) ->
  track (List.map (fun i => (i, 0)) is) (o0, fresh_kf c0) (o, k) -> is <> nil ->
  forall j, (j < M)%nat -> k_x k j = c_j (ob_c o) j.
Proof.
  intros HW HE Hcl H1 H2 H3 HR HF HB H0 HT.
  assert (GEN : forall s s', track (List.map (fun i => (i, 0)) is) s s' -> good_kf N (snd s) -> settled N (snd s) ->
    within N lo hi (ob_c (fst s)) -> obj_clean N Pa CO CW CP (fst s) -> is <> nil ->
    forall j, (j < M)%nat -> k_x (snd s') j = c_j (ob_c (fst s')) j).
  { clear HT HB Hcl o0 c0 H0 o k. induction HF as [|i rest [Hi HI] HF IH]; intros s s' HT HG HS HB Hcl Ne; [congruence|].
    cbn [List.map] in HT. inversion HT as [|im r0 s0 s1 s2 HT1 HT2]; subst. cbn [fst snd] in HT1.
    destruct s as [o k], s1 as [o1 k1]. cbn [fst snd] in *.
    destruct (track_step i o k o1 k1 lo hi HW HE Hi Hcl H1 H2 H3 HR HI HB HG HS HT1) as (B1 & C1 & G1 & S1 & X1).
    destruct rest as [|i' rest'].
    - cbn [List.map] in HT2. inversion HT2; subst. exact X1.
    - apply (IH _ _ HT2); auto. discriminate. }
  intros Ne. apply (GEN _ _ HT); auto; [apply fresh_good|]. intros j Hj. cbn. symmetry. apply H0, Hj.
Qed.

(** At a junction of constant prescribed concentration whose stored volume is at least the time step (in the model's
    units), the estimate of a model that starts at that concentration stays 0 for ever when there is no process noise. *)
Theorem C63_tracking_boundary_refuted ims o0 c0 o k j c :
  sp = 0 -> q_ends_in N CO CW CP -> obj_clean N Pa CO CW CP o0 -> (j < M)%nat -> p_bc Pa j = true ->
  0 <= c -> p_min Pa <= c <= p_max Pa -> c0 j = c ->
  List.Forall (fun im => i_bc (fst im) j = c /\ 0 < i_dt (fst im) <= f_V (i_F (fst im)) j) ims ->
  track ims (o0, fresh_kf c0) (o, k) ->
  k_x k j = 0 /\ (ims <> nil -> c_j (ob_c o) j = c).
Proof.
  intros Hsp HE Hcl Hj Hb Hc Hlim H0 HF HT.
  assert (GEN : forall s s', track ims s s' -> (forall a b, k_P (snd s) a b = 0) -> k_x (snd s) j = 0 -> k_prev (snd s) j = c ->
    obj_clean N Pa CO CW CP (fst s) -> k_x (snd s') j = 0 /\ (ims <> nil -> c_j (ob_c (fst s')) j = c)).
  { clear HT Hcl o0 c0 H0 o k. induction HF as [|im rest [Hi [Hdt HV]] HF IH]; intros s s' HT HZ HX HP Hcl.
    - inversion HT; subst. split; [exact HX|congruence].
    - inversion HT as [|im0 r0 s0 s1 s2 HT1 HT2]; subst im0 r0 s0 s2.
      destruct s as [o k], s1 as [o1 k1]. cbn [fst snd] in *.
      inversion HT1 as [oa ka ob kb Hst HFl E1 E2]; subst oa ka ob kb.
      pose proof (step_clean _ _ _ _ _ _ _ _ Hcl Hst) as Hcl1.
      unfold filter_WQ1 in HFl. destruct Hst as [u sol Hu HL]. cbn [q_complete ob_w ww_s ob_c] in *.
      destruct (kf_call inv N CO CW CP p sp sm false _ (i_dt (fst im)) (f_V (i_F (fst im))) (su_s u) k) as [r|] eqn:E; [|discriminate].
      cbn [bind] in HFl. injection HFl as <-.
      destruct (zero_call _ _ _ _ _ _ _ HZ E) as (pred & EQ & EX & EP & _).
      destruct (boundary_row N Pa CO CW CP (fst im) o u j pred Hcl HE Hu Hj Hb) as [RB BB].
      destruct (boundary_row N Pa CO CW CP (fst im) o u j sol Hcl HE Hu Hj Hb) as [RS _].
      pose proof (HL j Hj) as RL. rewrite RS, BB, Hi in RL. pose proof (EQ j Hj) as EJ. rewrite RB, BB, HX, HP, Hi in EJ.
      assert (CJ : c_j (q_finish N Pa u (ob_c o) sol) j = c).
      { unfold q_finish. destruct (q_solve_internals _ _ _ _ _ _ _). cbn [c_j]. rewrite RL. apply clip_id, Hlim. }
      assert (K0 : kf_x r j = 0).
      { rewrite EX, no_noise by exact Hsp. unfold Rdiv at 1. rewrite !Rmult_0_l, Rplus_0_r. apply Rmax_left. rewrite EJ.
        assert (1 <= f_V (i_F (fst im)) j / i_dt (fst im)).
        { apply (Rmult_le_reg_r (i_dt (fst im))); [exact Hdt|]. unfold Rdiv. rewrite Rmult_assoc, Rinv_l by lra. lra. }
        assert (0 <= (f_V (i_F (fst im)) j / i_dt (fst im) - 1) * c) by (apply Rmult_le_pos; lra). lra. }
      destruct (IH _ _ HT2) as [X1 X2]; cbn [fst snd k_P k_x k_prev]; auto.
      { intros a b. rewrite EP, !no_noise by exact Hsp. unfold Rdiv. ring. }
      split; [exact X1|]. intros _. destruct rest as [|im' rest']; [|apply X2; discriminate].
      inversion HT2; subst. exact CJ. }
  apply (GEN _ _ HT); auto.
Qed.

(** The transition matrix of [KF_Multi_WQ] does not keep a prescribed concentration: a deviation of the start is
    multiplied by the stored volume over the time step. *)
Theorem C63_transition_boundary_refuted i o u k A B x j :
  obj_clean N Pa CO CW CP o -> q_ends_in N CO CW CP -> i_dt i <> 0 -> q_prepare N Pa CO CW CP i o = Some u ->
  KF_Multi_WQ inv N CO CW CP (i_dt i) (f_V (i_F i)) (su_s u) k = Some (A, B) -> (j < M)%nat -> p_bc Pa j = true ->
  mvec M A x j + B j = i_bc i j + f_V (i_F i) j / i_dt i * (x j - k_prev k j).
Proof.
  clear Hp p. intros Hcl HE Hdt Hu HM Hj Hb. pose proof (multi_spec inv inv_ok N CO CW CP i u k A B x Hdt HM j Hj) as E.
  destruct (boundary_row N Pa CO CW CP i o u j (fun l => mvec M A x l + B l) Hcl HE Hu Hj Hb) as [RB BB].
  rewrite RB, BB in E. exact E.
Qed.
End Cases.

(** ** Examples: the network of [P_QualityCases], with inversion by elimination *)

Lemma within_agree N lo hi c c' : agree N c c' -> within N lo hi c' -> within N lo hi c.
Proof.
  intros [A1 A2 A3] [B1 B2 B3 B4 B5]. constructor.
  - intros j Hj. rewrite A1; auto.
  - intros k j Hk Hj. specialize (A3 k j Hk Hj). unfold junctions_of in A3. rewrite A3. auto.
  - intros k j Hk Hj. specialize (A2 k (S j) Hk ltac:(lia)). unfold pieces_of in A2. rewrite !along_mid in A2 by lia. rewrite A2. auto.
  - intros k Hk. specialize (A2 k 0%nat Hk ltac:(lia)). unfold pieces_of in A2. rewrite !along_0 in A2. rewrite A2. auto.
  - intros k Hk. specialize (A2 k (S (n_nk N k)) Hk ltac:(lia)). unfold pieces_of in A2. rewrite !along_end in A2. rewrite A2. auto.
Qed.
Lemma one_good (Q : wq_in -> Prop) (im : wq_in * observation) : Q (fst im) -> List.Forall (fun im => Q (fst im)) (cons im nil).
Proof. intros H. constructor; [exact H|constructor]. Qed.
Lemma cycle_solution inv N P CO CW CP p sp sm i m o k o' k' : kf_cycle inv N P CO CW CP p sp sm i m (o, k) (o', k') ->
  exists u sol, q_prepare N P CO CW CP i o = Some u /\ solves (n_M N) (q_matrix CO CW CP (su_s u)) (s_b (su_s u)) sol.
Proof. intros H. inversion H; subst. eexists _, _. split; [eassumption|]. intros j Hj. unfold row_holds. auto. Qed.
Lemma clean_water lo hi N : lo <= 0 <= hi -> within N lo hi zero_state.
Proof. intros H. constructor; intros; exact H. Qed.

(** Clean water; inflow and a prescribed concentration of 10; decay; standard deviations 1 and 2.  Any measurements may
    be assimilated, correlated or not.  After a first measurement that agrees with the model, a second assimilation of
    an agreeing measurement leaves all concentrations as the step computed them. *)
Example C63_example_agreeing :
  let P := wq_par_ex (1/100) 1 (fun j => Nat.eqb j 2) in
  let i := wq_in_ex 10 in
  let cyc := kf_cycle gauss_inv rest_net P wq_ori wq_weir wq_pump 0 1 2 in
  (forall zs, exists o k, kf_cycles gauss_inv rest_net P wq_ori wq_weir wq_pump 0 1 2
     (List.map (fun z => (i, z)) zs) (wq_fresh zero_state, fresh_kf zeros) (o, k)) /\
  exists m1 m2 o k o2 k2 o3, cyc i m1 (wq_fresh zero_state, fresh_kf zeros) (o, k) /\ cyc i m2 (o, k) (o2, k2) /\
    q_step rest_net P wq_ori wq_weir wq_pump i o o3 /\ agree rest_net (ob_c o2) (ob_c o3).
Proof.
  intros P i cyc. pose proof (proj1 rest_net_ok) as HW.
  assert (Gd : good_input rest_net P wq_ori wq_weir wq_pump i) by (apply wq_good; lra).
  assert (Def : forall zs s, good_kf rest_net (snd s) -> obj_clean rest_net P wq_ori wq_weir wq_pump (fst s) ->
     exists s', cyc i zs s s').
  { intros z [o k] HG Hcl. cbn [fst snd] in *. destruct (setup_defined rest_net P wq_ori wq_weir wq_pump i o HW wq_covered Gd) as [u Hu].
    destruct (call_exists gauss_inv rest_net P wq_ori wq_weir wq_pump 0 1 2 ltac:(cbn; lia) i o u k (ob_corr z) (ob_z z)
      gauss_inv_complete HW wq_ends Gd Hcl ltac:(lra) HG Hu) as [[sol HS] [r Hr]].
    eexists. apply (kf_cycle_intro _ _ _ _ _ _ _ _ _ i z o k u sol); [exact Hu|exact HS|].
    unfold filter_WQ2. rewrite Hr. cbn [bind]. reflexivity. }
  split.
  { intros zs. apply C63_assimilation_defined.
    - exact gauss_inv_ok.
    - cbn; lia.
    - exact gauss_inv_complete.
    - exact HW.
    - apply wq_covered.
    - apply wq_ends.
    - apply fresh_clean_obj.
    - lra.
    - apply List.Forall_forall. intros im Him. apply List.in_map_iff in Him. destruct Him as (z & <- & _). exact Gd. }
  assert (S0 : settled rest_net (fresh_kf zeros)) by (intros j Hj; reflexivity).
  pose proof (fresh_clean_obj rest_net P wq_ori wq_weir wq_pump zero_state) as C0.
  destruct (step_exists rest_net P wq_ori wq_weir wq_pump i (wq_fresh zero_state) HW wq_covered wq_ends Gd C0) as [o1 H1].
  assert (Hin : inputs_within rest_net P 0 10 (i_bc i) (i_0j i) (i_0I i)) by (apply wq_inputs; lra).
  destruct (step_main rest_net P wq_ori wq_weir wq_pump i (wq_fresh zero_state) o1 0 10 HW wq_ends Gd C0 H1
    ltac:(cbn; lra) ltac:(cbn; lra) ltac:(left; lra) Hin (clean_water 0 10 rest_net ltac:(lra))) as [T1 B1].
  destruct (Def (mkObs (c_j (ob_c o1) 0%nat) true) (wq_fresh zero_state, fresh_kf zeros) (fresh_good rest_net zeros) C0) as [[o k] Hc1].
  destruct (agreeing gauss_inv gauss_inv_ok rest_net P wq_ori wq_weir wq_pump 0 1 2 ltac:(cbn; lia) _ _ i _ o k o1 HW wq_ends C0 Gd
    ltac:(cbn; lra) (fresh_good rest_net zeros) S0 Hc1 H1 T1 eq_refl) as [A1 _].
  pose proof (within_agree _ _ _ _ _ A1 B1) as B1'.
  destruct (cycle_keeps gauss_inv gauss_inv_ok rest_net P wq_ori wq_weir wq_pump 0 1 2 ltac:(cbn; lia) _ _ _ _ Hc1 (fresh_good rest_net zeros))
    as (G1 & S1 & _ & K1 & _). cbn [fst snd] in *. specialize (K1 C0).
  destruct (step_exists rest_net P wq_ori wq_weir wq_pump i o HW wq_covered wq_ends Gd K1) as [o3 H3].
  destruct (step_main rest_net P wq_ori wq_weir wq_pump i o o3 0 10 HW wq_ends Gd K1 H3
    ltac:(cbn; lra) ltac:(cbn; lra) ltac:(left; lra) Hin B1') as [T3 _].
  destruct (Def (mkObs (c_j (ob_c o3) 0%nat) false) (o, k) G1 K1) as [[o2 k2] Hc2].
  exists (mkObs (c_j (ob_c o1) 0%nat) true), (mkObs (c_j (ob_c o3) 0%nat) false), o, k, o2, k2, o3.
  split; [exact Hc1|]. split; [exact Hc2|]. split; [exact H3|].
  refine (proj1 (C63_agreeing_measurement_changes_nothing gauss_inv gauss_inv_ok rest_net P wq_ori wq_weir wq_pump 0 1 2 ltac:(cbn; lia)
    (i, mkObs (c_j (ob_c o1) 0%nat) true) nil (wq_fresh zero_state) zeros o k i _ o2 k2 o3 HW wq_ends C0 Gd ltac:(cbn; lra) _ Hc2 H3 T3 eq_refl)).
  econstructor; [exact Hc1|constructor].
Qed.

(** Water of concentration 10 everywhere: the first assimilation of the (correct) value 10 spoils it. *)
Example C63_example_first :
  let P := wq_par_ex 0 1 (fun _ => false) in
  let i := wq_in_ex 10 in
  exists o k, kf_cycle gauss_inv rest_net P wq_ori wq_weir wq_pump 0 0 2 i (mkObs 10 false)
      (wq_fresh (constant_state 10), fresh_kf (fun _ => 10)) (o, k) /\
    (forall o1, q_step rest_net P wq_ori wq_weir wq_pump i (wq_fresh (constant_state 10)) o1 -> within rest_net 10 10 (ob_c o1)) /\
    ~ (forall j, (j < 3)%nat -> c_j (ob_c o) j = 10).
Proof.
  intros P i. pose proof (proj1 rest_net_ok) as HW.
  assert (Gd : good_input rest_net P wq_ori wq_weir wq_pump i) by (apply wq_good; lra).
  pose proof (fresh_clean_obj rest_net P wq_ori wq_weir wq_pump (constant_state 10)) as C0.
  assert (Hin : inputs_within rest_net P 10 10 (i_bc i) (i_0j i) (i_0I i)) by (apply wq_inputs; lra).
  assert (B0 : within rest_net 10 10 (constant_state 10)) by (constructor; intros; cbn; lra).
  assert (NR : no_reaction rest_net P) by (constructor; intros; reflexivity).
  destruct (C63_assimilation_defined gauss_inv gauss_inv_ok rest_net P wq_ori wq_weir wq_pump 0 0 2 ltac:(cbn; lia)
    (cons (i, mkObs 10 false) nil) (wq_fresh (constant_state 10)) (fun _ => 10) gauss_inv_complete HW wq_covered wq_ends C0 ltac:(lra)
    (one_good (good_input rest_net P wq_ori wq_weir wq_pump) (i, _) Gd)) as (o & k & HC).
  inversion HC as [|im r s s1 s2 HC1 HC2]; subst. inversion HC2; subst. cbn [fst snd] in HC1.
  exists o, k. split; [exact HC1|]. split.
  { intros o1 H1. apply (step_main rest_net P wq_ori wq_weir wq_pump i (wq_fresh (constant_state 10)) o1 10 10 HW wq_ends Gd C0 H1
      ltac:(cbn; lra) ltac:(cbn; lra) ltac:(right; exact NR) Hin B0). }
  destruct (cycle_solution _ _ _ _ _ _ _ _ _ _ _ _ _ _ _ HC1) as (u & sol & Hu & HL).
  pose proof (wq_conserves 0 1 (fun _ => false) 10) as Hcon.
  pose proof Gd as [Hdt Hwet _].
  assert (HL2 : solves 3 (q_matrix wq_ori wq_weir wq_pump (su_s u)) (s_b (su_s u)) (fun _ => 10)).
  { apply (state_solution rest_net P wq_ori wq_weir wq_pump (i_F i) (i_0j i) (i_Q0j i) (i_0I i) (i_Q0I i) (i_dt i) (ob_w (wq_fresh (constant_state 10)))
      HW Hdt wq_ends Hwet Hcon C0 (constant_state 10) (i_bc i) u Hu (constant_state 10)).
    apply C49_constant_solves; [exact Hcon|exact NR|exact Hin|exact B0]. }
  assert (L0 : (0 < n_M rest_net)%nat) by (cbn; lia).
  refine (C63_first_assimilation_refuted gauss_inv gauss_inv_ok rest_net P wq_ori wq_weir wq_pump 0 0 2 L0
    i (mkObs 10 false) (wq_fresh (constant_state 10)) (fun _ => 10) o k u (fun _ : nat => 10) 0%nat eq_refl HC1 Hu HL2 _ Hdt L0 _).
  - intros; lra.
  - cbn. lra.
Qed.

(** Clean water, inflow and prescribed concentration at the upper limit 100, correlated noise: a measurement of 101
    takes the prescribed concentration above 100. *)
Example C63_example_limits :
  let P := wq_par_ex (1/100) 1 (fun j => Nat.eqb j 2) in
  let i := wq_in_ex 100 in
  exists o k, kf_cycle gauss_inv rest_net P wq_ori wq_weir wq_pump 0 1 2 i (mkObs 101 true) (wq_fresh zero_state, fresh_kf zeros) (o, k) /\
    i_bc i 2%nat = 100 /\ p_max P = 100 /\ 100 < c_j (ob_c o) 2%nat.
Proof.
  intros P i. pose proof (proj1 rest_net_ok) as HW.
  assert (Gd : good_input rest_net P wq_ori wq_weir wq_pump i) by (apply wq_good; lra).
  pose proof (fresh_clean_obj rest_net P wq_ori wq_weir wq_pump zero_state) as C0.
  assert (Hin : inputs_within rest_net P 0 100 (i_bc i) (i_0j i) (i_0I i)) by (apply wq_inputs; lra).
  destruct (C63_assimilation_defined gauss_inv gauss_inv_ok rest_net P wq_ori wq_weir wq_pump 0 1 2 ltac:(cbn; lia)
    (cons (i, mkObs 101 true) nil) (wq_fresh zero_state) zeros gauss_inv_complete HW wq_covered wq_ends C0 ltac:(lra)
    (one_good (good_input rest_net P wq_ori wq_weir wq_pump) (i, _) Gd)) as (o & k & HC).
  inversion HC as [|im r s s1 s2 HC1 HC2]; subst. inversion HC2; subst. cbn [fst snd] in HC1.
  exists o, k. split; [exact HC1|]. split; [reflexivity|]. split; [reflexivity|].
  destruct (cycle_solution _ _ _ _ _ _ _ _ _ _ _ _ _ _ _ HC1) as (u & sol & Hu & HL). pose proof Gd as [Hdt Hwet Hcon].
  destruct (solution_state rest_net P wq_ori wq_weir wq_pump (i_F i) (i_0j i) (i_Q0j i) (i_0I i) (i_Q0I i) (i_dt i) (ob_w (wq_fresh zero_state))
      HW Hdt wq_ends Hwet Hcon C0 zero_state (i_bc i) u Hu sol HL) as (cs & T & Ej).
  assert (B : within rest_net 0 100 cs).
  { apply (network_bounds rest_net P wq_ori wq_weir wq_pump (i_F i) zero_state (i_bc i) (i_0j i) (i_Q0j i) (i_0I i) (i_Q0I i) (i_dt i)
      Hdt wq_ends Hwet Hcon); auto; [apply clean_water; lra|left; lra]. }
  pose proof (wi_j _ _ _ _ B 0%nat ltac:(cbn; lia)) as B0. rewrite Ej in B0.
  apply (C63_limits_and_boundaries_refuted gauss_inv gauss_inv_ok rest_net P wq_ori wq_weir wq_pump 0 1 2 ltac:(cbn; lia)
    i (mkObs 101 true) (wq_fresh zero_state) zeros o k u sol 2%nat); auto; try (cbn; lia); try reflexivity; cbn; try lra.
  apply wq_ends.
Qed.

(** Tracking.  From clean water with exact measurements the estimate follows the model; in water of concentration 10
    with that concentration prescribed at junction 2, where 12 m3 are stored and the step is 4 s, the estimate there
    stays 0. *)
Example C63_example_tracking :
  let P := wq_par_ex 0 1 (fun j => Nat.eqb j 2) in
  let i := wq_in_ex 10 in
  let run c0 n := track_cycles gauss_inv rest_net P wq_ori wq_weir wq_pump 0 0 2 (List.repeat (i, 0) n) c0 in
  (forall n, exists o k, run (wq_fresh zero_state, fresh_kf zeros) (S n) (o, k) /\ forall j, (j < 3)%nat -> k_x k j = c_j (ob_c o) j) /\
  (forall n, exists o k, run (wq_fresh (constant_state 10), fresh_kf (fun _ => 10)) (S n) (o, k) /\
     k_x k 2%nat = 0 /\ c_j (ob_c o) 2%nat = 10).
Proof.
  intros P i run. pose proof (proj1 rest_net_ok) as HW.
  assert (Gd : good_input rest_net P wq_ori wq_weir wq_pump i) by (apply wq_good; lra).
  assert (FG : forall n, List.Forall (fun im => good_input rest_net P wq_ori wq_weir wq_pump (fst im)) (List.repeat (i, 0) n)).
  { intros n. apply List.Forall_forall. intros im Him. apply List.repeat_spec in Him. subst im. exact Gd. }
  assert (ER : forall n, List.repeat (i, 0) n = List.map (fun i => (i, 0)) (List.repeat i n))
    by (induction n; cbn; congruence).
  split; intros n.
  - destruct (C63_tracking_defined gauss_inv gauss_inv_ok rest_net P wq_ori wq_weir wq_pump 0 0 2 ltac:(cbn; lia)
      (List.repeat (i, 0) (S n)) (wq_fresh zero_state) zeros gauss_inv_complete HW wq_covered wq_ends (fresh_clean_obj _ _ _ _ _ _) ltac:(lra)
      (FG (S n))) as (o & k & HC).
    exists o, k. split; [exact HC|]. rewrite ER in HC.
    apply (C63_tracking_follows_model gauss_inv gauss_inv_ok rest_net P wq_ori wq_weir wq_pump 0 0 2 ltac:(cbn; lia)
      (List.repeat i (S n)) (wq_fresh zero_state) zeros o k 0 10 HW wq_ends (fresh_clean_obj _ _ _ _ _ _)); auto; try (cbn; lra); try discriminate.
    + apply List.Forall_forall. intros x Hx. apply List.repeat_spec in Hx. subst x. split; [exact Gd|apply wq_inputs; lra].
    + apply clean_water; lra.
  - destruct (C63_tracking_defined gauss_inv gauss_inv_ok rest_net P wq_ori wq_weir wq_pump 0 0 2 ltac:(cbn; lia)
      (List.repeat (i, 0) (S n)) (wq_fresh (constant_state 10)) (fun _ => 10) gauss_inv_complete HW wq_covered wq_ends (fresh_clean_obj _ _ _ _ _ _) ltac:(lra)
      (FG (S n))) as (o & k & HC).
    exists o, k. split; [exact HC|].
    destruct (C63_tracking_boundary_refuted gauss_inv gauss_inv_ok rest_net P wq_ori wq_weir wq_pump 0 0 2 ltac:(cbn; lia)
      (List.repeat (i, 0) (S n)) (wq_fresh (constant_state 10)) (fun _ => 10) o k 2%nat 10) as [X Y]; auto; try (cbn; lra); try (cbn; lia).
    + apply wq_ends.
    + apply fresh_clean_obj.
    + apply List.Forall_forall. intros x Hx. apply List.repeat_spec in Hx. subst x. cbn. lra.
    + split; [exact X|]. apply Y. discriminate.
Qed.

(** The transition matrix exists for the same network; at junction 2 (12 m3, 4 s) a deviation of 1 becomes 3. *)
Example C63_example_transition :
  let P := wq_par_ex (1/100) 1 (fun j => Nat.eqb j 2) in
  let i := wq_in_ex 10 in
  exists u u' A B, q_prepare rest_net P wq_ori wq_weir wq_pump i (wq_fresh zero_state) = Some u /\
    q_prepare rest_net P wq_ori wq_weir wq_pump i (with_cj (wq_fresh zero_state) (fun _ => 1)) = Some u' /\
    KF_Multi_WQ gauss_inv rest_net wq_ori wq_weir wq_pump 4 (f_V wq_flow_ex) (su_s u) (fresh_kf zeros) = Some (A, B) /\
    mvec 3 A (fun _ => 1) 2%nat + B 2%nat = 10 + 3.
Proof.
  intros P i. pose proof (proj1 rest_net_ok) as HW.
  assert (Gd : good_input rest_net P wq_ori wq_weir wq_pump i) by (apply wq_good; lra).
  pose proof (fresh_clean_obj rest_net P wq_ori wq_weir wq_pump zero_state) as C0.
  destruct (setup_defined rest_net P wq_ori wq_weir wq_pump i (wq_fresh zero_state) HW wq_covered Gd) as [u Hu].
  destruct (setup_defined rest_net P wq_ori wq_weir wq_pump i (with_cj (wq_fresh zero_state) (fun _ => 1)) HW wq_covered Gd) as [u' Hu'].
  destruct (call_exists gauss_inv rest_net P wq_ori wq_weir wq_pump 0 1 2 ltac:(cbn; lia) i (wq_fresh zero_state) u (fresh_kf zeros) false 0
      gauss_inv_complete HW wq_ends Gd C0 ltac:(lra) (fresh_good rest_net zeros) Hu) as [_ [r Hr]].
  assert (HM : exists A B, KF_Multi_WQ gauss_inv rest_net wq_ori wq_weir wq_pump 4 (f_V wq_flow_ex) (su_s u) (fresh_kf zeros) = Some (A, B)).
  { unfold kf_call, KF_WQ2 in Hr. unfold KF_Multi_WQ. destruct (gauss_inv (n_M rest_net) _); [|discriminate]. cbn [bind]. eauto. }
  destruct HM as (A & B & HM). exists u, u', A, B. split; [exact Hu|]. split; [exact Hu'|]. split; [exact HM|].
  change 3%nat with (n_M rest_net). rewrite (C63_transition_boundary_refuted gauss_inv gauss_inv_ok rest_net P wq_ori wq_weir wq_pump
    i (wq_fresh zero_state) u (fresh_kf zeros) A B (fun _ => 1) 2%nat C0 wq_ends ltac:(cbn; lra) Hu HM ltac:(cbn; lia) eq_refl).
  cbn. unfold zeros. field.
Qed.
