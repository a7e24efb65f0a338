(** Properties C56 and C64, continued: how the two infiltration classes differ, and what keeps both from recovering. *)
From Verif Require Import Prelude S_Infiltration M_Coeffs M_Numerics M_Infiltration L_Infiltration P_Infiltration
  M_InfiltrationPy L_InfiltrationPy P_InfiltrationPy.

(** Fraction of the ponded depth left after dry steps of sizes [l]. *)
Definition left_after (l : list R) : R := fold_right (fun dt p => (1 - 1 / dt) * p) 1 l.
Lemma left_after_pos l : Forall (fun dt => 1 < dt) l -> 0 < left_after l.
Proof.
  induction 1 as [|dt l H Hl IH]; simpl; [lra|]. apply Rmult_lt_0_compat; auto.
  assert (1 / dt < 1); [|lra]. apply (Rmult_lt_reg_r dt); [lra|]. unfold Rdiv. rewrite Rmult_assoc, Rinv_l; lra.
Qed.

Lemma light_dry run s dt x : soil_ok s -> 1 < dt -> 0 < gd x -> gd x <= Ks s * dt -> gsat x = false ->
  0 <= gtheta_du x <= theta_dmax s ->
  exists y, gstep_with run s dt 0 x = Some y /\ gd y = gd x * (1 - 1 / dt) /\ gsat y = false /\
    gtheta_d y = gtheta_d x /\ gF y = gF x + gd x /\ 0 <= gtheta_du y <= gtheta_du x.
Proof.
  intros Hs Hdt Hd Hk Sx Hu. pose proof Hs as (_ & HK & _). pose proof (dmax_pos s Hs) as Hm.
  assert (HLu : 0 < Lu s).
  { unfold Lu, rootK. assert (0 < sqrt (Ks s * 39.97 * 3600)) by (apply sqrt_lt_R0; nra). nra. }
  assert (Q : 0 < gd x / dt) by (apply Rmult_lt_0_compat; [lra|apply Rinv_0_lt_compat; lra]).
  unfold gstep_with. replace (0 + gd x / dt) with (gd x / dt) by ring. cbv zeta. cbn [gsat]. rewrite Sx.
  destruct (Reqb_spec (gd x / dt) 0) as [Z|_]; [lra|].
  destruct (Rleb_spec (gd x / dt) (Ks s)) as [_|N].
  2: { exfalso. apply N. apply (Rmult_le_reg_r dt); [lra|]. unfold Rdiv. rewrite Rmult_assoc, Rinv_l; lra. }
  cbn [bind]. eexists. split; [reflexivity|].
  unfold compute_ponding_depth, unsaturated_case_2. cbn [gsat gd gF gf gT gtheta_du gtheta_d gQ giter gt].
  replace (gd x / dt * dt) with (gd x) by (field; lra).
  split.
  { replace (gd x * (1 - 1 / dt)) with (gd x + (0 - gd x / dt)) by (field; lra). apply Rmax_left.
    assert (gd x / dt < gd x); [|lra]. apply (Rmult_lt_reg_r dt); [lra|]. unfold Rdiv. rewrite Rmult_assoc, Rinv_l by lra. nra. }
  split; [reflexivity|]. split; [reflexivity|]. split; [reflexivity|].
  assert (0 < gd x / Lu s) by (apply Rmult_lt_0_compat; [lra|apply Rinv_0_lt_compat; lra]).
  unfold clip, Rmin, Rmax. repeat destruct (Rle_dec _ _); lra.
Qed.

Lemma light_dry_spell run s l : soil_ok s -> forall x,
  Forall (fun dt => 1 < dt) l -> Forall (fun dt => gd x <= Ks s * dt) l -> 0 < gd x -> gsat x = false ->
  0 <= gtheta_du x <= theta_dmax s ->
  exists y, ghistory_with run s x (dry l) = Some y /\ gd y = gd x * left_after l /\ gtheta_d y = gtheta_d x /\
    gtheta_du y <= gtheta_du x /\ gF x <= gF y.
Proof.
  intros Hs. induction l as [|dt l IH]; intros x H1 H2 Hd Sx Hu; cbn [dry map ghistory_with].
  - exists x. unfold left_after. simpl. repeat split; lra.
  - inversion H1 as [|? ? A1 A2]; subst. inversion H2 as [|? ? B1 B2]; subst.
    destruct (light_dry run s dt x Hs A1 Hd B1 Sx Hu) as (y & Ey & Dy & Sy & Ty & Fy & Uy).
    rewrite Ey. cbn [bind].
    assert (K : 0 < 1 - 1 / dt < 1).
    { assert (0 < 1 / dt < 1); [|lra]. split; [apply Rmult_lt_0_compat; [lra|apply Rinv_0_lt_compat; lra]|].
      apply (Rmult_lt_reg_r dt); [lra|]. unfold Rdiv. rewrite Rmult_assoc, Rinv_l; lra. }
    assert (P : 0 < gd y <= gd x) by (rewrite Dy; split; nra).
    destruct (IH y A2) as (z & Ez & Dz & Tz & Uz & Fz); try lra; auto.
    { apply Forall_forall. intros d Hin. rewrite Forall_forall in B2. specialize (B2 d Hin). cbv beta in B2. lra. }
    exists z. split; [exact Ez|]. split; [|repeat split; lra].
    rewrite Dz, Dy. change (left_after (dt :: l)) with ((1 - 1 / dt) * left_after l). ring.
Qed.

Lemma compiled_history s l : forall x, ghistory_with run_green_ampt_newton s x l = ghistory s x l.
Proof. induction l as [|[dt i] l IH]; intros x; cbn [ghistory_with ghistory]; [reflexivity|].
  rewrite compiled_step. destruct (gstep s dt i x); cbn [bind]; auto. Qed.

(** C56, refuted for both classes: a film of ponded water on unsaturated soil is never used up by steps longer than a
    second, so the soil never counts as dry and its deficit never recovers, however long the dry spell. *)
Theorem C56_ponded_film_refuted : forall s r l x,
  soil_ok s -> rain_ok r ->
  ghistory s (ginit s) r = Some x \/ py_history s (ginit s) r = Some x ->
  gsat x = false -> 0 < gd x -> Forall (fun dt => 1 < dt /\ gd x <= Ks s * dt) l ->
  exists y, ghistory s x (dry l) = Some y /\ 0 < gd y /\ gtheta_d y = gtheta_d x /\ gtheta_du y <= gtheta_du x /\ gF x <= gF y /\
  exists y', py_history s x (dry l) = Some y' /\ 0 < gd y' /\ gtheta_d y' = gtheta_d x /\ gtheta_du y' <= gtheta_du x /\ gF x <= gF y'.
Proof.
  intros s r l x Hs Hr Hx Sx Hd Hl.
  assert (Hu : 0 <= gtheta_du x <= theta_dmax s).
  { destruct Hx as [E|E]; [apply (history_inv s r Hs Hr _ _ (inv_init s Hs) E)|apply (py_history_inv s r Hs Hr _ _ (pinv_init s Hs) E)]. }
  assert (H1 : Forall (fun dt => 1 < dt) l) by (eapply Forall_impl; [|exact Hl]; simpl; tauto).
  assert (H2 : Forall (fun dt => gd x <= Ks s * dt) l) by (eapply Forall_impl; [|exact Hl]; simpl; tauto).
  pose proof (left_after_pos l H1) as P.
  destruct (light_dry_spell run_green_ampt_newton s l Hs x H1 H2 Hd Sx Hu) as (y & Ey & Dy & Ty & Uy & Fy).
  destruct (light_dry_spell py_newton s l Hs x H1 H2 Hd Sx Hu) as (y' & Ey' & Dy' & Ty' & Uy' & Fy').
  rewrite compiled_history in Ey.
  exists y. split; [exact Ey|]. split; [rewrite Dy; apply Rmult_lt_0_compat; lra|]. do 3 (split; [assumption|]).
  exists y'. split; [exact Ey'|]. split; [rewrite Dy'; apply Rmult_lt_0_compat; lra|]. do 2 (split; [assumption|]). assumption.
Qed.

(** C64, refuted: in a step whose water the soil can conduct, the class without numba leaves saturation and takes all the
    water; the class with numba stays saturated. *)
Theorem C64_saturation_refuted : forall s r dt i x y y',
  soil_ok s -> rain_ok r -> 0 < dt -> 0 <= i -> py_history s (ginit s) r = Some x -> gsat x = true ->
  i * dt + gd x <= Ks s * dt -> py_step s dt i x = Some y -> gstep s dt i x = Some y' ->
  gsat y = false /\ gsat y' = true /\ gF y = gF x + (i * dt + gd x) /\ gf y' * dt <= i * dt + gd x.
Proof.
  intros s r dt i x y y' Hs Hr Hdt Hi Ex Sx Hw Ey Ey'.
  destruct (C56_python_class_releases s r dt i x y Hs Hr Hdt Hi Ex Sx Hw Ey) as (A & B & _).
  pose proof (py_history_inv s r Hs Hr _ _ (pinv_init s Hs) Ex) as Ix.
  assert (Jx : inv s x) by (destruct Ix as (? & ? & ? & J); unfold inv; repeat split; try lra; intros T; specialize (J T); lra).
  destruct (step_facts s dt i x y' Hs Hdt Hi Jx Ey') as (_ & B1 & _ & _ & _ & _ & _ & S). destruct (S Sx) as (S1 & _). auto.
Qed.

(** Both classes, negative cumulative depth: with numba the depth at the end of a ponding step is at least the ponding depth
    (up to the tolerance); without, the step raises or the depth stays negative. *)
Theorem C64_recovering_soil_refuted : forall s r dt i x y',
  soil_ok s -> rain_ok r -> 0 < dt -> 0 <= i -> py_history s (ginit s) r = Some x -> gsat x = false -> gF x < 0 ->
  let ia := i + gd x / dt in
  let Fs := ponding_depth_needed (Ks s) (psi_f s) (gtheta_d x) ia in
  Ks s < ia -> Fs <= gF x + ia * dt -> gstep s dt i x = Some y' ->
  Fs - tolerance < gF y' /\ (py_step s dt i x = None \/ exists y, py_step s dt i x = Some y /\ gF y < 0).
Proof.
  intros s r dt i x y' Hs Hr Hdt Hi Ex Sx HF ia Fs Hia HT Ey'.
  pose proof (py_history_inv s r Hs Hr _ _ (pinv_init s Hs) Ex) as Ix.
  assert (Jx : inv s x) by (destruct Ix as (? & ? & ? & J); unfold inv; repeat split; try lra; intros T; specialize (J T); lra).
  pose proof Hs as (Hp & HK & _ & _). destruct Ix as (I1 & _ & I3 & _).
  assert (Eia : (i * dt + gd x) / dt = ia) by (unfold ia; field; lra).
  split.
  - destruct (step_facts s dt i x y' Hs Hdt Hi Jx Ey') as (_ & _ & _ & NW & _).
    assert (W : 0 < i * dt + gd x).
    { replace (i * dt + gd x) with (ia * dt) by (unfold ia; field; lra). apply Rmult_lt_0_compat; lra. }
    destruct (NW W) as (_ & NO & _). unfold wet_outcome in NO. cbv zeta in NO. rewrite Eia in NO. fold Fs in NO.
    assert (HFs : 0 < Fs).
    { unfold Fs, ponding_depth_needed. apply Rmult_lt_0_compat; [apply Rmult_lt_0_compat; nra|apply Rinv_0_lt_compat; lra]. }
    destruct NO as (_ & _ & N3). destruct N3 as ([V _] & _); auto.
    intros [T|[_ T]]; [congruence|lra].
  - destruct (py_step s dt i x) as [y|] eqn:Ey; [right|left; reflexivity]. exists y. split; [reflexivity|].
    apply (C64_negative_depth_refuted s dt i x y Hs Hdt Hi Sx (proj1 I3) HF Hia HT Ey).
Qed.

(** ** Witnesses *)
Lemma ex_light : exists x, py_step ex_soil 1 (1 / 100000) (ginit ex_soil) = Some x /\ gsat x = false /\ gd x = 0 /\
  gF x = 1 / 100000 /\ gtheta_d x = 3 / 10.
Proof.
  unfold py_step, gstep_with. change (gd (ginit ex_soil)) with 0. replace (1 / 100000 + 0 / 1) with (1 / 100000) by lra.
  cbv zeta. cbn [gsat ginit].
  destruct (Reqb_spec (1 / 100000) 0) as [Z|_]; [lra|].
  change (Ks ex_soil) with (1 / 100000). destruct (Rleb_spec (1 / 100000) (1 / 100000)) as [_|N]; [|lra].
  cbn [bind]. eexists. split; [reflexivity|]. unfold compute_ponding_depth, unsaturated_case_2.
  cbn [gsat gd gF gf gT gtheta_du gtheta_d gQ giter gt]. split; [reflexivity|].
  split; [unfold Rmax; destruct (Rle_dec _ _); lra|]. split; [change (gF (ginit ex_soil)) with 0; lra|]. change (gtheta_d (ginit ex_soil)) with (theta_dmax ex_soil). unfold theta_dmax. simpl. lra.
Qed.
Definition ex_rain_py : list (R * R) := [(1, 1 / 100000); (1, 1)].
Lemma ex_rain_py_ok : rain_ok ex_rain_py.
Proof. repeat constructor; simpl; lra. Qed.
Lemma ln_35 v : 0 < v -> v <= 35 -> ln v < 5.
Proof.
  intros Hv H35. apply exp_lt_inv. rewrite exp_ln by auto.
  assert (E5 : exp 5 = exp (1 / 2) ^ 10).
  { replace 5 with (1/2+1/2+1/2+1/2+1/2+1/2+1/2+1/2+1/2+1/2) by lra. rewrite !exp_plus. ring. }
  rewrite E5. pose proof (exp_ineq1_le (1 / 2)) as X.
  assert (1.5 ^ 10 <= exp (1 / 2) ^ 10) by (apply pow_incr; lra). lra.
Qed.

(** A light shower, then a downpour: the soil saturates (C56, C64 theorems about saturated soil are not vacuous). *)
Example ex_py_saturates : exists x1 x, py_history ex_soil (ginit ex_soil) [(1, 1 / 100000)] = Some x1 /\ 0 < gF x1 /\
  py_step ex_soil 1 1 x1 = Some x /\ py_history ex_soil (ginit ex_soil) ex_rain_py = Some x /\
  gsat x = true /\ 1 / 100000 <= gF x < 3 /\ 0 <= gd x <= 1 /\ 0 < gtheta_d x <= 3 / 10.
Proof.
  destruct ex_light as (x & Ex & Sx & Dx & Fx & Tx).
  assert (H1 : rain_ok [(1, 1 / 100000)]) by (repeat constructor; simpl; lra).
  assert (E1 : py_history ex_soil (ginit ex_soil) [(1, 1 / 100000)] = Some x).
  { unfold py_history. cbn [ghistory_with]. fold py_step. rewrite Ex. reflexivity. }
  destruct (C64_python_class_defined ex_soil _ 1 1 x ex_soil_ok H1 ltac:(lra) ltac:(lra) E1) as [y Ey].
  { left. rewrite Fx, Tx, Dx. simpl. lra. }
  assert (E2 : py_history ex_soil (ginit ex_soil) ex_rain_py = Some y).
  { unfold py_history, ex_rain_py. cbn [ghistory_with]. fold py_step. rewrite Ex. cbn [bind]. rewrite Ey. reflexivity. }
  exists x, y. split; [exact E1|]. split; [lra|]. split; [exact Ey|]. split; [exact E2|].
  pose proof (py_history_inv _ _ ex_soil_ok ex_rain_py_ok _ _ (pinv_init _ ex_soil_ok) E2) as (J1 & _ & J3 & _).
  pose proof (py_history_inv _ _ ex_soil_ok H1 _ _ (pinv_init _ ex_soil_ok) E1) as Ix.
  destruct (py_facts _ 1 1 x y ex_soil_ok ltac:(lra) ltac:(lra) Ix Ey) as (_ & G & _ & W & _).
  destruct (W ltac:(lra)) as [WF WT].
  destruct (C64_python_class_follows_green_ampt ex_soil _ 1 1 x y ex_soil_ok H1 ltac:(lra) ltac:(lra) E1 Ey ltac:(lra)) as (C & _).
  cbv zeta in C. rewrite Fx, Tx, Dx, Sx in C. cbn [Ks psi_f ex_soil] in C.
  destruct C as (rt & [R1 R2] & R3 & R4 & R5).
  { right. unfold ponding_depth_needed. split; [lra|]. simpl. lra. }
  assert (RT : rt < 99 / 100).
  { destruct (Rlt_or_le rt (99 / 100)) as [|N]; auto. exfalso.
    destruct (C64_python_class_follows_green_ampt ex_soil _ 1 1 x y ex_soil_ok H1 ltac:(lra) ltac:(lra) E1 Ey ltac:(lra)) as (C & _).
    pose proof (residual_slope (1 / 100000) (1 / 10) (3 / 10) (1 / 100000) 1 (99 / 100) rt (99 / 100) ltac:(lra) ltac:(lra) ltac:(lra) ltac:(lra) N) as Sl.
    rewrite R2 in Sl.
    assert (V : 0 < ga_residual (1 / 100000) (1 / 10) (3 / 10) (1 / 100000) 1 (99 / 100)).
    { unfold ga_residual. pose proof (ln_35 ((99 / 100 + 1 / 10 * (3 / 10)) / (1 / 100000 + 1 / 10 * (3 / 10))) ltac:(lra) ltac:(lra)). lra. }
    nra. }
  rewrite !Rmin_left in R3 by (unfold tolerance in *; lra).
  split.
  { destruct (gsat y) eqn:Sy; auto. destruct (R5 eq_refl) as [T _]. unfold tolerance in T. lra. }
  split; [unfold tolerance in R3; lra|].
  split; [split; [exact J1|]; rewrite G, Dx; unfold Rmax; destruct (Rle_dec _ _); lra|].
  rewrite WT, Tx. lra.
Qed.

(** A dry step of 10^6 s then releases it without numba, not with numba; the two classes agree on the downpour. *)
Example C64_saturation_example : exists x y y', py_history ex_soil (ginit ex_soil) ex_rain_py = Some x /\
  py_step ex_soil 1000000 0 x = Some y /\ gstep ex_soil 1000000 0 x = Some y' /\ gsat y = false /\ gsat y' = true.
Proof.
  destruct ex_py_saturates as (x1 & x & _ & _ & _ & Ex & Sx & Fx & Dx & Tx).
  assert (Rc : 0 < / gF x <= 100000).
  { split; [apply Rinv_0_lt_compat; lra|]. replace 100000 with (/ (1 / 100000)) by lra. apply Rinv_le_contravar; lra. }
  destruct (C64_python_class_defined ex_soil _ 1000000 0 x ex_soil_ok ex_rain_py_ok ltac:(lra) ltac:(lra) Ex) as [y Ey].
  { left. split; [lra|]. cbn [Ks psi_f ex_soil]. unfold Rdiv at 2.
    assert (Q : 0 <= 1 / 10 * gtheta_d x * / gF x <= 3000) by (split; [apply Rmult_le_pos; lra|];
      apply Rle_trans with (3 / 100 * 100000); [apply Rmult_le_compat; lra|lra]).
    apply Rle_trans with (11 * 3001); [apply Rmult_le_compat; lra|lra]. }
  assert (Ey' : exists y', gstep ex_soil 1000000 0 x = Some y').
  { unfold gstep. cbv zeta. cbn [gsat]. rewrite Sx. unfold saturated_case. cbn [gF gtheta_d].
    destruct (newton_total (gF x) (gF x) 1000000 (Ks ex_soil) (gtheta_d x) (psi_f ex_soil) (0 + gd x / 1000000)) as [F2 ->];
      cbn [Ks psi_f ex_soil]; unfold ga_atol; try lra.
    cbn [bind]. eauto. }
  destruct Ey' as [y' Ey']. exists x, y, y'.
  destruct (C64_saturation_refuted ex_soil _ 1000000 0 x y y' ex_soil_ok ex_rain_py_ok ltac:(lra) ltac:(lra) Ex Sx
     ltac:(simpl; lra) Ey Ey') as (A & B & _). auto.
Qed.
(** The hypotheses of the agreement theorem hold for the downpour. *)
Example C64_agree_example : exists x y y', py_history ex_soil (ginit ex_soil) [(1, 1 / 100000)] = Some x /\ tolerance < gF x /\
  0 < 1 * 1 + gd x /\ py_step ex_soil 1 1 x = Some y /\ gstep ex_soil 1 1 x = Some y'.
Proof.
  destruct ex_light as (x & Ex & Sx & Dx & Fx & Tx).
  destruct ex_py_saturates as (x1 & y & E1 & _ & Ey & _).
  assert (x1 = x).
  { revert E1. unfold py_history. cbn [ghistory_with]. fold py_step. rewrite Ex. cbn [bind]. congruence. }
  subst x1.
  assert (H1 : rain_ok [(1, 1 / 100000)]) by (repeat constructor; simpl; lra).
  destruct (C12_step_never_raises ex_soil [(1, 1 / 100000)] 1 1 x ex_soil_ok H1 ltac:(lra) ltac:(lra)) as [y' Ey'].
  { cbn [ghistory]. rewrite <- compiled_step.
    destruct (C64_python_class_defined ex_soil [] 1 (1 / 100000) (ginit ex_soil) ex_soil_ok ltac:(constructor) ltac:(lra) ltac:(lra) eq_refl) as [z Ez].
    { right. split; [reflexivity|]. simpl. lra. }
    revert Ex. unfold py_step, gstep_with. change (gd (ginit ex_soil)) with 0. replace (1 / 100000 + 0 / 1) with (1 / 100000) by lra.
    cbv zeta. cbn [gsat ginit]. change (Ks ex_soil) with (1 / 100000).
    destruct (Rleb_spec (1 / 100000) (1 / 100000)) as [_|N]; [|lra]. cbn [bind]. intros E; exact E. }
  { rewrite Fx, Dx. lra. }
  exists x, y, y'. split; [exact E1|]. split; [rewrite Fx; unfold tolerance; lra|]. split; [lra|]. auto.
Qed.

(** A steady shower on dry soil with numba: a film of ponded water is left on unsaturated soil. *)
Example C56_film_example : exists x, ghistory ex_soil (ginit ex_soil) [(300, 1 / 10000)] = Some x /\ gsat x = false /\
  0 < gd x /\ Forall (fun dt => 1 < dt /\ gd x <= Ks ex_soil * dt) [300; 3600; 86400].
Proof.
  pose proof ex_soil_ok as Hs. assert (N : rain_ok []) by constructor.
  destruct (C12_step_never_raises ex_soil [] 300 (1 / 10000) (ginit ex_soil) Hs N ltac:(lra) ltac:(lra) eq_refl ltac:(simpl; lra)) as [y Ey].
  assert (E1 : ghistory ex_soil (ginit ex_soil) [(300, 1 / 10000)] = Some y) by (cbn [ghistory]; rewrite Ey; reflexivity).
  exists y. split; [exact E1|].
  pose proof (C55_infiltration_follows_green_ampt ex_soil [] 300 (1 / 10000) (ginit ex_soil) y Hs N ltac:(lra) ltac:(lra)
                eq_refl Ey ltac:(simpl; lra)) as G. cbv zeta in G. destruct G as (_ & _ & G).
  change (gF (ginit ex_soil)) with 0 in G. change (gd (ginit ex_soil)) with 0 in G.
  change (gtheta_d (ginit ex_soil)) with (theta_dmax ex_soil) in G. unfold theta_dmax, ponding_depth_needed in G.
  cbn [Ks psi_f theta_s theta_i ex_soil] in G.
  replace (1 / 100000 * (1 / 10) * (1 / 2 - 1 / 5) / ((1 / 10000 * 300 + 0) / 300 - 1 / 100000)) with (1 / 300) in G by lra.
  destruct G as ([L1 L2] & _ & G2); try lra.
  { intros [H|[_ H]]; [discriminate|lra]. }
  assert (R0 : 1 / 1000 < ga_residual (1 / 100000) (1 / 10) (1 / 2 - 1 / 5) (1 / 300) (300 - (1 / 300 - 0) / ((1 / 10000 * 300 + 0) / 300)) (0 + (1 / 10000 * 300 + 0))).
  { unfold ga_residual.
    replace ((0 + (1 / 10000 * 300 + 0) + 1 / 10 * (1 / 2 - 1 / 5)) / (1 / 300 + 1 / 10 * (1 / 2 - 1 / 5))) with (9 / 5) by lra.
    assert (ln (9 / 5) < 65 / 100).
    { apply exp_lt_inv. rewrite exp_ln by lra. pose proof (exp_ineq1_le (65 / 400)) as X.
      replace (exp (65 / 100)) with (exp (65 / 400) ^ 4) by (replace (65 / 100) with (65 / 400 + 65 / 400 + 65 / 400 + 65 / 400) by lra; rewrite !exp_plus; ring).
      assert ((1 + 65 / 400) ^ 4 <= exp (65 / 400) ^ 4) by (apply pow_incr; lra). lra. }
    lra. }
  specialize (G2 ltac:(lra)).
  destruct (step_facts ex_soil 300 (1 / 10000) _ y Hs ltac:(lra) ltac:(lra) (inv_init _ Hs) Ey) as (_ & B1 & B2 & B3 & _ & B5 & _).
  destruct (B3 ltac:(simpl; lra)) as (B4 & _). change (gF (ginit ex_soil)) with 0 in B4. change (gd (ginit ex_soil)) with 0 in B1, B5.
  assert (Ne : gF y <> 0 + (1 / 10000 * 300 + 0)).
  { intros E. rewrite E in G2. rewrite Rabs_right in G2 by lra. unfold tolerance in G2. lra. }
  unfold ga_atol in B2.
  assert (D : 0 < gd y <= 2 / 10000) by (rewrite B5; unfold Rmax; destruct (Rle_dec _ _); lra).
  split.
  { clear - Ey. revert Ey. unfold gstep. change (gd (ginit ex_soil)) with 0. replace (1 / 10000 + 0 / 300) with (1 / 10000) by lra.
    cbv zeta. cbn [gsat ginit]. destruct (Reqb_spec (1 / 10000) 0) as [Z|_]; [lra|].
    change (Ks ex_soil) with (1 / 100000). destruct (Rleb_spec (1 / 10000) (1 / 100000)) as [Z|_]; [lra|].
    unfold unsaturated_case_3. cbn [gF gtheta_d gd gT gQ giter gt gtheta_du gf gsat]. cbv zeta.
    change (gF (ginit ex_soil)) with 0. change (gtheta_d (ginit ex_soil)) with (1 / 2 - 1 / 5).
    cbn [Ks psi_f ex_soil].
    destruct (Rleb_spec (1 / 100000 * (1 / 10) * (1 / 2 - 1 / 5) / (1 / 10000 - 1 / 100000)) 0) as [Z|_]; [lra|].
    cbn [negb]. rewrite Bool.andb_true_r.
    match goal with |- context [Rltb ?u ?v] => destruct (Rltb_spec u v) as [Z|_] end; [lra|].
    match goal with |- bind (bind ?o _) _ = _ -> _ => destruct o as [F2|] end; cbn [bind]; [|discriminate].
    intros E; injection E as <-. reflexivity. }
  split; [lra|]. cbn [Ks ex_soil]. repeat constructor; lra.
Qed.

Lemma ex_root : 1.1 < rootK ex_soil < 1.2.
Proof.
  unfold rootK. cbn [Ks ex_soil].
  assert (S : sqrt (1 / 100000 * 39.97 * 3600) * sqrt (1 / 100000 * 39.97 * 3600) = 1 / 100000 * 39.97 * 3600) by (apply sqrt_sqrt; lra).
  assert (P : 0 <= sqrt (1 / 100000 * 39.97 * 3600)) by apply sqrt_pos.
  split.
  - destruct (Rlt_or_le 1.1 (sqrt (1 / 100000 * 39.97 * 3600))) as [|H]; auto. nra.
  - destruct (Rlt_or_le (sqrt (1 / 100000 * 39.97 * 3600)) 1.2) as [|H]; auto. nra.
Qed.
(** A light storm and a quarter of an hour without rain: the cumulative depth is negative; the hypotheses of the
    negative-depth theorem then hold for a downpour. *)
Example C64_negative_depth_example : exists x y', py_history ex_soil (ginit ex_soil) [(1, 2 / 100000); (1000, 0)] = Some x /\
  gsat x = false /\ gF x < 0 /\ Ks ex_soil < 1 + gd x / 1 /\
  ponding_depth_needed (Ks ex_soil) (psi_f ex_soil) (gtheta_d x) (1 + gd x / 1) <= gF x + (1 + gd x / 1) * 1 /\
  gstep ex_soil 1 1 x = Some y'.
Proof.
  pose proof ex_root as HR.
  assert (E1 : exists x1, py_step ex_soil 1 (2 / 100000) (ginit ex_soil) = Some x1 /\ gsat x1 = false /\ gd x1 = 0 /\ gF x1 = 2 / 100000 /\
                gT x1 = Tr ex_soil /\ gtheta_d x1 = 3 / 10).
  { unfold py_step, gstep_with. change (gd (ginit ex_soil)) with 0. replace (2 / 100000 + 0 / 1) with (2 / 100000) by lra.
    cbv zeta. cbn [gsat ginit]. destruct (Reqb_spec (2 / 100000) 0) as [Z|_]; [lra|].
    change (Ks ex_soil) with (1 / 100000). destruct (Rleb_spec (2 / 100000) (1 / 100000)) as [Z|_]; [lra|].
    unfold unsaturated_case_3_with. cbn [gF gtheta_d gd gT gQ giter gt gtheta_du gf gsat]. cbv zeta.
    change (gF (ginit ex_soil)) with 0. change (gtheta_d (ginit ex_soil)) with (1 / 2 - 1 / 5).
    cbn [Ks psi_f ex_soil].
    destruct (Rleb_spec (1 / 100000 * (1 / 10) * (1 / 2 - 1 / 5) / (2 / 100000 - 1 / 100000)) 0) as [Z|_]; [lra|].
    cbn [negb]. rewrite Bool.andb_true_r.
    destruct (Rltb_spec (0 + 2 / 100000 * 1) (1 / 100000 * (1 / 10) * (1 / 2 - 1 / 5) / (2 / 100000 - 1 / 100000))) as [_|Z]; [|exfalso; lra].
    cbn [bind]. eexists. split; [reflexivity|]. unfold compute_ponding_depth. cbn [gsat gd gF gf gT gtheta_du gtheta_d gQ giter gt].
    split; [reflexivity|]. split; [unfold Rmax; destruct (Rle_dec _ _); lra|]. split; [lra|]. split; [reflexivity|].
    lra. }
  destruct E1 as (x1 & E1 & S1 & D1 & F1 & T1 & Th1).
  assert (E2 : exists x, py_step ex_soil 1000 0 x1 = Some x /\ gsat x = false /\ gd x = 0 /\ - 1 / 100 < gF x < 0 /\ gtheta_d x = 3 / 10).
  { unfold py_step, gstep_with. rewrite D1. replace (0 + 0 / 1000) with 0 by lra. cbv zeta. cbn [gsat]. rewrite S1.
    destruct (Reqb_spec 0 0) as [_|N]; [|lra]. change (Ks ex_soil) with (1 / 100000).
    destruct (Rleb_spec 0 (1 / 100000)) as [_|N]; [|lra]. cbn [bind]. eexists. split; [reflexivity|].
    unfold compute_ponding_depth, unsaturated_case_2, unsaturated_case_1. cbn [gsat gd gF gf gT gtheta_du gtheta_d gQ giter gt].
    assert (0 < gT x1 - 1000).
    { rewrite T1. unfold Tr. assert (1 / 1.2 < / rootK ex_soil).
      { replace (1 / 1.2) with (/ 1.2) by lra. apply Rinv_lt_contravar; [apply Rmult_lt_0_compat; lra|lra]. }
      unfold Rdiv. nra. }
    destruct (Rleb_spec (gT x1 - 1000) 0) as [Z|_]; [lra|].
    split; [reflexivity|]. split; [unfold Rmax; destruct (Rle_dec _ _); lra|]. split; [|lra].
    rewrite F1. unfold kr, Lu, theta_dmax. cbn [theta_s theta_i ex_soil].
    assert (1.21 < rootK ex_soil * rootK ex_soil < 1.44) by (split; nra). nra. }
  destruct E2 as (x & E2 & S2 & D2 & F2 & Th2).
  assert (H1 : rain_ok [(1, 2 / 100000); (1000, 0)]) by (repeat constructor; simpl; lra).
  assert (Ex : py_history ex_soil (ginit ex_soil) [(1, 2 / 100000); (1000, 0)] = Some x).
  { unfold py_history. cbn [ghistory_with]. fold py_step. rewrite E1. cbn [bind]. rewrite E2. reflexivity. }
  assert (Ey : exists y', gstep ex_soil 1 1 x = Some y').
  { unfold gstep. rewrite D2. replace (1 + 0 / 1) with 1 by lra. cbv zeta. cbn [gsat]. rewrite S2.
    destruct (Reqb_spec 1 0) as [Z|_]; [lra|]. change (Ks ex_soil) with (1 / 100000).
    destruct (Rleb_spec 1 (1 / 100000)) as [Z|_]; [lra|].
    unfold unsaturated_case_3. cbn [gF gtheta_d gd gT gQ giter gt gtheta_du gf gsat]. cbv zeta. rewrite Th2.
    cbn [Ks psi_f theta_s theta_i ex_soil].
    set (Fs := 1 / 100000 * (1 / 10) * (3 / 10) / (1 - 1 / 100000)).
    assert (HFs : 0 < Fs < 1 / 10) by (unfold Fs; lra).
    destruct (Rleb_spec Fs (gF x)) as [Z|_]; [lra|]. cbn [negb]. rewrite Bool.andb_true_r.
    destruct (Rltb_spec (gF x + 1 * 1) Fs) as [Z|_]; [lra|].
    destruct (newton_total (gF x) Fs (1 - (Fs - gF x) / 1) (1 / 100000) (3 / 10) (1 / 10) 1) as [r ->]; unfold ga_atol; try lra.
    cbn [bind]. eauto. }
  destruct Ey as [y' Ey']. exists x, y'. split; [exact Ex|]. split; [exact S2|]. split; [lra|]. rewrite D2, Th2.
  unfold ponding_depth_needed. cbn [Ks psi_f ex_soil]. split; [lra|]. split; [lra|exact Ey'].
Qed.

(** Soil that has just become saturated, with less ponding than it conducts in a second: the recovery theorem applies. *)
Example C56_recovers_example : exists x y l, py_history ex_soil (ginit ex_soil) [(3000, 1 / 100000); (1, 25 / 1000000)] = Some x /\
  gsat x = true /\ Forall (fun dt => 0 < dt) l /\ py_history ex_soil x (dry (1 :: l)) = Some y /\ gsat y = false /\ gtheta_d y = 3 / 10.
Proof.
  assert (E1 : exists x1, py_step ex_soil 3000 (1 / 100000) (ginit ex_soil) = Some x1 /\ gsat x1 = false /\ gd x1 = 0 /\ gF x1 = 3 / 100 /\
                gtheta_d x1 = 3 / 10).
  { unfold py_step, gstep_with. change (gd (ginit ex_soil)) with 0. replace (1 / 100000 + 0 / 3000) with (1 / 100000) by lra.
    cbv zeta. cbn [gsat ginit]. destruct (Reqb_spec (1 / 100000) 0) as [Z|_]; [lra|].
    change (Ks ex_soil) with (1 / 100000). destruct (Rleb_spec (1 / 100000) (1 / 100000)) as [_|N]; [|lra].
    cbn [bind]. eexists. split; [reflexivity|]. unfold compute_ponding_depth, unsaturated_case_2.
    cbn [gsat gd gF gf gT gtheta_du gtheta_d gQ giter gt]. split; [reflexivity|].
    split; [unfold Rmax; destruct (Rle_dec _ _); lra|]. split; [change (gF (ginit ex_soil)) with 0; lra|].
    change (gtheta_d (ginit ex_soil)) with (theta_dmax ex_soil). unfold theta_dmax. simpl. lra. }
  destruct E1 as (x & Ex & Sx & Dx & Fx & Tx).
  assert (H1 : rain_ok [(3000, 1 / 100000)]) by (repeat constructor; simpl; lra).
  assert (E1 : py_history ex_soil (ginit ex_soil) [(3000, 1 / 100000)] = Some x).
  { unfold py_history. cbn [ghistory_with]. fold py_step. rewrite Ex. reflexivity. }
  destruct (C64_python_class_defined ex_soil _ 1 (25 / 1000000) x ex_soil_ok H1 ltac:(lra) ltac:(lra) E1) as [y Ey].
  { left. rewrite Fx, Tx, Dx. simpl. lra. }
  assert (H2 : rain_ok [(3000, 1 / 100000); (1, 25 / 1000000)]) by (repeat constructor; simpl; lra).
  assert (E2 : py_history ex_soil (ginit ex_soil) [(3000, 1 / 100000); (1, 25 / 1000000)] = Some y).
  { unfold py_history. cbn [ghistory_with]. fold py_step. rewrite Ex. cbn [bind]. rewrite Ey. reflexivity. }
  pose proof (py_history_inv _ _ ex_soil_ok H1 _ _ (pinv_init _ ex_soil_ok) E1) as Ix.
  pose proof (py_history_inv _ _ ex_soil_ok H2 _ _ (pinv_init _ ex_soil_ok) E2) as (J1 & _).
  destruct (py_facts _ 1 (25 / 1000000) x y ex_soil_ok ltac:(lra) ltac:(lra) Ix Ey) as (_ & G & _ & W & _).
  destruct (W ltac:(lra)) as [WF WT].
  destruct (C64_python_class_follows_green_ampt ex_soil _ 1 (25 / 1000000) x y ex_soil_ok H1 ltac:(lra) ltac:(lra) E1 Ey ltac:(lra)) as (C & _).
  cbv zeta in C. rewrite Fx, Tx, Dx, Sx in C. cbn [Ks psi_f ex_soil] in C.
  destruct C as (rt & [R1 R2] & R3 & R4 & R5).
  { right. unfold ponding_depth_needed. split; [lra|]. simpl. lra. }
  set (res := ga_residual (1 / 100000) (1 / 10) (3 / 10) (3 / 100) 1) in *.
  assert (LO : res (3 / 100 + 15 / 1000000) < 0).
  { unfold res, ga_residual.
    pose proof (ln_le_sub1 (/ ((3 / 100 + 15 / 1000000 + 1 / 10 * (3 / 10)) / (3 / 100 + 1 / 10 * (3 / 10)))) ltac:(lra)) as L.
    rewrite ln_Rinv in L by lra. lra. }
  assert (HI : 0 < res (3 / 100 + 22 / 1000000)).
  { unfold res, ga_residual.
    pose proof (ln_le_sub1 ((3 / 100 + 22 / 1000000 + 1 / 10 * (3 / 10)) / (3 / 100 + 1 / 10 * (3 / 10))) ltac:(lra)) as L. lra. }
  assert (B : 3 / 100 + 15 / 1000000 <= rt <= 3 / 100 + 22 / 1000000).
  { split; match goal with |- ?u <= ?v => destruct (Rle_or_lt u v) as [|N]; [assumption|exfalso] end.
    - pose proof (residual_slope (1 / 100000) (1 / 10) (3 / 10) (3 / 100) 1 (1 / 100) (3 / 100 + 15 / 1000000) rt
        ltac:(lra) ltac:(lra) ltac:(lra) ltac:(lra) ltac:(lra)) as Sl. fold res in Sl. rewrite R2 in Sl. lra.
    - pose proof (residual_slope (1 / 100000) (1 / 10) (3 / 10) (3 / 100) 1 (1 / 100) rt (3 / 100 + 22 / 1000000)
        ltac:(lra) ltac:(lra) ltac:(lra) ltac:(lra) ltac:(lra)) as Sl. fold res in Sl. rewrite R2 in Sl. lra. }
  rewrite !Rmin_left in R3 by (unfold tolerance in *; lra).
  assert (Sy : gsat y = true).
  { destruct (gsat y) eqn:Sy; auto. destruct (R5 eq_refl) as [T _]. unfold tolerance in T. lra. }
  assert (Dy : gd y <= 1 / 100000).
  { rewrite G, Dx. unfold Rmax; destruct (Rle_dec _ _); lra. }
  pose proof (kr_pos ex_soil ex_soil_ok) as Hk. pose proof ex_root as HR.
  assert (HT : 0 < Tr ex_soil).
  { unfold Tr. apply Rmult_lt_0_compat; [|lra]. apply Rmult_lt_0_compat; [lra|apply Rinv_0_lt_compat; lra]. }
  assert (Hkr : 0 < 1 / kr ex_soil) by (apply Rmult_lt_0_compat; [lra|apply Rinv_0_lt_compat; lra]).
  set (l := [Tr ex_soil; 1 / kr ex_soil]).
  assert (Hl : Forall (fun dt => 0 < dt) l) by (repeat constructor; assumption).
  assert (Et : total l = Tr ex_soil + 1 / kr ex_soil) by (unfold l, total; simpl; lra).
  destruct (C56_python_class_recovers ex_soil _ 1 l y ex_soil_ok H2 ltac:(lra) Hl E2 Sy) as (z & Ez & Sz & _ & _ & Tz).
  { right. simpl. lra. }
  { rewrite WT, Tx. cbn [Ks psi_f ex_soil]. assert (gF y >= 3 / 100) by lra.
    assert (Q : 0 <= 1 / 10 * (3 / 10) / gF y <= 1).
    { split; [apply Rmult_le_pos; [lra|apply Rlt_le, Rinv_0_lt_compat; lra]|].
      apply (Rmult_le_reg_r (gF y)); [lra|]. unfold Rdiv at 1. rewrite Rmult_assoc, Rinv_l; lra. }
    lra. }
  exists y, z, l. split; [exact E2|]. split; [exact Sy|]. split; [exact Hl|]. split; [exact Ez|]. split; [exact Sz|].
  rewrite Tz by lra. simpl. lra.
Qed.
(** An ordinary storm on dry soil: the class without numba raises. *)
Example C64_first_storm_example : py_step ex_soil 300 (1 / 10000) (ginit ex_soil) = None.
Proof.
  apply (C64_first_storm_refuted ex_soil 300 (1 / 10000) ex_soil_ok); try lra; simpl; try lra.
  unfold ponding_depth_needed. simpl. lra.
Qed.
