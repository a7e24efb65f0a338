(** Properties C12-C15, C55, C56: Green-Ampt infiltration. *)
From Verif Require Import Prelude M_Coeffs M_Numerics S_Numerics L_Newton M_Infiltration L_Infiltration S_Infiltration.

Definition soil_ok (s : soil) : Prop := 0 < psi_f s /\ 0 < Ks s /\ theta_i s < theta_s s /\ 0 < A_s s.

(** Invariant of reachable states. *)
Definition inv (s : soil) (x : gstate) : Prop :=
  0 <= gd x /\ 0 <= gtheta_du x <= theta_dmax s /\ 0 < gtheta_d x <= theta_dmax s /\ (gsat x = true -> 0 <= gF x).

Lemma inv_init s : soil_ok s -> inv s (ginit s).
Proof. intros (?&?&?&?). unfold inv, ginit, theta_dmax; simpl. repeat split; try lra; try discriminate. Qed.

Lemma atol_pos : 0 < ga_atol.
Proof. unfold ga_atol. lra. Qed.

Lemma newton_facts x0 F1 tau K th psi ia F2 :
  0 < psi -> 0 < th -> 0 < K -> 0 <= F1 -> 0 <= tau -> 0 <= ia ->
  run_green_ampt_newton x0 F1 tau K th psi ia = Some F2 ->
  0 <= F2 /\ ga_limited K psi th F1 tau (F1 + ia * tau) F2.
Proof.
  intros Hp Hth HK HF Ht Hi. unfold run_green_ampt_newton.
  pose proof (bnewton_bracket (integrated F1 tau K th psi) (derivative th psi) x0 0 (F1 + ia * tau) 50 ga_atol) as B.
  destruct (bounded_newton_raphson _ _ _ _ _ _ _) as [x| | |] eqn:E; try discriminate.
  intros R; inversion R; subst x; clear R.
  assert (HM : 0 <= F1 + ia * tau) by nra.
  unfold between in B. rewrite Rmin_left, Rmax_right in B by auto.
  assert (Ha : 0 < psi * th) by nra.
  set (a := psi * th) in *. set (c := K * tau + F1 - a * ln (F1 + a)).
  change (integrated F1 tau K th psi) with
    (fun F_2 => K * tau + F1 - psi * th * ln (F1 + Rabs psi * th) + psi * th * ln (F_2 + Rabs psi * th) - F_2) in E.
  rewrite (Rabs_right psi) in E by lra. fold a in E. fold c in E.
  change (derivative th psi) with (fun y => a / (a + y) - 1) in E.
  pose proof atol_pos as At.
  assert (FF1 : c + a * ln (F1 + a) - F1 = K * tau) by (unfold c; ring).
  assert (Kt : 0 <= K * tau) by nra.
  assert (Lo : forall y, 0 <= y <= F1 + ia * tau -> c + a * ln (y + a) - y <= 0 -> F1 <= y).
  { intros y Hy Hn. destruct (Rle_or_lt F1 y) as [|H]; auto.
    pose proof (f_decr a c Ha y F1 (proj1 Hy) H) as D. cbv beta in D. lra. }
  split; [lra|]. split.
  { split; [|lra]. eapply (lower_bound a c Ha ga_atol x0 (F1 + ia * tau) F1 50 F2); eauto; nra. }
  assert (ER : forall y, 0 <= y -> ga_residual K psi th F1 tau y = - (c + a * ln (y + a) - y)).
  { intros y Hy. unfold ga_residual. fold a. unfold Rdiv.
    rewrite ln_mult, ln_Rinv by (try apply Rinv_0_lt_compat; lra). unfold c. ring. }
  rewrite !ER by lra. split; intros FM.
  - apply (lower_bound a c Ha ga_atol x0 (F1 + ia * tau) (F1 + ia * tau) 50 F2); auto; try lra.
    intros y Hy Hn. destruct (Rle_or_lt (F1 + ia * tau) y) as [|H]; auto.
    pose proof (f_decr a c Ha y (F1 + ia * tau) (proj1 Hy) H) as D. cbv beta in D. lra.
  - assert (MP : 0 < F1 + ia * tau).
    { destruct HM as [|HM]; auto. exfalso. rewrite <- HM in FM.
      pose proof (f_sign_below a c Ha F1 0 ltac:(lra) HF) as S. cbv beta in S. lra. }
    assert (F0 : 0 < c + a * ln (0 + a) - 0).
    { destruct HF as [HF| <-].
      - pose proof (f_decr a c Ha 0 F1 ltac:(lra) HF) as D. cbv beta in D. lra.
      - rewrite FF1. destruct Ht as [Ht| <-]; [nra|]. exfalso; lra. }
    rewrite Rabs_Ropp. change tolerance with ga_atol.
    apply (solves a c Ha ga_atol x0 (F1 + ia * tau) 50 F2 At MP F0 ltac:(lra) E).
Qed.

Lemma newton_total x0 F1 tau K th psi ia :
  0 < psi -> 0 < th -> 0 < K -> 0 <= F1 -> 0 <= tau -> 0 <= ia -> F1 + ia * tau < 2 ^ 49 * ga_atol ->
  exists F2, run_green_ampt_newton x0 F1 tau K th psi ia = Some F2.
Proof.
  intros Hp Hth HK HF Ht Hi HB. unfold run_green_ampt_newton.
  assert (HM : 0 <= F1 + ia * tau) by nra.
  assert (Ha : 0 < psi * th) by nra.
  set (a := psi * th) in *. set (c := K * tau + F1 - a * ln (F1 + a)).
  change (integrated F1 tau K th psi) with
    (fun F_2 => K * tau + F1 - psi * th * ln (F1 + Rabs psi * th) + psi * th * ln (F_2 + Rabs psi * th) - F_2).
  rewrite (Rabs_right psi) by lra. fold a. fold c.
  change (derivative th psi) with (fun y => a / (a + y) - 1).
  destruct (converges a c Ha ga_atol x0 (F1 + ia * tau) 49) as [x E]; auto using atol_pos; try lia.
  - apply (f_sign_below a c Ha F1 0 ltac:(lra) HF). unfold c. nra.
  - rewrite E. eauto.
Qed.

Lemma clip_range top x : 0 <= top -> 0 <= clip top x <= top.
Proof. intros H; unfold clip, Rmin, Rmax. destruct (Rle_dec x 0); destruct (Rle_dec _ top); lra. Qed.
Lemma dmax_pos s : soil_ok s -> 0 < theta_dmax s.
Proof. intros (?&?&?&?); unfold theta_dmax; lra. Qed.

Ltac sp := repeat match goal with |- _ /\ _ => split | |- _ <= _ <= _ => split | |- _ -> _ => intro end.
(** What a single step does, case by case. *)
Lemma saturated_facts s dt ia x y : soil_ok s -> 0 < dt -> 0 <= ia -> 0 < gtheta_d x -> 0 <= gF x -> gsat x = true ->
  saturated_case s dt ia x = Some y ->
  gF y = gF x + gf y * dt /\ gf y * dt <= ia * dt /\ - ga_atol < gf y * dt /\ 0 <= gF y /\ gsat y = true /\
  gtheta_d y = gtheta_d x /\ gd y = gd x /\ 0 <= gtheta_du y <= theta_dmax s /\
  ga_limited (Ks s) (psi_f s) (gtheta_d x) (gF x) dt (gF x + ia * dt) (gF y).
Proof.
  intros Hs Hdt Hia Hth HF Hsat. pose proof (dmax_pos s Hs) as Hm. destruct Hs as (Hp&HK&_&_). unfold saturated_case.
  destruct (run_green_ampt_newton _ _ _ _ _ _ _) as [F2|] eqn:E; simpl; [|discriminate].
  destruct (newton_facts _ _ _ _ _ _ _ _ Hp Hth HK HF (Rlt_le _ _ Hdt) Hia E) as (N0 & N2).
  pose proof (proj1 N2) as N3. change tolerance with ga_atol in N3.
  destruct (Rltb_spec (ia * dt) (F2 - gF x)) as [C|C]; [lra|].
  intros R; injection R as <-; simpl.
  replace ((F2 - gF x) / dt * dt) with (F2 - gF x) by (field; lra).
  replace (gF x + (F2 - gF x)) with F2 by ring.
  pose proof (clip_range (theta_dmax s) (gtheta_du x - (F2 - gF x) / Lu s)).
  sp; try lra; auto; apply N2.
Qed.

Definition wet_outcome (s : soil) (dt ia : R) (x y : gstate) : Prop :=
  let Fs := ponding_depth_needed (Ks s) (psi_f s) (gtheta_d x) ia in
  let sat := gsat x = true \/ (Ks s < ia /\ Fs <= gF x) in
  (sat -> ga_limited (Ks s) (psi_f s) (gtheta_d x) (gF x) dt (gF x + ia * dt) (gF y) /\ gsat y = true) /\
  (~ sat -> ia <= Ks s \/ gF x + ia * dt < Fs -> gF y = gF x + ia * dt) /\
  (~ sat -> Ks s < ia -> Fs <= gF x + ia * dt ->
     ga_limited (Ks s) (psi_f s) (gtheta_d x) Fs (dt - (Fs - gF x) / ia) (gF x + ia * dt) (gF y)).

Lemma case3_facts s dt ia x y : soil_ok s -> 0 < dt -> Ks s < ia -> 0 < gtheta_d x -> gsat x = false ->
  unsaturated_case_3 s dt ia x = Some y ->
  gF y = gF x + gf y * dt /\ gf y * dt <= ia * dt /\ - ga_atol < gf y * dt /\ (gsat y = true -> 0 <= gF y) /\
  gtheta_d y = gtheta_d x /\ gd y = gd x /\ 0 <= gtheta_du y <= theta_dmax s /\ wet_outcome s dt ia x y.
Proof.
  intros Hs Hdt Hia Hth Hsat. pose proof (dmax_pos s Hs) as Hm. pose proof Hs as (Hp&HK&_&_).
  unfold unsaturated_case_3, wet_outcome, ponding_depth_needed. cbv zeta.
  set (Fs := Ks s * psi_f s * gtheta_d x / (ia - Ks s)).
  pose proof atol_pos as At.
  assert (HFs : 0 < Fs).
  { unfold Fs. apply Rmult_lt_0_compat; [apply Rmult_lt_0_compat; nra|apply Rinv_0_lt_compat; lra]. }
  assert (HFd : 0 < ia * dt) by nra.
  assert (Hia0 : 0 <= ia) by lra.
  destruct (Rleb_spec Fs (gF x)) as [C0|C0].
  - intros E. 
    destruct (saturated_facts s dt ia (set_sat true x) y Hs Hdt ltac:(lra) Hth ltac:(simpl; lra) eq_refl E)
      as (A1 & A2 & A3 & A4 & A5 & A6 & A7 & A8 & A9). simpl in *.
    sp; auto; try lra; try (intros N; exfalso; apply N; right; lra); apply A9.
  - cbn [negb andb]. rewrite Bool.andb_true_r.
    destruct (Rltb_spec (gF x + ia * dt) Fs) as [C1|C1].
    + intros R; injection R as <-; simpl.
      pose proof (clip_range (theta_dmax s) (gtheta_du x - ia * dt / Lu s)).
      sp; try lra; try (rewrite Hsat; discriminate); intros;
        try match goal with H : _ \/ _ |- _ => destruct H as [X|X]; [congruence|exfalso; lra] end; try congruence; exfalso; lra.
    + assert (Et : Fs + ia * (dt - (Fs - gF x) / ia) = gF x + ia * dt) by (field; lra).
      assert (Ht : 0 <= dt - (Fs - gF x) / ia).
      { assert ((Fs - gF x) / ia <= dt); [|lra]. apply Rmult_le_reg_r with ia; [lra|].
        unfold Rdiv; rewrite Rmult_assoc, Rinv_l; lra. }
      destruct (run_green_ampt_newton _ _ _ _ _ _ _) as [F2|] eqn:E; simpl; [|discriminate].
      destruct (newton_facts _ _ _ _ _ _ _ _ Hp Hth HK (Rlt_le _ _ HFs) Ht Hia0 E) as (N0 & N2).
      rewrite Et in N2. pose proof (proj1 N2) as N3. change tolerance with ga_atol in N3.
      intros R; injection R as <-; simpl.
      replace ((F2 - gF x) / dt * dt) with (F2 - gF x) by (field; lra).
      pose proof (clip_range (theta_dmax s) (gtheta_du x - (F2 - gF x) / Lu s)).
      sp; try lra; intros; try apply N2;
        try match goal with H : _ \/ _ |- _ => destruct H as [X|X]; [congruence|exfalso; lra] end.
Qed.

Lemma step_facts s dt i x y : soil_ok s -> 0 < dt -> 0 <= i -> inv s x -> gstep s dt i x = Some y ->
  let ia := (i * dt + gd x) / dt in
  inv s y /\ gf y * dt <= i * dt + gd x /\ - ga_atol < gf y * dt /\
  (0 < i * dt + gd x -> gF y = gF x + gf y * dt /\ wet_outcome s dt ia x y /\ gtheta_d y = gtheta_d x) /\
  gQ y = Rmax (i - gf y) 0 * A_s s /\ gd y = Rmax (gd x + (i - gf y)) 0 /\
  (i * dt + gd x = 0 -> gsat x = false -> gf y = 0) /\
  (gsat x = true -> gsat y = true /\ gtheta_d y = gtheta_d x /\ gF x - ga_atol < gF y).
Proof.
  intros Hs Hdt Hi (I1 & I2 & I3 & I4). pose proof (dmax_pos s Hs) as Hm. pose proof atol_pos as At.
  assert (Eia : (i * dt + gd x) / dt = i + gd x / dt) by (field; lra).
  cbv zeta. rewrite Eia. unfold gstep.
  set (ia := i + gd x / dt) in *.
  assert (Esup : i * dt + gd x = ia * dt) by (unfold ia; field; lra).
  rewrite Esup.
  assert (Hia : 0 <= ia).
  { unfold ia. assert (0 <= gd x / dt) by (apply Rmult_le_pos; [lra|apply Rlt_le, Rinv_0_lt_compat; lra]). lra. }
  cbv zeta. cbn [gsat gd gF gf gT gtheta_du gtheta_d gQ giter gt].
  set (x' := {| gd := gd x; gF := gF x; gf := gf x; gT := gT x - dt; gsat := gsat x; gtheta_du := gtheta_du x;
                gtheta_d := gtheta_d x; gQ := gQ x; giter := giter x; gt := gt x |}).
  unfold compute_ponding_depth, compute_runoff.
  destruct (gsat x) eqn:Sx.
  - destruct (saturated_case s dt ia x') as [z|] eqn:E; [|discriminate].
    destruct (saturated_facts s dt ia x' z Hs Hdt Hia ltac:(simpl; lra) ltac:(simpl; auto) eq_refl E)
      as (A1 & A2 & A3 & A4 & A5 & A6 & A7 & A8 & A9). simpl in A1, A6, A7, A9.
    cbn [bind]. intros R; injection R as <-.
    cbn [gsat gd gF gf gT gtheta_du gtheta_d gQ giter gt].
    rewrite A7. unfold inv, wet_outcome; simpl.
    sp; try lra; auto; try (apply Rmax_r); try congruence; try apply A9;
      intros; try (exfalso; match goal with N : ~ _ |- _ => apply N; left; congruence end).
  - destruct (Reqb_spec ia 0) as [Z|Z].
    + destruct (Rleb_spec ia (Ks s)) as [Hk|Hk]; [|destruct Hs as (_&?&_&_); lra].
      cbn [bind]. intros R; injection R as <-.
      cbn [gsat gd gF gf gT gtheta_du gtheta_d gQ giter gt unsaturated_case_1 unsaturated_case_2].
      assert (Dd : 0 < kr s * theta_dmax s * dt).
      { destruct Hs as (_&HK&_&_). unfold kr, rootK.
        assert (0 < sqrt (Ks s * 39.97 * 3600)) by (apply sqrt_lt_R0; nra).
        repeat apply Rmult_lt_0_compat; lra. }
      set (du := clip (theta_dmax s) (gtheta_du x + kr s * theta_dmax s * dt)).
      assert (Hdu : 0 < du <= theta_dmax s).
      { unfold du, clip. rewrite Rmax_left by lra. unfold Rmin. destruct (Rle_dec _ _); lra. }
      pose proof (clip_range (theta_dmax s) (du - ia * dt / Lu s) ltac:(lra)) as Hc.
      rewrite Z. unfold inv; cbn [gsat gd gF gf gT gtheta_du gtheta_d gQ giter gt].
      rewrite Z in Hc.
      sp; try lra; try (apply Rmax_r); try congruence; try (rewrite Sx; discriminate);
        try (destruct (Rleb (gT x - dt) 0); lra).
    + destruct (Rleb_spec ia (Ks s)) as [Hk|Hk].
      * cbn [bind]. intros R; injection R as <-.
        cbn [gsat gd gF gf gT gtheta_du gtheta_d gQ giter gt unsaturated_case_1 unsaturated_case_2].
        unfold x'; cbn [gsat gd gF gf gT gtheta_du gtheta_d gQ giter gt].
        pose proof (clip_range (theta_dmax s) (gtheta_du x - ia * dt / Lu s) ltac:(lra)).
        assert (0 < ia * dt) by nra.
        unfold inv, wet_outcome; cbn [gsat gd gF gf gT gtheta_du gtheta_d gQ giter gt].
        sp; try lra; auto; try (apply Rmax_r); try congruence; try (rewrite Sx; discriminate);
          match goal with H : _ \/ _ |- _ => destruct H as [X|X]; [congruence|exfalso; lra] | _ => idtac end.
      * destruct (unsaturated_case_3 s dt ia x') as [z|] eqn:E; [|discriminate].
        destruct (case3_facts s dt ia x' z Hs Hdt ltac:(lra) ltac:(simpl; lra) eq_refl E)
          as (A1 & A2 & A3 & A4 & A5 & A6 & A7 & A8).
        cbn [bind]. intros R; injection R as <-.
        cbn [gsat gd gF gf gT gtheta_du gtheta_d gQ giter gt].
        change (gd x') with (gd x) in A6. rewrite A6. change (gtheta_d x') with (gtheta_d x) in A5.
        change (gF x') with (gF x) in A1.
        assert (0 < ia * dt) by (pose proof (Rlt_le _ _ Hdt); nra).
        unfold inv; cbn [gsat gd gF gf gT gtheta_du gtheta_d gQ giter gt].
        split; [sp; try lra; auto; apply Rmax_r|].
        split; [lra|]. split; [lra|].
        split; [intros _; split; [lra|split; [unfold wet_outcome in *; rewrite Sx; exact A8|auto]]|].
        sp; try lra; congruence.
Qed.

Lemma history_inv s l : soil_ok s -> rain_ok l -> forall x y, inv s x -> ghistory s x l = Some y -> inv s y.
Proof.
  intros Hs. induction l as [|[dt i] l IH]; intros Hl x y Ix; simpl.
  - intros E; inversion E; subst; auto.
  - inversion Hl as [|? ? [H1 H2] H3]; subst. simpl in *.
    destruct (gstep s dt i x) as [z|] eqn:E; simpl; [|discriminate].
    intros E2. apply (IH H3 z y); auto. apply (step_facts s dt i x z Hs H1 H2 Ix E).
Qed.

(** C12: after any rainfall history, a step infiltrates at most rain plus ponding of that step, never removes more
    than the solver tolerance from the soil, and adds exactly that depth to the cumulative infiltration when water
    is available; with no water available and the soil unsaturated nothing infiltrates. *)
Theorem C12_infiltration_within_supply : forall s l dt i x y,
  soil_ok s -> rain_ok l -> 0 < dt -> 0 <= i ->
  ghistory s (ginit s) l = Some x -> gstep s dt i x = Some y ->
  gf y * dt <= i * dt + gd x /\ - tolerance < gf y * dt /\
  (0 < i * dt + gd x -> gF y - gF x = gf y * dt) /\
  (i * dt + gd x = 0 -> gsat x = false -> gf y = 0).
Proof.
  intros s l dt i x y Hs Hl Hdt Hi E1 E2.
  pose proof (history_inv s l Hs Hl _ _ (inv_init s Hs) E1) as Ix.
  destruct (step_facts s dt i x y Hs Hdt Hi Ix E2) as (B0 & B1 & B2 & B3 & B4 & B5 & B6 & B7).
  repeat split; auto. intros W. destruct (B3 W) as [B _]. lra.
Qed.

(** C12: the step never raises while cumulative depth plus supply stays below 8 000 km: the 50 root-finder
    iterations always suffice. *)
Theorem C12_step_never_raises : forall s l dt i x,
  soil_ok s -> rain_ok l -> 0 < dt -> 0 <= i ->
  ghistory s (ginit s) l = Some x -> gF x + (i * dt + gd x) < 8 * 10 ^ 6 ->
  exists y, gstep s dt i x = Some y.
Proof.
  intros s l dt i x Hs Hl Hdt Hi E1 HB.
  pose proof (history_inv s l Hs Hl _ _ (inv_init s Hs) E1) as (I1 & I2 & I3 & I4).
  pose proof Hs as (Hp&HK&_&_).
  unfold gstep. set (ia := i + gd x / dt) in *.
  assert (Esup : i * dt + gd x = ia * dt) by (unfold ia; field; lra).
  rewrite Esup in HB.
  assert (Hia : 0 <= ia).
  { unfold ia. assert (0 <= gd x / dt) by (apply Rmult_le_pos; [lra|apply Rlt_le, Rinv_0_lt_compat; lra]). lra. }
  assert (HB' : gF x + ia * dt < 2 ^ 49 * ga_atol) by (unfold ga_atol; lra).
  cbv zeta. cbn [gsat gd gF gf gT gtheta_du gtheta_d gQ giter gt].
  assert (Sat : forall z, 0 <= gF z -> gF z = gF x -> gtheta_d z = gtheta_d x ->
                exists y, saturated_case s dt ia z = Some y).
  { intros z H1 H2 H3. unfold saturated_case.
    destruct (newton_total (gF z) (gF z) dt (Ks s) (gtheta_d z) (psi_f s) ia) as [F2 E]; try lra.
    rewrite E. simpl. eauto. }
  destruct (gsat x) eqn:Sx.
  - match goal with |- exists y, (do _ <- saturated_case s dt ia ?z; _) = _ =>
      destruct (Sat z (I4 eq_refl) eq_refl eq_refl) as [y E]; rewrite E end. simpl; eauto.
  - destruct (Reqb_spec ia 0) as [Z|Z]; (destruct (Rleb_spec ia (Ks s)) as [Hk|Hk]; [simpl; eauto|try lra]).
    unfold unsaturated_case_3. cbn [gsat gd gF gf gT gtheta_du gtheta_d gQ giter gt]. cbv zeta.
    set (Fs := Ks s * psi_f s * gtheta_d x / (ia - Ks s)).
    assert (HFs : 0 < Fs).
    { unfold Fs. apply Rmult_lt_0_compat; [apply Rmult_lt_0_compat; nra|apply Rinv_0_lt_compat; lra]. }
    destruct (Rleb_spec Fs (gF x)) as [C0|C0].
    + match goal with |- exists y, (do _ <- saturated_case s dt ia ?z; _) = _ =>
        destruct (Sat z) as [y E]; [simpl; lra|reflexivity|reflexivity|rewrite E] end. simpl; eauto.
    + cbn [negb]. rewrite Bool.andb_true_r.
      destruct (Rltb_spec (gF x + ia * dt) Fs) as [C1|C1]; [simpl; eauto|].
      assert (Et : Fs + ia * (dt - (Fs - gF x) / ia) = gF x + ia * dt) by (field; lra).
      assert (Ht : 0 <= dt - (Fs - gF x) / ia).
      { assert ((Fs - gF x) / ia <= dt); [|lra]. apply Rmult_le_reg_r with ia; [lra|].
        unfold Rdiv; rewrite Rmult_assoc, Rinv_l; lra. }
      destruct (newton_total (gF x) Fs (dt - (Fs - gF x) / ia) (Ks s) (gtheta_d x) (psi_f s) ia) as [F2 E];
        try lra. rewrite E. simpl. eauto.
Qed.

(** C55: with water available, the new cumulative depth is the Green-Ampt depth limited by the supply. *)
Theorem C55_infiltration_follows_green_ampt : forall s l dt i x y,
  soil_ok s -> rain_ok l -> 0 < dt -> 0 <= i ->
  ghistory s (ginit s) l = Some x -> gstep s dt i x = Some y -> 0 < i * dt + gd x ->
  let ia := (i * dt + gd x) / dt in
  let top := gF x + (i * dt + gd x) in
  let Fs := ponding_depth_needed (Ks s) (psi_f s) (gtheta_d x) ia in
  let sat := gsat x = true \/ (Ks s < ia /\ Fs <= gF x) in
  (sat -> ga_limited (Ks s) (psi_f s) (gtheta_d x) (gF x) dt top (gF y) /\ gsat y = true) /\
  (~ sat -> ia <= Ks s \/ top < Fs -> gF y = top) /\
  (~ sat -> Ks s < ia -> Fs <= top ->
     ga_limited (Ks s) (psi_f s) (gtheta_d x) Fs (dt - (Fs - gF x) / ia) top (gF y)).
Proof.
  intros s l dt i x y Hs Hl Hdt Hi E1 E2 W ia top Fs sat.
  pose proof (history_inv s l Hs Hl _ _ (inv_init s Hs) E1) as Ix.
  destruct (step_facts s dt i x y Hs Hdt Hi Ix E2) as (_ & _ & _ & B3 & _).
  destruct (B3 W) as (_ & O & _). fold ia in O. unfold wet_outcome in O.
  replace (gF x + ia * dt) with top in O by (unfold top, ia; field; lra). exact O.
Qed.

(** C13 *)
Theorem C13_deficit_within_bounds : forall s l x,
  soil_ok s -> rain_ok l -> ghistory s (ginit s) l = Some x ->
  0 <= gtheta_du x <= theta_s s - theta_i s /\ 0 < gtheta_d x <= theta_s s - theta_i s /\ 0 <= gd x.
Proof.
  intros s l x Hs Hl E.
  destruct (history_inv s l Hs Hl _ _ (inv_init s Hs) E) as (I1 & I2 & I3 & _). auto.
Qed.

(** C15 *)
Theorem C15_runoff : forall s dt i x y,
  0 < A_s s -> gstep s dt i x = Some y ->
  0 <= gQ y /\ (gQ y = 0 <-> i <= gf y) /\ (gf y < i -> gQ y = (i - gf y) * A_s s).
Proof.
  intros s dt i x y HA. unfold gstep.
  match goal with |- bind ?o _ = _ -> _ => destruct o as [z|] end; simpl; [|discriminate].
  intros E; injection E as <-; simpl. unfold compute_runoff, Rmax.
  destruct (Rle_dec (i - gf z) 0); repeat split; intros; try lra; nra.
Qed.

(** C14: error of the surface balance [rain = infiltration + runoff + change of ponding], in metres. *)
Definition balance_error (s : soil) (dt i : R) (x y : gstate) : R :=
  i * dt - (gf y * dt + gQ y * dt / A_s s + (gd y - gd x)).

(** Excess rain is counted both as runoff and as ponding; a deficit empties the ponding without the factor dt. *)
Theorem C14_balance_error : forall s l dt i x y,
  soil_ok s -> rain_ok l -> 0 < dt -> 0 <= i ->
  ghistory s (ginit s) l = Some x -> gstep s dt i x = Some y ->
  (gf y <= i -> balance_error s dt i x y = - (i - gf y)) /\
  (i <= gf y -> gf y - i <= gd x -> balance_error s dt i x y = (gf y - i) * (1 - dt)) /\
  (i <= gf y -> gd x <= gf y - i -> balance_error s dt i x y = gd x - (gf y - i) * dt).
Proof.
  intros s l dt i x y Hs Hl Hdt Hi E1 E2.
  pose proof (history_inv s l Hs Hl _ _ (inv_init s Hs) E1) as Ix.
  destruct (step_facts s dt i x y Hs Hdt Hi Ix E2) as (_ & _ & _ & _ & B4 & B5 & _).
  destruct Ix as (I1 & _). destruct Hs as (_&_&_&HA). unfold balance_error. rewrite B4, B5.
  replace (Rmax (i - gf y) 0 * A_s s * dt / A_s s) with (Rmax (i - gf y) 0 * dt) by (field; lra).
  unfold Rmax. repeat split; intros; destruct (Rle_dec (i - gf y) 0); destruct (Rle_dec (gd x + (i - gf y)) 0); nra.
Qed.

(** Where the balance does hold: rain all infiltrates, or ponding drains and the step is one second. *)
Theorem C14_balance_holds_iff : forall s l dt i x y,
  soil_ok s -> rain_ok l -> 0 < dt -> 0 <= i ->
  ghistory s (ginit s) l = Some x -> gstep s dt i x = Some y ->
  balance_error s dt i x y = 0 <->
  gf y = i \/ (i < gf y /\ gf y - i <= gd x /\ dt = 1) \/ (i < gf y /\ gd x < gf y - i /\ gd x = (gf y - i) * dt).
Proof.
  intros s l dt i x y Hs Hl Hdt Hi E1 E2.
  destruct (C14_balance_error s l dt i x y Hs Hl Hdt Hi E1 E2) as (C1 & C2 & C3).
  destruct (Rlt_or_le (gf y) i) as [H|H].
  { rewrite C1 by lra. split; intros; lra. }
  destruct (Req_dec (gf y) i) as [H0|H0].
  { rewrite C1 by lra. split; intros; lra. }
  destruct (Rle_or_lt (gf y - i) (gd x)) as [H1|H1].
  - rewrite C2 by lra. split; intros H2.
    + right; left. repeat split; try lra. nra.
    + destruct H2 as [?|[(_&_&->)|(?&?&?)]]; lra.
  - rewrite C3 by lra. split; intros H2; lra.
Qed.

(** C56: a soil element that has become saturated stays saturated for ever: its recovery never starts, its
    moisture deficit is frozen and its cumulative depth is never reset, however long it stays dry. *)
Theorem C56_saturated_soil_recovers_refuted : forall s l l' x y,
  soil_ok s -> rain_ok l -> rain_ok l' ->
  ghistory s (ginit s) l = Some x -> gsat x = true -> ghistory s x l' = Some y ->
  gsat y = true /\ gtheta_d y = gtheta_d x /\ gF x - INR (length l') * tolerance <= gF y.
Proof.
  intros s l l' x y Hs Hl Hl' E1 Sx.
  pose proof (history_inv s l Hs Hl _ _ (inv_init s Hs) E1) as Ix. clear E1 Hl l.
  revert x Ix Sx. induction l' as [|[dt i] l' IH]; intros x Ix Sx; simpl length.
  - simpl. intros E; inversion E; subst. repeat split; auto; lra.
  - inversion Hl' as [|? ? [H1 H2] H3]; subst. simpl in H1, H2. cbn [ghistory].
    destruct (gstep s dt i x) as [z|] eqn:E; simpl; [|discriminate].
    intros E2. destruct (step_facts s dt i x z Hs H1 H2 Ix E) as (Iz & _ & _ & _ & _ & _ & _ & B7).
    destruct (B7 Sx) as (S1 & S2 & S3).
    destruct (IH H3 z Iz S1 E2) as (T1 & T2 & T3).
    rewrite S2 in T2. repeat split; auto. change ga_atol with tolerance in S3.
    change (match length l' with 0%nat => 1 | S _ => INR (length l') + 1 end) with (INR (S (length l'))).
    rewrite S_INR. lra.
Qed.

(** ** Witnesses *)
Definition ex_soil : soil := {| psi_f := 1 / 10; Ks := 1 / 100000; theta_s := 1 / 2; theta_i := 1 / 5; A_s := 2 |}.
Definition ex_rain : list (R * R) := [(1, 1 / 100); (1, 1)].
Lemma ex_soil_ok : soil_ok ex_soil.
Proof. unfold soil_ok, ex_soil; simpl; lra. Qed.
Lemma ex_rain_ok : rain_ok ex_rain.
Proof. repeat constructor; simpl; lra. Qed.
(** Two seconds of heavy rain saturate the soil: the hypotheses of C12, C13, C14, C55 and C56 are met. *)
Example ex_saturates : exists x, ghistory ex_soil (ginit ex_soil) ex_rain = Some x /\ gsat x = true /\ gF x < 3.
Proof.
  pose proof ex_soil_ok as Hs.
  assert (N : rain_ok []) by constructor.
  assert (L1 : gF (ginit ex_soil) + (1 / 100 * 1 + gd (ginit ex_soil)) < 8 * 10 ^ 6) by (simpl; lra).
  destruct (C12_step_never_raises ex_soil [] 1 (1 / 100) (ginit ex_soil) Hs N ltac:(lra) ltac:(lra) eq_refl L1)
    as [y Ey].
  pose proof (C55_infiltration_follows_green_ampt ex_soil [] 1 (1 / 100) (ginit ex_soil) y Hs N ltac:(lra) ltac:(lra)
                eq_refl Ey ltac:(simpl; lra)) as C. cbv zeta in C.
  unfold ponding_depth_needed in C. simpl in C.
  destruct C as (_ & _ & C).
  destruct C as [[C1 C2] _].
  { intros [H|[_ H]]; [discriminate|]. revert H. unfold theta_dmax; simpl. lra. }
  { lra. } { unfold theta_dmax; simpl. lra. }
  unfold theta_dmax in C1; simpl in C1. unfold tolerance in C1.
  assert (H1 : rain_ok [(1, 1 / 100)]) by (repeat constructor; simpl; lra).
  assert (E1 : ghistory ex_soil (ginit ex_soil) [(1, 1 / 100)] = Some y) by (cbn [ghistory]; rewrite Ey; reflexivity).
  destruct (step_facts ex_soil 1 (1 / 100) _ y Hs ltac:(lra) ltac:(lra) (inv_init _ Hs) Ey)
    as (Iy & B1 & B2 & B3 & _ & B5 & _). simpl in B5.
  assert (Dy : gd y <= 2 / 100).
  { rewrite B5. unfold ga_atol in B2. unfold Rmax; destruct (Rle_dec _ 0); lra. }
  pose proof Iy as (D0 & _ & Ty & _).
  destruct (B3 ltac:(simpl; lra)) as (_ & _ & Td). simpl in Td. unfold theta_dmax in Td; simpl in Td.
  destruct (C12_step_never_raises ex_soil _ 1 1 y Hs H1 ltac:(lra) ltac:(lra) E1 ltac:(lra)) as [z Ez].
  exists z. split.
  { cbn [ghistory ex_rain]. rewrite Ey. cbn [bind]. rewrite Ez. reflexivity. }
  destruct (C55_infiltration_follows_green_ampt ex_soil _ 1 1 y z Hs H1 ltac:(lra) ltac:(lra) E1 Ez ltac:(lra))
    as (C & _).
  assert (P : ponding_depth_needed (Ks ex_soil) (psi_f ex_soil) (gtheta_d y) ((1 * 1 + gd y) / 1) <= gF y).
  { unfold ponding_depth_needed. rewrite Td. simpl.
    apply Rmult_le_reg_r with ((1 * 1 + gd y) / 1 - 1 / 100000); [lra|].
    unfold Rdiv at 1. rewrite Rmult_assoc, Rinv_l by lra. nra. }
  destruct C as [[[_ C] _] G]; [right; split; [simpl; lra|exact P]|].
  split; [exact G|]. lra.
Qed.
(** The saturated soil then stays saturated through a year of dry one-minute steps, each of which succeeds or not;
    already one dry step shows it. *)
Example C56_example : exists x y, ghistory ex_soil (ginit ex_soil) ex_rain = Some x /\ gsat x = true /\
  ghistory ex_soil x [(1000000, 0)] = Some y /\ gsat y = true.
Proof.
  destruct ex_saturates as (x & E & S & F).
  pose proof (C13_deficit_within_bounds _ _ _ ex_soil_ok ex_rain_ok E) as (_ & _ & D0).
  assert (Dx : gd x < 100).
  { revert E. unfold ex_rain. cbn [ghistory].
    destruct (gstep ex_soil 1 (1 / 100) (ginit ex_soil)) as [u|] eqn:Eu; [|discriminate]. cbn [bind].
    destruct (gstep ex_soil 1 1 u) as [v|] eqn:Ev; [|discriminate]. cbn [bind]. intros R; injection R as <-.
    destruct (step_facts _ 1 (1 / 100) _ _ ex_soil_ok ltac:(lra) ltac:(lra) (inv_init _ ex_soil_ok) Eu)
      as (Iu & U1 & U2 & _ & _ & U5 & _). simpl in U5.
    destruct (step_facts _ 1 1 _ _ ex_soil_ok ltac:(lra) ltac:(lra) Iu Ev)
      as (_ & V1 & V2 & _ & _ & V5 & _). rewrite V5. unfold ga_atol in *.
    assert (gd u <= 2) by (rewrite U5; unfold Rmax; destruct (Rle_dec _ 0); lra).
    unfold Rmax; destruct (Rle_dec _ 0); lra. }
  destruct (C12_step_never_raises ex_soil _ 1000000 0 x ex_soil_ok ex_rain_ok ltac:(lra) ltac:(lra) E ltac:(lra))
    as [y Ey].
  assert (E2 : ghistory ex_soil x [(1000000, 0)] = Some y) by (cbn [ghistory]; rewrite Ey; reflexivity).
  exists x, y. repeat split; auto.
  apply (C56_saturated_soil_recovers_refuted ex_soil ex_rain [(1000000, 0)] x y); auto using ex_soil_ok, ex_rain_ok.
  repeat constructor; simpl; lra.
Qed.
(** C14 fails: one metre of rain in one second on dry soil is accounted for almost twice. *)
Theorem C14_surface_balance_refuted : exists s dt i y,
  soil_ok s /\ 0 < dt /\ 0 <= i /\ gstep s dt i (ginit s) = Some y /\ balance_error s dt i (ginit s) y < - 1 / 2.
Proof.
  pose proof ex_soil_ok as Hs. assert (N : rain_ok []) by constructor.
  destruct (C12_step_never_raises ex_soil [] 1 1 (ginit ex_soil) Hs N ltac:(lra) ltac:(lra) eq_refl ltac:(simpl; lra))
    as [y Ey].
  exists ex_soil, 1, 1, y. repeat (split; [auto; lra|]).
  destruct (C14_balance_error ex_soil [] 1 1 (ginit ex_soil) y Hs N ltac:(lra) ltac:(lra) eq_refl Ey) as (C & _).
  destruct (C12_infiltration_within_supply ex_soil [] 1 1 (ginit ex_soil) y Hs N ltac:(lra) ltac:(lra) eq_refl Ey)
    as (B & _ & B2 & _). simpl in B, B2. rewrite C by lra.
  specialize (B2 ltac:(lra)).
  pose proof (C55_infiltration_follows_green_ampt ex_soil [] 1 1 (ginit ex_soil) y Hs N ltac:(lra) ltac:(lra)
                eq_refl Ey ltac:(simpl; lra)) as G. cbv zeta in G. destruct G as (_ & _ & G).
  set (Fs := ponding_depth_needed (Ks ex_soil) (psi_f ex_soil) (gtheta_d (ginit ex_soil))
               ((1 * 1 + gd (ginit ex_soil)) / 1)) in *.
  assert (EF : 2 / 10 ^ 7 < Fs < 4 / 10 ^ 7).
  { unfold Fs, ponding_depth_needed. simpl. unfold theta_dmax; simpl. lra. }
  simpl in G. unfold theta_dmax in G; simpl in G.
  assert (LB : forall v, 0 < v -> v <= 35 -> ln v < 5).
  { intros v Hv H35. apply exp_lt_inv. rewrite exp_ln by auto.
    assert (E5 : exp 5 = exp (1 / 2) ^ 10).
    { replace 5 with (1/2+1/2+1/2+1/2+1/2+1/2+1/2+1/2+1/2+1/2) by lra. rewrite !exp_plus. ring. }
    rewrite E5. pose proof (exp_ineq1_le (1 / 2)) as X.
    assert (1.5 ^ 10 <= exp (1 / 2) ^ 10) by (apply pow_incr; lra). lra. }
  assert (RB : forall F, 0 <= F <= 1 ->
     F - 16 / 100 < ga_residual (1 / 100000) (1 / 10) (1 / 2 - 1 / 5) Fs (1 - (Fs - 0) / ((1 * 1 + 0) / 1)) F).
  { intros F HF. unfold ga_residual.
    assert (V : 0 < (F + 1 / 10 * (1 / 2 - 1 / 5)) / (Fs + 1 / 10 * (1 / 2 - 1 / 5)) <= 35).
    { split; [apply Rmult_lt_0_compat; [|apply Rinv_0_lt_compat]; lra|].
      apply Rmult_le_reg_r with (Fs + 1 / 10 * (1 / 2 - 1 / 5)); [lra|].
      unfold Rdiv at 1. rewrite Rmult_assoc, Rinv_l by lra. lra. }
    pose proof (LB _ (proj1 V) (proj2 V)). lra. }
  assert (NS : ~ (false = true \/ 1 / 100000 < (1 * 1 + 0) / 1 /\ Fs <= 0)).
  { intros [H|[_ H]]; [discriminate|lra]. }
  destruct (G NS ltac:(lra) ltac:(lra)) as ([L1 L2] & G1 & G2).
  assert (T := RB (0 + (1 * 1 + 0)) ltac:(lra)).
  specialize (G2 ltac:(lra)). apply Rabs_def2 in G2. unfold tolerance in *.
  destruct (Rle_or_lt 0 (gF y)) as [P|P]; [|lra].
  pose proof (RB (gF y) ltac:(lra)). lra.
Qed.
