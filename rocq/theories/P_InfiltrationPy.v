(** Property C64 and the positive part of C56: infiltration without numba, compared with the compiled class. *)
From Verif Require Import Prelude M_Coeffs M_Numerics S_Numerics L_Newton M_Infiltration L_Infiltration S_Infiltration P_Infiltration
  M_InfiltrationPy L_InfiltrationPy.

(** [F] is the exact Green-Ampt depth a time [tau] after F1 under ponding. *)
Definition ga_exact (K psi dtheta F1 tau F : R) : Prop := F1 <= F /\ ga_residual K psi dtheta F1 tau F = 0.

Definition pinv (s : soil) (x : gstate) : Prop :=
  0 <= gd x /\ 0 <= gtheta_du x <= theta_dmax s /\ 0 < gtheta_d x <= theta_dmax s /\ (gsat x = true -> 0 < gF x).
Lemma pinv_init s : soil_ok s -> pinv s (ginit s).
Proof. intros (?&?&?&?). unfold pinv, ginit, theta_dmax; simpl. repeat split; try lra; try discriminate. Qed.

Lemma residual_eq K psi th F1 tau y : 0 < psi * th -> 0 <= F1 -> 0 <= y ->
  ga_residual K psi th F1 tau y =
  - ((K * tau + F1 - psi * th * ln (F1 + psi * th)) + psi * th * ln (y + psi * th) - y).
Proof.
  intros Ha HF Hy. unfold ga_residual. unfold Rdiv.
  rewrite ln_mult, ln_Rinv by (try apply Rinv_0_lt_compat; lra). ring.
Qed.
Lemma py_newton_eq x0 F1 tau K th psi ia : 0 < psi ->
  py_newton x0 F1 tau K th psi ia =
  scipy_newton (fun y => if Rltb 0 (y + psi * th) then
                  Some ((K * tau + F1 - psi * th * ln (F1 + psi * th)) + psi * th * ln (y + psi * th) - y) else None)
               (fun y => psi * th / (psi * th + y) - 1) ga_atol 50 x0.
Proof.
  intros Hp. unfold py_newton, py_integrated, integrated, derivative. rewrite (Rabs_right psi) by lra. reflexivity.
Qed.

Lemma py_newton_facts x0 F1 tau K th psi ia :
  0 < psi -> 0 < th -> 0 < K -> 0 <= tau -> 0 < x0 -> x0 <= F1 ->
  exists r, ga_exact K psi th F1 tau r /\ K * tau <= r - F1 /\ (0 < tau -> K * tau < r - F1) /\
    (forall y, py_newton x0 F1 tau K th psi ia = Some y -> r <= y <= r + tolerance) /\
    ((K * tau + (F1 - x0)) * (1 + psi * th / x0) <= 4 * 10 ^ 6 -> exists y, py_newton x0 F1 tau K th psi ia = Some y).
Proof.
  intros Hp Hth HK Ht Hx HF. rewrite (py_newton_eq x0 F1 tau K th psi ia Hp).
  assert (Ha : 0 < psi * th) by nra.
  pose proof (fun y Hy => residual_eq K psi th F1 tau y Ha ltac:(lra) Hy) as RE.
  set (a := psi * th) in *. set (c := K * tau + F1 - a * ln (F1 + a)) in *.
  assert (FF1 : c + a * ln (F1 + a) - F1 = K * tau) by (unfold c; ring).
  assert (Kt : 0 <= K * tau) by nra.
  destruct (root_exists a c Ha F1 ltac:(lra) ltac:(lra)) as (r & R1 & R2).
  assert (R3 : K * tau <= r - F1).
  { destruct R1 as [R1|<-]; [|lra]. assert (ln (F1 + a) < ln (r + a)) by (apply ln_increasing; lra).
    unfold c in R2. nra. }
  assert (R4 : 0 < tau -> K * tau < r - F1).
  { intros T. destruct R1 as [R1|<-]; [|nra]. assert (ln (F1 + a) < ln (r + a)) by (apply ln_increasing; lra).
    unfold c in R2. nra. }
  assert (At : 0 < ga_atol) by apply atol_pos.
  destruct (newton_left a c Ha ga_atol r x0 50 At Hx ltac:(lra) R2) as [N1 N2].
  exists r. split; [split; [lra|rewrite RE by lra; lra]|]. split; [exact R3|]. split; [exact R4|].
  split; [exact N1|].
  intros B. apply N2; [lia|].
  pose proof (f_lip a c Ha x0 F1 ltac:(lra) ltac:(lra)) as L. cbv beta in L.
  assert (B0 : c + a * ln (x0 + a) - x0 <= K * tau + (F1 - x0)).
  { rewrite FF1 in L. rewrite (Rabs_left1 (x0 - F1)) in L by lra.
    pose proof (Rle_abs (c + a * ln (x0 + a) - x0 - K * tau)). lra. }
  apply Rle_trans with ((K * tau + (F1 - x0)) * (1 + a / x0)).
  - replace ((c + a * ln (x0 + a) - x0) * (x0 + a) / x0) with ((c + a * ln (x0 + a) - x0) * (1 + a / x0)) by (field; lra).
    apply Rmult_le_compat_r; auto.
    assert (0 < a / x0) by (apply Rmult_lt_0_compat; [lra|apply Rinv_0_lt_compat; lra]). lra.
  - apply Rle_trans with (1 := B). unfold ga_atol. simpl. lra.
Qed.

Definition py_outcome (s : soil) (dt ia : R) (x y : gstate) : Prop :=
  let top := gF x + ia * dt in
  let Fs := ponding_depth_needed (Ks s) (psi_f s) (gtheta_d x) ia in
  let sat := gsat x = true \/ (Ks s < ia /\ Fs <= gF x) in
  (sat -> exists r, ga_exact (Ks s) (psi_f s) (gtheta_d x) (gF x) dt r /\ Rmin r top <= gF y <= Rmin (r + tolerance) top /\
                    (gsat y = true -> r <= top) /\ (gsat y = false -> top < r + tolerance /\ gF y = top)) /\
  (~ sat -> ia <= Ks s \/ top < Fs -> 0 < ia -> gF y = top /\ gsat y = false) /\
  (~ sat -> Ks s < ia -> Fs <= top -> 0 < gF x ->
     gsat y = false /\ exists r, ga_exact (Ks s) (psi_f s) (gtheta_d x) Fs (dt - (Fs - gF x) / ia) r /\
                                 r <= gF y <= r + tolerance /\ r <= top).

Lemma py_saturated s dt ia x y : soil_ok s -> 0 < dt -> 0 <= ia -> 0 < gtheta_d x -> 0 < gF x -> gsat x = true ->
  saturated_case_with py_newton s dt ia x = Some y ->
  gF y = gF x + gf y * dt /\ 0 <= gf y * dt <= ia * dt /\ 0 < gF y /\
  gtheta_d y = gtheta_d x /\ gd y = gd x /\ gT y = Tr s /\
  gtheta_du y = clip (theta_dmax s) (gtheta_du x - gf y * dt / Lu s) /\
  (ia <= Ks s -> gsat y = false) /\
  exists r, ga_exact (Ks s) (psi_f s) (gtheta_d x) (gF x) dt r /\
    Rmin r (gF x + ia * dt) <= gF y <= Rmin (r + tolerance) (gF x + ia * dt) /\
    (gsat y = true -> r <= gF x + ia * dt) /\ (gsat y = false -> gF x + ia * dt < r + tolerance /\ gF y = gF x + ia * dt).
Proof.
  intros Hs Hdt Hia Hth HF Hsat. destruct Hs as (Hp&HK&_&_). unfold saturated_case_with.
  destruct (py_newton_facts (gF x) (gF x) dt (Ks s) (gtheta_d x) (psi_f s) ia Hp Hth HK (Rlt_le _ _ Hdt) HF (Rle_refl _))
    as (r & R1 & R2 & R3 & R4 & _). specialize (R3 Hdt).
  destruct (py_newton _ _ _ _ _ _ _) as [F2|]; [|discriminate]. cbn [bind]. specialize (R4 F2 eq_refl).
  assert (0 < Ks s * dt) by nra. assert (0 <= ia * dt) by nra.
  assert (tolerance > 0) by (unfold tolerance; lra).
  destruct (Rltb_spec (ia * dt) (F2 - gF x)) as [C|C]; intros R; injection R as <-; cbn [gF gf gd gT gsat gtheta_d gtheta_du].
  - replace (ia * dt / dt * dt) with (ia * dt) by (field; lra).
    repeat (split; [auto; try lra|]). exists r. split; [exact R1|].
    split; [split; unfold Rmin; destruct (Rle_dec _ _); lra|]. split; [discriminate|intros; lra].
  - replace ((F2 - gF x) / dt * dt) with (F2 - gF x) by (field; lra).
    replace (gF x + (F2 - gF x)) with F2 by ring.
    repeat (split; [auto; try lra|]).
    + intros Hk. exfalso. assert (ia * dt <= Ks s * dt) by (apply Rmult_le_compat_r; lra). lra.
    + exists r. split; [exact R1|]. split; [split; unfold Rmin; destruct (Rle_dec _ _); lra|].
      split; [intros; lra|congruence].
Qed.

(** The integrated equation never gives more than the rain once ponding has set in. *)
Lemma ponded_within_rain K psi th ia tau r : 0 < K -> 0 < psi -> 0 < th -> K < ia -> 0 <= tau ->
  let Fs := ponding_depth_needed K psi th ia in
  ga_exact K psi th Fs tau r -> r <= Fs + ia * tau.
Proof.
  intros HK Hp Hth Hia Ht Fs [R1 R2].
  assert (Ha : 0 < psi * th) by nra. set (a := psi * th) in *.
  assert (EF : Fs = K * a / (ia - K)) by (unfold Fs, ponding_depth_needed, a; rewrite <- Rmult_assoc; reflexivity).
  assert (HFs : 0 < Fs) by (rewrite EF; apply Rmult_lt_0_compat; [nra|apply Rinv_0_lt_compat; lra]).
  assert (EFa : Fs + a = ia * a / (ia - K)) by (rewrite EF; field; lra).
  assert (HFa : 0 < Fs + a) by lra.
  pose proof (residual_eq K psi th Fs tau r Ha ltac:(lra) ltac:(lra)) as E. fold a in E. rewrite R2 in E.
  assert (L : ln (r + a) - ln (Fs + a) <= (r - Fs) / (Fs + a)).
  { pose proof (ln_le_sub1 ((r + a) / (Fs + a))) as L. unfold Rdiv in L at 2. rewrite ln_mult, ln_Rinv in L; try lra;
      try (apply Rinv_0_lt_compat; lra).
    assert (0 < (r + a) / (Fs + a)) by (apply Rmult_lt_0_compat; [lra|apply Rinv_0_lt_compat; lra]).
    specialize (L H). replace ((r - Fs) / (Fs + a)) with ((r + a) / (Fs + a) - 1) by (field; lra). lra. }
  assert (L2 : a * ((r - Fs) / (Fs + a)) = (r - Fs) * (ia - K) / ia).
  { rewrite EFa. field. repeat split; nra. }
  assert (L3 : r - Fs - K * tau <= (r - Fs) * (ia - K) / ia).
  { rewrite <- L2. apply Rle_trans with (a * (ln (r + a) - ln (Fs + a))); [lra|]. apply Rmult_le_compat_l; lra. }
  assert (L4 : (r - Fs) * K / ia <= K * tau).
  { replace ((r - Fs) * (ia - K) / ia) with ((r - Fs) - (r - Fs) * K / ia) in L3 by (field; lra). lra. }
  assert (L5 : (r - Fs) <= ia * tau).
  { apply (Rmult_le_reg_l (K / ia)); [apply Rmult_lt_0_compat; [lra|apply Rinv_0_lt_compat; lra]|].
    replace (K / ia * (r - Fs)) with ((r - Fs) * K / ia) by (field; lra).
    replace (K / ia * (ia * tau)) with (K * tau) by (field; lra). exact L4. }
  lra.
Qed.

Lemma py_case3 s dt ia x y : soil_ok s -> 0 < dt -> Ks s < ia -> 0 < gtheta_d x -> gsat x = false ->
  0 <= gtheta_du x <= theta_dmax s ->
  unsaturated_case_3_with py_newton s dt ia x = Some y ->
  gF y = gF x + gf y * dt /\ (gsat y = true -> 0 < gF y) /\
  gtheta_d y = gtheta_d x /\ gd y = gd x /\ gT y = Tr s /\ 0 <= gtheta_du y <= theta_dmax s /\ py_outcome s dt ia x y.
Proof.
  intros Hs Hdt Hia Hth Hsat Hdu. pose proof (dmax_pos s Hs) as Hm. pose proof Hs as (Hp&HK&_&_).
  unfold unsaturated_case_3_with, py_outcome. cbv zeta. 
  change (Ks s * psi_f s * gtheta_d x / (ia - Ks s)) with (ponding_depth_needed (Ks s) (psi_f s) (gtheta_d x) ia).
  set (Fs := ponding_depth_needed (Ks s) (psi_f s) (gtheta_d x) ia).
  assert (HFs : 0 < Fs).
  { unfold Fs, ponding_depth_needed. apply Rmult_lt_0_compat; [apply Rmult_lt_0_compat; nra|apply Rinv_0_lt_compat; lra]. }
  assert (HFd : 0 < ia * dt) by nra.
  destruct (Rleb_spec Fs (gF x)) as [C0|C0].
  - intros E.
    destruct (py_saturated s dt ia (set_sat true x) y Hs Hdt ltac:(lra) Hth ltac:(simpl; lra) eq_refl E)
      as (A1 & A2 & A3 & A4 & A5 & A6 & A7 & A8 & A9). cbn [gF gd gtheta_d gtheta_du set_sat] in *.
    split; [exact A1|]. split; [intros; exact A3|]. do 3 (split; [assumption|]).
    split; [rewrite A7; apply clip_range; lra|].
    split; [intros _; exact A9|].
    split; intros N; exfalso; apply N; right; lra.
  - cbn [negb andb]. rewrite Bool.andb_true_r.
    destruct (Rltb_spec (gF x + ia * dt) Fs) as [C1|C1].
    + intros R; injection R as <-; cbn [gF gf gd gT gsat gtheta_d gtheta_du].
      pose proof (clip_range (theta_dmax s) (gtheta_du x - ia * dt / Lu s) ltac:(lra)).
      split; [lra|]. split; [congruence|]. do 3 (split; [reflexivity|]). split; [assumption|].
      split; [intros [W|[_ W]]; [congruence|exfalso; lra]|].
      split; [intros; split; auto|intros _ _ W; exfalso; lra].
    + assert (Et : Fs + ia * (dt - (Fs - gF x) / ia) = gF x + ia * dt) by (field; lra).
      assert (Ht : 0 <= dt - (Fs - gF x) / ia).
      { assert ((Fs - gF x) / ia <= dt); [|lra]. apply Rmult_le_reg_r with ia; [lra|].
        unfold Rdiv; rewrite Rmult_assoc, Rinv_l; lra. }
      destruct (py_newton _ _ _ _ _ _ _) as [F2|] eqn:E; cbn [bind]; [|discriminate].
      intros R; injection R as <-; cbn [gF gf gd gT gsat gtheta_d gtheta_du].
      replace ((F2 - gF x) / dt * dt) with (F2 - gF x) by (field; lra).
      pose proof (clip_range (theta_dmax s) (gtheta_du x - (F2 - gF x) / Lu s) ltac:(lra)).
      split; [lra|]. split; [congruence|]. do 3 (split; [reflexivity|]). split; [assumption|].
      split; [intros [W|[_ W]]; [congruence|exfalso; lra]|].
      split; [intros _ [W|W]; exfalso; lra|].
      intros _ _ _ HFx. split; [exact Hsat|].
      destruct (py_newton_facts (gF x) Fs (dt - (Fs - gF x) / ia) (Ks s) (gtheta_d x) (psi_f s) ia Hp Hth HK Ht HFx ltac:(lra))
        as (r & R1 & _ & _ & R4 & _).
      exists r. split; [exact R1|]. split; [apply R4; exact E|].
      rewrite <- Et. apply (ponded_within_rain (Ks s) (psi_f s) (gtheta_d x)); auto.
Qed.

Lemma py_facts s dt i x y : soil_ok s -> 0 < dt -> 0 <= i -> pinv s x -> py_step s dt i x = Some y ->
  let ia := (i * dt + gd x) / dt in
  pinv s y /\ gd y = Rmax (gd x + (i - gf y)) 0 /\ gQ y = Rmax (i - gf y) 0 * A_s s /\
  (0 < i * dt + gd x -> gF y = gF x + gf y * dt /\ gtheta_d y = gtheta_d x) /\
  (0 < i * dt + gd x \/ gsat x = true -> py_outcome s dt ia x y) /\
  (gsat x = true -> i * dt + gd x <= Ks s * dt ->
     gsat y = false /\ gF y = gF x + (i * dt + gd x) /\ gf y * dt = i * dt + gd x /\ gT y = Tr s /\
     gtheta_d y = gtheta_d x /\ gtheta_du y = clip (theta_dmax s) (gtheta_du x - (i * dt + gd x) / Lu s)).
Proof.
  intros Hs Hdt Hi (I1 & I2 & I3 & I4). pose proof (dmax_pos s Hs) as Hm.
  assert (Eia : (i * dt + gd x) / dt = i + gd x / dt) by (field; lra).
  cbv zeta. rewrite Eia. unfold py_step, gstep_with.
  set (ia := i + gd x / dt) in *.
  assert (Esup : i * dt + gd x = ia * dt) by (unfold ia; field; lra).
  rewrite Esup.
  assert (Hia : 0 <= ia).
  { unfold ia. assert (0 <= gd x / dt) by (apply Rmult_le_pos; [lra|apply Rlt_le, Rinv_0_lt_compat; lra]). lra. }
  cbv zeta. cbn [gsat gd gF gf gT gtheta_du gtheta_d gQ giter gt].
  set (x' := {| gd := gd x; gF := gF x; gf := gf x; gT := gT x - dt; gsat := gsat x; gtheta_du := gtheta_du x;
                gtheta_d := gtheta_d x; gQ := gQ x; giter := giter x; gt := gt x |}).
  unfold compute_ponding_depth, compute_runoff.
  destruct (gsat x) eqn:Sx.
  - destruct (saturated_case_with py_newton s dt ia x') as [z|] eqn:E; [|discriminate].
    destruct (py_saturated s dt ia x' z Hs Hdt Hia ltac:(simpl; lra) ltac:(simpl; auto) eq_refl E)
      as (A1 & A2 & A3 & A4 & A5 & A6 & A7 & A8 & A9). cbn [x' gF gd gtheta_d gtheta_du] in *.
    cbn [bind]. intros R; injection R as <-.
    cbn [gsat gd gF gf gT gtheta_du gtheta_d gQ giter gt].
    rewrite A5. unfold pinv, py_outcome; cbn [gsat gd gF gf gT gtheta_du gtheta_d gQ giter gt].
    split; [split; [apply Rmax_r|]; rewrite A7, A4; split; [apply clip_range; lra|]; split; [assumption|]; intros _; exact A3|].
    split; [reflexivity|]. split; [reflexivity|]. split; [intros _; split; assumption|].
    split; [intros _; split; [intros _; exact A9|]; split; intros N; exfalso; apply N; left; congruence|].
    intros _ Hk. assert (Hk' : ia <= Ks s) by (apply (Rmult_le_reg_r dt); auto).
    specialize (A8 Hk'). split; [exact A8|].
    destruct A9 as (r & _ & _ & _ & A9). destruct (A9 A8) as [_ A10].
    assert (E1 : gf z * dt = ia * dt) by lra. rewrite A7, E1. split; [lra|]. repeat split; assumption || reflexivity.
  - destruct (Reqb_spec ia 0) as [Z|Z].
    + destruct (Rleb_spec ia (Ks s)) as [Hk|Hk]; [|destruct Hs as (_&?&_&_); lra].
      cbn [bind]. intros R; injection R as <-.
      cbn [gsat gd gF gf gT gtheta_du gtheta_d gQ giter gt unsaturated_case_1 unsaturated_case_2].
      assert (Dd : 0 < kr s * theta_dmax s * dt).
      { destruct Hs as (_&HK&_&_). unfold kr, rootK.
        assert (0 < sqrt (Ks s * 39.97 * 3600)) by (apply sqrt_lt_R0; nra).
        repeat apply Rmult_lt_0_compat; lra. }
      set (du := clip (theta_dmax s) (gtheta_du x + kr s * theta_dmax s * dt)).
      assert (Hdu : 0 < du <= theta_dmax s).
      { unfold du, clip. rewrite Rmax_left by lra. unfold Rmin. destruct (Rle_dec _ _); lra. }
      pose proof (clip_range (theta_dmax s) (du - ia * dt / Lu s) ltac:(lra)) as Hc.
      unfold pinv; cbn [gsat gd gF gf gT gtheta_du gtheta_d gQ giter gt].
      split; [split; [apply Rmax_r|]; split; [exact Hc|]; split; [destruct (Rleb (gT x - dt) 0); lra|try rewrite Sx; discriminate]|].
      split; [reflexivity|]. split; [reflexivity|].
      split; [intros W; exfalso; rewrite Z in W; lra|].
      split; [intros [W|W]; [exfalso; rewrite Z in W; lra|discriminate]|discriminate].
    + destruct (Rleb_spec ia (Ks s)) as [Hk|Hk].
      * cbn [bind]. intros R; injection R as <-.
        cbn [gsat gd gF gf gT gtheta_du gtheta_d gQ giter gt unsaturated_case_1 unsaturated_case_2].
        unfold x'; cbn [gsat gd gF gf gT gtheta_du gtheta_d gQ giter gt].
        pose proof (clip_range (theta_dmax s) (gtheta_du x - ia * dt / Lu s) ltac:(lra)).
        unfold pinv, py_outcome; cbn [gsat gd gF gf gT gtheta_du gtheta_d gQ giter gt].
        split; [split; [apply Rmax_r|]; split; [lra|]; split; [lra|try rewrite Sx; discriminate]|].
        split; [reflexivity|]. split; [reflexivity|]. split; [intros _; split; [lra|reflexivity]|].
        split; [intros _|discriminate].
        split; [intros [W|[W _]]; [congruence|exfalso; lra]|].
        split; [intros; split; auto|intros _ W; exfalso; lra].
      * destruct (unsaturated_case_3_with py_newton s dt ia x') as [z|] eqn:E; [|discriminate].
        destruct (py_case3 s dt ia x' z Hs Hdt ltac:(lra) ltac:(simpl; lra) eq_refl ltac:(simpl; lra) E)
          as (A1 & A2 & A3 & A4 & A5 & A6 & A7).
        cbn [bind]. intros R; injection R as <-.
        cbn [gsat gd gF gf gT gtheta_du gtheta_d gQ giter gt].
        change (gd x') with (gd x) in A4. rewrite A4. change (gtheta_d x') with (gtheta_d x) in A3.
        change (gF x') with (gF x) in A1.
        unfold pinv; cbn [gsat gd gF gf gT gtheta_du gtheta_d gQ giter gt].
        split; [split; [apply Rmax_r|]; split; [exact A6|]; split; [rewrite A3; lra|exact A2]|].
        split; [reflexivity|]. split; [reflexivity|]. split; [intros _; split; assumption|].
        split; [intros _; unfold py_outcome in *; rewrite Sx; exact A7|discriminate].
Qed.

Lemma py_history_inv s l : soil_ok s -> rain_ok l -> forall x y, pinv s x -> py_history s x l = Some y -> pinv s y.
Proof.
  intros Hs. unfold py_history. induction l as [|[dt i] l IH]; intros Hl x y Ix; cbn [ghistory_with].
  - intros E; inversion E; subst; auto.
  - inversion Hl as [|? ? [H1 H2] H3]; subst. cbn [fst snd] in *.
    destruct (gstep_with py_newton s dt i x) as [z|] eqn:E; cbn [bind]; [|discriminate].
    intros E2. apply (IH H3 z y); auto. apply (py_facts s dt i x z Hs H1 H2 Ix E).
Qed.

Lemma kr_pos s : soil_ok s -> 0 < kr s.
Proof.
  intros (_&HK&_&_). unfold kr, rootK.
  assert (0 < sqrt (Ks s * 39.97 * 3600)) by (apply sqrt_lt_R0; nra).
  repeat apply Rmult_lt_0_compat; lra.
Qed.
(** A step without water on unsaturated soil. *)
Lemma py_dry s dt x : soil_ok s -> 0 < dt -> pinv s x -> gd x = 0 -> gsat x = false ->
  exists y, py_step s dt 0 x = Some y /\ gsat y = false /\ gd y = 0 /\ gf y = 0 /\ gT y = gT x - dt /\
    gtheta_du y = Rmin (gtheta_du x + kr s * theta_dmax s * dt) (theta_dmax s) /\
    (gT x <= dt -> gF y = 0 /\ gtheta_d y = gtheta_du y).
Proof.
  intros Hs Hdt (I1 & I2 & I3 & I4) Hd Sx. pose proof (dmax_pos s Hs) as Hm. pose proof (kr_pos s Hs) as Hk.
  pose proof Hs as (_ & HK & _).
  unfold py_step, gstep_with. rewrite Hd. replace (0 + 0 / dt) with 0 by (unfold Rdiv; ring).
  cbv zeta. cbn [gsat]. rewrite Sx. destruct (Reqb_spec 0 0) as [_|N]; [|lra].
  destruct (Rleb_spec 0 (Ks s)) as [_|N]; [|lra]. cbn [bind].
  eexists. split; [reflexivity|].
  unfold compute_ponding_depth, unsaturated_case_1, unsaturated_case_2. cbn [gsat gd gF gf gT gtheta_du gtheta_d gQ giter gt].
  assert (Dd : 0 < kr s * theta_dmax s * dt) by (apply Rmult_lt_0_compat; [apply Rmult_lt_0_compat|]; assumption).
  assert (Ec : clip (theta_dmax s) (gtheta_du x + kr s * theta_dmax s * dt) = Rmin (gtheta_du x + kr s * theta_dmax s * dt) (theta_dmax s)).
  { unfold clip. rewrite Rmax_left by lra. reflexivity. }
  rewrite Ec. set (u := Rmin (gtheta_du x + kr s * theta_dmax s * dt) (theta_dmax s)).
  assert (Hu : 0 <= u <= theta_dmax s) by (unfold u, Rmin; destruct (Rle_dec _ _); lra).
  assert (Eu : clip (theta_dmax s) (u - 0 * dt / Lu s) = u).
  { replace (u - 0 * dt / Lu s) with u by (unfold Rdiv; ring). unfold clip. rewrite Rmax_left, Rmin_left by lra. reflexivity. }
  rewrite Eu. split; [reflexivity|]. split; [unfold Rmax; destruct (Rle_dec _ _); lra|]. split; [reflexivity|].
  split; [reflexivity|]. split; [reflexivity|].
  intros HT. destruct (Rleb_spec (gT x - dt) 0) as [_|N]; [|lra]. split; [lra|reflexivity].
Qed.

Definition dry (l : list R) : list (R * R) := map (fun dt => (dt, 0)) l.
Definition total (l : list R) : R := fold_right Rplus 0 l.
Lemma total_nonneg l : Forall (fun dt => 0 < dt) l -> 0 <= total l.
Proof. induction 1; simpl; lra. Qed.
Lemma py_dry_spell s l : soil_ok s -> Forall (fun dt => 0 < dt) l -> forall x, pinv s x -> gd x = 0 -> gsat x = false ->
  exists y, py_history s x (dry l) = Some y /\ pinv s y /\ gsat y = false /\ gd y = 0 /\ gT y = gT x - total l /\
    gtheta_du y = Rmin (gtheta_du x + kr s * theta_dmax s * total l) (theta_dmax s) /\
    (l <> [] -> gT x <= total l -> gF y = 0 /\ gtheta_d y = gtheta_du y).
Proof.
  intros Hs Hl. pose proof (dmax_pos s Hs) as Hm. pose proof (kr_pos s Hs) as Hk.
  unfold py_history. induction l as [|dt l IH]; intros x Ix Dx Sx; cbn [dry map total fold_right ghistory_with].
  - exists x. split; [reflexivity|]. split; [exact Ix|]. do 2 (split; [assumption|]). split; [lra|].
    split; [|intros N; contradiction]. destruct Ix as (_ & I2 & _). rewrite Rmult_0_r, Rplus_0_r, Rmin_left; lra.
  - inversion Hl as [|? ? H1 H2]; subst.
    destruct (py_dry s dt x Hs H1 Ix Dx Sx) as (y & Ey & S1 & D1 & F1 & T1 & U1 & C1).
    assert (Iy : pinv s y) by (apply (py_facts s dt 0 x y Hs H1 (Rle_refl 0) Ix Ey)).
    unfold py_step in Ey. rewrite Ey. cbn [bind].
    destruct (IH H2 y Iy D1 S1) as (z & Ez & Iz & S2 & D2 & T2 & U2 & C2). exists z. split; [exact Ez|].
    split; [exact Iz|]. split; [exact S2|]. split; [exact D2|]. change (fold_right Rplus 0 l) with (total l).
    split; [lra|].
    pose proof (total_nonneg l H2) as HT.
    assert (0 <= kr s * theta_dmax s * total l) by (apply Rmult_le_pos; [apply Rmult_le_pos; lra|lra]).
    split.
    { rewrite U2, U1. replace (kr s * theta_dmax s * (dt + total l)) with (kr s * theta_dmax s * dt + kr s * theta_dmax s * total l) by ring.
      unfold Rmin. repeat destruct (Rle_dec _ _); lra. }
    intros _ HC. destruct l as [|dt' l].
    + cbn [total fold_right] in HC. cbn [dry map ghistory_with] in Ez. injection Ez as <-. apply C1. lra.
    + apply C2; [discriminate|lra].
Qed.

(** C56 for the class without numba: saturated soil without ponding, or with no more than the soil conducts in a step of at
    most a second, becomes unsaturated in the first dry step; its cumulative depth and its deficit are reset once the dry spell has lasted the recovery time, and the deficit
    is the full one after the time 1 / kr.  ([total l] excludes the first step.) *)
Theorem C56_python_class_recovers : forall s r dt0 l x,
  soil_ok s -> rain_ok r -> 0 < dt0 -> Forall (fun dt => 0 < dt) l ->
  py_history s (ginit s) r = Some x -> gsat x = true -> gd x = 0 \/ gd x <= Ks s * dt0 /\ dt0 <= 1 ->
  Ks s * dt0 * (1 + psi_f s * gtheta_d x / gF x) <= 4 * 10 ^ 6 ->
  exists y, py_history s x (dry (dt0 :: l)) = Some y /\ gsat y = false /\
    gtheta_du y = Rmin (Rmax (gtheta_du x - gd x / Lu s) 0 + kr s * (theta_s s - theta_i s) * total l) (theta_s s - theta_i s) /\
    (0 < Tr s <= total l -> gF y = 0 /\ gtheta_d y = gtheta_du y) /\
    (0 < Tr s <= total l -> 1 / kr s <= total l -> gtheta_d y = theta_s s - theta_i s).
Proof.
  intros s r dt0 l x Hs Hr Hdt Hl Ex Sx Dx HB.
  pose proof (py_history_inv s r Hs Hr _ _ (pinv_init s Hs) Ex) as Ix. pose proof (dmax_pos s Hs) as Hm.
  pose proof (kr_pos s Hs) as Hk. pose proof Hs as (Hp & HK & _ & _).
  destruct Ix as (I1 & I2 & I3 & I4). specialize (I4 Sx).
  destruct (py_newton_facts (gF x) (gF x) dt0 (Ks s) (gtheta_d x) (psi_f s) (0 + gd x / dt0) Hp (proj1 I3) HK (Rlt_le _ _ Hdt) I4 (Rle_refl _))
    as (rt & _ & _ & _ & _ & R5).
  destruct R5 as [F2 EF2]; [rewrite Rminus_diag_eq, Rplus_0_r by reflexivity; exact HB|].
  assert (Ey : exists y, py_step s dt0 0 x = Some y).
  { unfold py_step, gstep_with. cbv zeta. cbn [gsat].
    rewrite Sx. unfold saturated_case_with. cbn [gF gtheta_d]. rewrite EF2. cbn [bind]. eauto. }
  destruct Ey as [y Ey].
  destruct (py_facts s dt0 0 x y Hs Hdt (Rle_refl 0) (conj I1 (conj I2 (conj I3 (fun _ => I4)))) Ey)
    as (Iy & D1 & _ & _ & _ & Rl).
  destruct (Rl Sx) as (S1 & F1 & f1 & T1 & Td1 & U1); [destruct Dx as [-> | [Dx _]]; nra|].
  assert (D0 : gd y = 0).
  { assert (gd x <= gf y).
    { destruct Dx as [Dx | [_ L1]].
      - rewrite Dx in f1 |- *. assert (gf y = 0); [|lra]. apply (Rmult_eq_reg_r dt0); lra.
      - destruct (Rle_or_lt (gd x) (gf y)) as [|N]; auto. exfalso.
        assert (gf y * dt0 < gd x); [|lra]. destruct (Rle_or_lt (gf y) 0) as [G|G]; [|nra].
        assert (gf y * dt0 <= 0) by nra. destruct (Req_dec (gd x) 0); nra. }
    rewrite D1. unfold Rmax; destruct (Rle_dec _ _); lra. }
  assert (HLu : 0 < Lu s).
  { unfold Lu, rootK. assert (0 < sqrt (Ks s * 39.97 * 3600)) by (apply sqrt_lt_R0; nra). nra. }
  assert (U0 : gtheta_du y = Rmax (gtheta_du x - gd x / Lu s) 0).
  { rewrite U1. replace (0 * dt0 + gd x) with (gd x) by ring. unfold clip. apply Rmin_left.
    assert (0 <= gd x / Lu s) by (apply Rmult_le_pos; [lra|apply Rlt_le, Rinv_0_lt_compat; lra]).
    unfold Rmax; destruct (Rle_dec _ _); lra. }
  destruct (py_dry_spell s l Hs Hl y Iy D0 S1) as (z & Ez & _ & S2 & _ & T2 & U2 & C2).
  exists z. split.
  { cbn [dry map]. unfold py_history. cbn [ghistory_with]. unfold py_step in Ey. rewrite Ey. exact Ez. }
  split; [exact S2|]. rewrite U0 in U2. split; [exact U2|].
  assert (C : 0 < Tr s <= total l -> gF z = 0 /\ gtheta_d z = gtheta_du z).
  { intros HT. apply C2; [|lra]. intros ->. simpl in HT. lra. }
  split; [exact C|].
  intros HT Hfull. rewrite (proj2 (C HT)), U2. apply Rmin_right.
  change (theta_s s - theta_i s) with (theta_dmax s).
  assert (1 <= kr s * total l).
  { apply (Rmult_le_compat_l (kr s)) in Hfull; [|lra]. replace (kr s * (1 / kr s)) with 1 in Hfull by (field; lra). lra. }
  replace (kr s * theta_dmax s * total l) with (theta_dmax s * (kr s * total l)) by ring.
  assert (theta_dmax s * 1 <= theta_dmax s * (kr s * total l)) by (apply Rmult_le_compat_l; lra).
  pose proof (Rmax_r (gtheta_du x - gd x / Lu s) 0). lra.
Qed.

(** C56, same class: saturation also ends when it rains no faster than the soil conducts. *)
Theorem C56_python_class_releases : forall s r dt i x y,
  soil_ok s -> rain_ok r -> 0 < dt -> 0 <= i ->
  py_history s (ginit s) r = Some x -> gsat x = true -> i * dt + gd x <= Ks s * dt -> py_step s dt i x = Some y ->
  gsat y = false /\ gF y = gF x + (i * dt + gd x) /\ gf y * dt = i * dt + gd x.
Proof.
  intros s r dt i x y Hs Hr Hdt Hi Ex Sx Hw Ey.
  pose proof (py_history_inv s r Hs Hr _ _ (pinv_init s Hs) Ex) as Ix.
  destruct (py_facts s dt i x y Hs Hdt Hi Ix Ey) as (_ & _ & _ & _ & _ & Rl).
  destruct (Rl Sx Hw) as (A & B & C & _). auto.
Qed.

(** C64: the class without numba follows the Green-Ampt equation in every step that starts with a positive cumulative depth,
    whatever the history. *)
Theorem C64_python_class_follows_green_ampt : forall s l dt i x y,
  soil_ok s -> rain_ok l -> 0 < dt -> 0 <= i ->
  py_history s (ginit s) l = Some x -> py_step s dt i x = Some y -> 0 < i * dt + gd x ->
  let ia := (i * dt + gd x) / dt in
  let top := gF x + (i * dt + gd x) in
  let Fs := ponding_depth_needed (Ks s) (psi_f s) (gtheta_d x) ia in
  let sat := gsat x = true \/ (Ks s < ia /\ Fs <= gF x) in
  (sat -> exists r, ga_exact (Ks s) (psi_f s) (gtheta_d x) (gF x) dt r /\ Rmin r top <= gF y <= Rmin (r + tolerance) top /\
                    (gsat y = true -> r <= top) /\ (gsat y = false -> top < r + tolerance /\ gF y = top)) /\
  (~ sat -> ia <= Ks s \/ top < Fs -> gF y = top /\ gsat y = false) /\
  (~ sat -> Ks s < ia -> Fs <= top -> 0 < gF x ->
     gsat y = false /\ exists r, ga_exact (Ks s) (psi_f s) (gtheta_d x) Fs (dt - (Fs - gF x) / ia) r /\
                                 r <= gF y <= r + tolerance /\ r <= top).
Proof.
  intros s l dt i x y Hs Hl Hdt Hi Ex Ey W ia top Fs sat.
  pose proof (py_history_inv s l Hs Hl _ _ (pinv_init s Hs) Ex) as Ix.
  destruct (py_facts s dt i x y Hs Hdt Hi Ix Ey) as (_ & _ & _ & _ & O & _).
  specialize (O (or_introl W)). fold ia in O. unfold py_outcome in O.
  assert (Hia : 0 < ia) by (apply Rmult_lt_0_compat; [exact W|apply Rinv_0_lt_compat; exact Hdt]).
  assert (Et : gF x + ia * dt = top) by (unfold ia, top; field; lra).
  cbv zeta in O. rewrite Et in O. destruct O as (O1 & O2 & O3). split; [exact O1|]. split; [|exact O3].
  intros N L. apply O2; auto.
Qed.

(** C64: what holds of every state of that class, and the limits of a step. *)
Theorem C64_python_class_keeps_bounds : forall s l dt i x y,
  soil_ok s -> rain_ok l -> 0 < dt -> 0 <= i ->
  py_history s (ginit s) l = Some x -> py_step s dt i x = Some y ->
  0 <= gd y /\ 0 <= gtheta_du y <= theta_s s - theta_i s /\ 0 < gtheta_d y <= theta_s s - theta_i s /\
  (0 < gF x -> 0 < i * dt + gd x -> 0 <= gf y * dt <= i * dt + gd x + tolerance).
Proof.
  intros s l dt i x y Hs Hl Hdt Hi Ex Ey.
  pose proof (py_history_inv s l Hs Hl _ _ (pinv_init s Hs) Ex) as Ix.
  destruct (py_facts s dt i x y Hs Hdt Hi Ix Ey) as (Iy & _ & _ & W & _).
  destruct Iy as (J1 & J2 & J3 & _). split; [exact J1|]. split; [exact J2|]. split; [exact J3|].
  intros HF Hw. destruct (W Hw) as [WF _].
  destruct (C64_python_class_follows_green_ampt s l dt i x y Hs Hl Hdt Hi Ex Ey Hw) as (O1 & O2 & O3).
  cbv zeta in *. set (ia := (i * dt + gd x) / dt) in *.
  set (Fs := ponding_depth_needed (Ks s) (psi_f s) (gtheta_d x) ia) in *.
  assert (Tp : 0 < tolerance) by (unfold tolerance; lra).
  assert (Dec : (gsat x = true \/ Ks s < ia /\ Fs <= gF x) \/ ~ (gsat x = true \/ Ks s < ia /\ Fs <= gF x)).
  { destruct (gsat x); [left; left; reflexivity|].
    destruct (Rlt_or_le (Ks s) ia); [|right; intros [N|N]; [discriminate|lra]].
    destruct (Rle_or_lt Fs (gF x)); [left; right; lra|right; intros [N|N]; [discriminate|lra]]. }
  destruct Dec as [S|S].
  - destruct (O1 S) as (r & [R1 _] & R2 & _). revert R2. unfold Rmin. repeat destruct (Rle_dec _ _); lra.
  - destruct (Rle_or_lt ia (Ks s)) as [K|K]; [destruct (O2 S (or_introl K)); lra|].
    destruct (Rlt_or_le (gF x + (i * dt + gd x)) Fs) as [L|L]; [destruct (O2 S (or_intror L)); lra|].
    destruct (O3 S K L HF) as (_ & r & [R1 _] & R2 & R3).
    assert (gF x < Fs) by (destruct (Rle_or_lt Fs (gF x)); [exfalso; apply S; right; lra|assumption]). lra.
Qed.

(** C64: that class completes a step that starts with a positive cumulative depth, or that needs no root. *)
Theorem C64_python_class_defined : forall s l dt i x,
  soil_ok s -> rain_ok l -> 0 < dt -> 0 <= i -> py_history s (ginit s) l = Some x ->
  (0 < gF x /\ (Ks s * dt + (i * dt + gd x)) * (1 + psi_f s * gtheta_d x / gF x) <= 4 * 10 ^ 6) \/
  (gsat x = false /\ i * dt + gd x <= Ks s * dt) ->
  exists y, py_step s dt i x = Some y.
Proof.
  intros s l dt i x Hs Hl Hdt Hi Ex H.
  pose proof (py_history_inv s l Hs Hl _ _ (pinv_init s Hs) Ex) as (I1 & I2 & I3 & I4).
  pose proof Hs as (Hp & HK & _ & _).
  unfold py_step, gstep_with. set (ia := i + gd x / dt).
  assert (Esup : i * dt + gd x = ia * dt) by (unfold ia; field; lra). rewrite Esup in H.
  assert (Hia : 0 <= ia).
  { unfold ia. assert (0 <= gd x / dt) by (apply Rmult_le_pos; [lra|apply Rlt_le, Rinv_0_lt_compat; lra]). lra. }
  cbv zeta. cbn [gsat].
  match goal with |- exists y, bind ?o _ = _ => assert (D : exists z, o = Some z) end.
  2:{ destruct D as [z ->]. cbn [bind]. eauto. }
  assert (Sat : forall x', gF x' = gF x -> gtheta_d x' = gtheta_d x -> 0 < gF x ->
                (Ks s * dt + ia * dt) * (1 + psi_f s * gtheta_d x / gF x) <= 4 * 10 ^ 6 ->
                exists z, saturated_case_with py_newton s dt ia x' = Some z).
  { intros x' E1 E2 HF HB. unfold saturated_case_with. rewrite E1, E2.
    destruct (py_newton_facts (gF x) (gF x) dt (Ks s) (gtheta_d x) (psi_f s) ia Hp (proj1 I3) HK (Rlt_le _ _ Hdt) HF (Rle_refl _))
      as (rt & _ & _ & _ & _ & R5).
    destruct R5 as [F2 ->]; [|cbn [bind]; eauto].
    apply Rle_trans with (2 := HB). apply Rmult_le_compat_r.
    - assert (0 < psi_f s * gtheta_d x / gF x) by (apply Rmult_lt_0_compat; [nra|apply Rinv_0_lt_compat; lra]). lra.
    - assert (0 <= ia * dt) by nra. lra. }
  destruct (gsat x) eqn:Sx.
  - destruct H as [[HF HB]|[N _]]; [|discriminate]. apply Sat; auto.
  - destruct (Rleb_spec ia (Ks s)) as [K|K]; [eauto|].
    destruct (Reqb_spec ia 0) as [Z|_]; [exfalso; lra|].
    destruct H as [[HF HB]|[_ N]].
    2:{ exfalso. apply K. apply (Rmult_le_reg_r dt); auto. }
    unfold unsaturated_case_3_with. cbn [gF gtheta_d]. cbv zeta.
    set (Fs := Ks s * psi_f s * gtheta_d x / (ia - Ks s)).
    destruct (Rleb_spec Fs (gF x)) as [C0|C0]; [apply Sat; auto|].
    cbn [negb andb]. rewrite Bool.andb_true_r.
    destruct (Rltb_spec (gF x + ia * dt) Fs) as [C1|C1]; [eauto|].
    assert (Ht : 0 <= dt - (Fs - gF x) / ia).
    { assert ((Fs - gF x) / ia <= dt); [|lra]. apply Rmult_le_reg_r with ia; [lra|].
      unfold Rdiv; rewrite Rmult_assoc, Rinv_l; lra. }
    destruct (py_newton_facts (gF x) Fs (dt - (Fs - gF x) / ia) (Ks s) (gtheta_d x) (psi_f s) ia Hp (proj1 I3) HK Ht HF ltac:(lra))
      as (rt & _ & _ & _ & _ & R5).
    destruct R5 as [F2 ->]; [|cbn [bind]; eauto].
    apply Rle_trans with (2 := HB). apply Rmult_le_compat_r.
    + assert (0 < psi_f s * gtheta_d x / gF x) by (apply Rmult_lt_0_compat; [nra|apply Rinv_0_lt_compat; lra]). lra.
    + assert (0 <= (Fs - gF x) / ia) by (apply Rmult_le_pos; [lra|apply Rlt_le, Rinv_0_lt_compat; lra]).
      assert (Ks s * (dt - (Fs - gF x) / ia) <= Ks s * dt) by (apply Rmult_le_compat_l; lra). lra.
Qed.

(** C64, refuted: on soil that has not taken water yet, the first rain heavy enough to pond makes the class without numba
    raise, while the compiled class completes the step. *)
Theorem C64_first_storm_refuted : forall s dt i,
  soil_ok s -> 0 < dt -> Ks s < i -> ponding_depth_needed (Ks s) (psi_f s) (theta_s s - theta_i s) i <= i * dt ->
  i * dt < 8 * 10 ^ 6 ->
  py_step s dt i (ginit s) = None /\ exists y, gstep s dt i (ginit s) = Some y.
Proof.
  intros s dt i Hs Hdt Hi HF HM. pose proof (dmax_pos s Hs) as Hm. pose proof Hs as (Hp & HK & _ & _). split.
  - unfold py_step, gstep_with. change (gd (ginit s)) with 0. replace (i + 0 / dt) with i by (unfold Rdiv; ring).
    cbv zeta. cbn [gsat ginit gd gF gf gT gtheta_du gtheta_d gQ giter gt].
    destruct (Reqb_spec i 0) as [Z|_]; [exfalso; lra|].
    destruct (Rleb_spec i (Ks s)) as [K|_]; [exfalso; lra|].
    unfold unsaturated_case_3_with. cbn [gF gtheta_d]. cbv zeta.
    change (Ks s * psi_f s * theta_dmax s / (i - Ks s)) with (ponding_depth_needed (Ks s) (psi_f s) (theta_s s - theta_i s) i).
    set (Fs := ponding_depth_needed (Ks s) (psi_f s) (theta_s s - theta_i s) i) in *.
    assert (HFs : 0 < Fs).
    { unfold Fs, ponding_depth_needed. fold (theta_dmax s). apply Rmult_lt_0_compat; [apply Rmult_lt_0_compat; nra|apply Rinv_0_lt_compat; lra]. }
    destruct (Rleb_spec Fs 0) as [C0|C0]; [exfalso; lra|]. cbn [negb andb]. rewrite Bool.andb_true_r.
    destruct (Rltb_spec (0 + i * dt) Fs) as [C1|C1]; [exfalso; lra|].
    rewrite py_newton_eq by exact Hp.
    assert (Ha : 0 < psi_f s * theta_dmax s) by nra. set (a := psi_f s * theta_dmax s) in *.
    set (c := Ks s * (dt - (Fs - 0) / i) + Fs - a * ln (Fs + a)).
    assert (Ht : 0 <= dt - (Fs - 0) / i).
    { assert ((Fs - 0) / i <= dt); [|lra]. apply Rmult_le_reg_r with i; [lra|].
      unfold Rdiv; rewrite Rmult_assoc, Rinv_l; lra. }
    assert (F0 : 0 < c + a * ln (0 + a) - 0).
    { pose proof (f_decr a c Ha 0 Fs ltac:(lra) HFs) as D. cbv beta in D.
      assert (c + a * ln (Fs + a) - Fs = Ks s * (dt - (Fs - 0) / i)) by (unfold c; ring).
      assert (0 <= Ks s * (dt - (Fs - 0) / i)) by nra. lra. }
    assert (E0 : scipy_newton (fun y => if Rltb 0 (y + a) then Some (c + a * ln (y + a) - y) else None)
                   (fun y => a / (a + y) - 1) ga_atol (S 49) 0 = None).
    { generalize 49%nat as n. intros n. cbn [scipy_newton]. destruct (Rltb_spec 0 (0 + a)) as [_|N]; [|lra]. cbn [bind].
      destruct (Reqb_spec (c + a * ln (0 + a) - 0) 0) as [Z|_]; [lra|].
      destruct (Reqb_spec (a / (a + 0) - 1) 0) as [_|N]; [reflexivity|].
      exfalso. apply N. rewrite Rplus_0_r. field. lra. }
    rewrite E0. reflexivity.
  - apply (C12_step_never_raises s [] dt i (ginit s) Hs ltac:(constructor) Hdt ltac:(lra) eq_refl). simpl. lra.
Qed.

Lemma residual_slope K psi th F1 tau m u v : 0 < psi * th -> 0 <= F1 -> 0 < m -> m <= v -> v <= u ->
  u - v <= (ga_residual K psi th F1 tau u - ga_residual K psi th F1 tau v) * (1 + psi * th / m).
Proof.
  intros Ha HF Hm Hv Hu. rewrite !residual_eq by lra. set (a := psi * th) in *.
  set (c := K * tau + F1 - a * ln (F1 + a)).
  pose proof (f_tangent a c Ha v u ltac:(lra) ltac:(lra)) as T. cbv beta in T.
  set (d := - (c + a * ln (u + a) - u) - - (c + a * ln (v + a) - v)).
  assert (D : (u - v) * (v / (v + a)) <= d).
  { unfold d. replace ((a / (a + v) - 1) * (u - v)) with (- ((u - v) * (v / (v + a)))) in T by (field; lra). lra. }
  assert (P : 0 < v / (v + a)) by (apply Rmult_lt_0_compat; [lra|apply Rinv_0_lt_compat; lra]).
  assert (D0 : 0 <= d) by (assert (0 <= (u - v) * (v / (v + a))) by (apply Rmult_le_pos; lra); lra).
  apply Rle_trans with (d * (1 + a / v)).
  - replace (u - v) with ((u - v) * (v / (v + a)) * (1 + a / v)) by (field; lra).
    apply Rmult_le_compat_r; auto. assert (0 < a / v) by (apply Rmult_lt_0_compat; [lra|apply Rinv_0_lt_compat; lra]). lra.
  - apply Rmult_le_compat_l; auto. apply Rplus_le_compat_l. apply Rmult_le_compat_l; [lra|]. apply Rinv_le_contravar; lra.
Qed.
Lemma agree_bound K psi th F1 tau top m r F F' : 0 < psi * th -> 0 <= F1 -> 0 < m -> m <= F1 - tolerance ->
  ga_exact K psi th F1 tau r -> Rmin r top <= F <= Rmin (r + tolerance) top -> ga_limited K psi th F1 tau top F' ->
  Rabs (F - F') <= tolerance * (2 + psi * th / m).
Proof.
  intros Ha HF1 Hm Hmf [R1 R2] HF ([L1 L2] & L3 & L4).
  assert (Tp : 0 < tolerance) by (unfold tolerance; lra).
  assert (Q : 0 < psi * th / m) by (apply Rmult_lt_0_compat; [lra|apply Rinv_0_lt_compat; lra]).
  assert (Q1 : 0 < tolerance * (psi * th / m)) by (apply Rmult_lt_0_compat; lra).
  assert (Inc : forall u v, m <= v -> v <= u -> ga_residual K psi th F1 tau v <= ga_residual K psi th F1 tau u).
  { intros u v Hv Hu. pose proof (residual_slope K psi th F1 tau m u v Ha HF1 Hm Hv Hu) as S.
    apply (Rmult_le_reg_r (1 + psi * th / m)); [lra|].
    replace (ga_residual K psi th F1 tau u * (1 + psi * th / m)) with
      (ga_residual K psi th F1 tau v * (1 + psi * th / m) + (ga_residual K psi th F1 tau u - ga_residual K psi th F1 tau v) * (1 + psi * th / m)) by ring.
    lra. }
  destruct (Rle_or_lt (ga_residual K psi th F1 tau top) 0) as [C|C].
  - specialize (L3 C).
    assert (top <= r).
    { destruct (Rle_or_lt top r) as [|N]; auto. exfalso.
      pose proof (residual_slope K psi th F1 tau m top r Ha HF1 Hm ltac:(lra) ltac:(lra)) as S. rewrite R2 in S.
      assert ((ga_residual K psi th F1 tau top - 0) * (1 + psi * th / m) <= 0) by nra. lra. }
    rewrite Rmin_right in HF by lra. rewrite Rmin_right in HF by lra.
    replace (tolerance * (2 + psi * th / m)) with (2 * tolerance + tolerance * (psi * th / m)) by ring.
    unfold Rabs; destruct (Rcase_abs _); lra.
  - specialize (L4 C).
    assert (r < top).
    { destruct (Rlt_or_le r top) as [|N]; auto. exfalso.
      destruct (Rle_or_lt m top) as [M|M]; [pose proof (Inc r top M N); lra|]. lra. }
    assert (HF2 : r <= F <= r + tolerance).
    { revert HF. unfold Rmin. repeat destruct (Rle_dec _ _); lra. }
    assert (B : Rabs (F' - r) <= tolerance * (1 + psi * th / m)).
    { destruct (Rle_or_lt F' r) as [O|O].
      - pose proof (residual_slope K psi th F1 tau m r F' Ha HF1 Hm ltac:(lra) O) as S. rewrite R2 in S.
        rewrite Rabs_left1 by lra. apply Rle_trans with (1 := ltac:(lra) : - (F' - r) <= r - F').
        apply Rle_trans with (1 := S). apply Rmult_le_compat_r; [lra|].
        revert L4. unfold Rabs; destruct (Rcase_abs _); lra.
      - pose proof (residual_slope K psi th F1 tau m F' r Ha HF1 Hm ltac:(lra) ltac:(lra)) as S. rewrite R2 in S.
        rewrite Rabs_right by lra. apply Rle_trans with (1 := S). apply Rmult_le_compat_r; [lra|].
        revert L4. unfold Rabs; destruct (Rcase_abs _); lra. }
    replace (tolerance * (2 + psi * th / m)) with (tolerance + tolerance * (1 + psi * th / m)) by ring.
    replace (F - F') with ((F - r) - (F' - r)) by ring.
    apply Rle_trans with (1 := Rabs_triang _ _). rewrite Rabs_Ropp. rewrite (Rabs_right (F - r)) by lra. lra.
Qed.

(** C64: from the same state, with water available and a cumulative depth above the solver tolerance, one step of the two
    classes gives the same cumulative depth up to that tolerance times a factor, and the same deficit; they agree exactly if
    the rain does not make the surface pond. *)
Theorem C64_classes_agree_for_one_step : forall s l dt i x y y',
  soil_ok s -> rain_ok l -> 0 < dt -> 0 <= i -> py_history s (ginit s) l = Some x -> 0 < i * dt + gd x ->
  py_step s dt i x = Some y -> gstep s dt i x = Some y' ->
  (tolerance < gF x ->
     Rabs (gF y - gF y') <= tolerance * (2 + psi_f s * gtheta_d x / (gF x - tolerance)) /\ gtheta_d y = gtheta_d y') /\
  (gsat x = false -> i * dt + gd x <= Ks s * dt -> y = y').
Proof.
  intros s l dt i x y y' Hs Hl Hdt Hi Ex W Ey Ey'.
  pose proof (py_history_inv s l Hs Hl _ _ (pinv_init s Hs) Ex) as Ix.
  split.
  - intros HF. assert (Jx : inv s x) by (destruct Ix as (? & ? & ? & J); unfold inv; repeat split; try lra; intros T; specialize (J T); lra).
    assert (Tp : 0 < tolerance) by (unfold tolerance; lra).
    destruct (py_facts s dt i x y Hs Hdt Hi Ix Ey) as (_ & _ & _ & PW & PO & _).
    destruct (step_facts s dt i x y' Hs Hdt Hi Jx Ey') as (_ & _ & _ & NW & _).
    destruct (PW W) as (_ & PD). destruct (NW W) as (_ & NO & ND). split; [|congruence].
    specialize (PO (or_introl W)). unfold py_outcome, wet_outcome in *. cbv zeta in *.
    set (ia := (i * dt + gd x) / dt) in *.
    set (Fs := ponding_depth_needed (Ks s) (psi_f s) (gtheta_d x) ia) in *.
    destruct PO as (P1 & P2 & P3). destruct NO as (N1 & N2 & N3).
    pose proof Hs as (Hp & HK & _ & _). destruct Ix as (_ & _ & I3 & _).
    assert (Ha : 0 < psi_f s * gtheta_d x) by (apply Rmult_lt_0_compat; lra).
    assert (Hia : 0 < ia) by (apply Rmult_lt_0_compat; [exact W|apply Rinv_0_lt_compat; exact Hdt]).
    assert (B0 : 0 <= tolerance * (2 + psi_f s * gtheta_d x / (gF x - tolerance))).
    { assert (0 < psi_f s * gtheta_d x / (gF x - tolerance)) by (apply Rmult_lt_0_compat; [lra|apply Rinv_0_lt_compat; lra]). nra. }
    assert (Dec : (gsat x = true \/ Ks s < ia /\ Fs <= gF x) \/ ~ (gsat x = true \/ Ks s < ia /\ Fs <= gF x)).
    { destruct (gsat x); [left; left; reflexivity|].
      destruct (Rlt_or_le (Ks s) ia); [|right; intros [N|N]; [discriminate|lra]].
      destruct (Rle_or_lt Fs (gF x)); [left; right; lra|right; intros [N|N]; [discriminate|lra]]. }
    destruct Dec as [S|S].
    + destruct (P1 S) as (r & R1 & R2 & _). destruct (N1 S) as (R3 & _).
      apply (agree_bound (Ks s) _ _ (gF x) dt (gF x + ia * dt) (gF x - tolerance) r); auto; lra.
    + destruct (Rle_or_lt ia (Ks s)) as [K|K].
      { destruct (P2 S (or_introl K) Hia) as [-> _]. rewrite (N2 S (or_introl K)).
        rewrite Rminus_diag_eq, Rabs_R0 by reflexivity. exact B0. }
      destruct (Rlt_or_le (gF x + ia * dt) Fs) as [L|L].
      { destruct (P2 S (or_intror L) Hia) as [-> _]. rewrite (N2 S (or_intror L)).
        rewrite Rminus_diag_eq, Rabs_R0 by reflexivity. exact B0. }
      destruct (P3 S K L ltac:(lra)) as (_ & r & R1 & R2 & R3). specialize (N3 S K L).
      assert (gF x < Fs) by (destruct (Rle_or_lt Fs (gF x)); [exfalso; apply S; right; lra|assumption]).
      destruct (Rle_or_lt (gF y) (gF x + ia * dt)) as [U|U].
      * apply (agree_bound (Ks s) _ _ Fs (dt - (Fs - gF x) / ia) (gF x + ia * dt) (gF x - tolerance) r); auto; try lra.
        unfold Rmin. repeat destruct (Rle_dec _ _); lra.
      * (* above the supply by less than the tolerance: compare through the supply itself *)
        pose proof (agree_bound (Ks s) (psi_f s) (gtheta_d x) Fs (dt - (Fs - gF x) / ia) (gF x + ia * dt) (gF x - tolerance) r
          r (gF y') Ha ltac:(lra) ltac:(lra) ltac:(lra) R1) as A.
        specialize (A ltac:(unfold Rmin; repeat destruct (Rle_dec _ _); lra) N3).
        destruct N3 as ([V1 V2] & V3 & V4).
        assert (Q : 0 < psi_f s * gtheta_d x / (gF x - tolerance)) by (apply Rmult_lt_0_compat; [lra|apply Rinv_0_lt_compat; lra]).
        assert (Q1 : 0 < tolerance * (psi_f s * gtheta_d x / (gF x - tolerance))) by (apply Rmult_lt_0_compat; lra).
        rewrite Rabs_right by lra.
        destruct (Rle_or_lt (ga_residual (Ks s) (psi_f s) (gtheta_d x) Fs (dt - (Fs - gF x) / ia) (gF x + ia * dt)) 0) as [C|C].
        { specialize (V3 C). lra. }
        specialize (V4 C). destruct R1 as [Q2 Q3].
        destruct (Rle_or_lt r (gF y')) as [O|O]; [lra|].
        pose proof (residual_slope (Ks s) (psi_f s) (gtheta_d x) Fs (dt - (Fs - gF x) / ia) (gF x - tolerance) r (gF y')
                      Ha ltac:(lra) ltac:(lra) ltac:(lra) ltac:(lra)) as Sl.
        rewrite Q3 in Sl.
        assert (0 - ga_residual (Ks s) (psi_f s) (gtheta_d x) Fs (dt - (Fs - gF x) / ia) (gF y') <= tolerance)
          by (revert V4; unfold Rabs; destruct (Rcase_abs _); lra).
        assert (r - gF y' <= tolerance * (1 + psi_f s * gtheta_d x / (gF x - tolerance))).
        { apply Rle_trans with (1 := Sl). apply Rmult_le_compat_r; lra. }
        lra.
  - intros Sx Hw. revert Ey Ey'. unfold py_step, gstep_with, gstep. set (ia := i + gd x / dt).
    assert (Esup : i * dt + gd x = ia * dt) by (unfold ia; field; lra). rewrite Esup in Hw.
    cbv zeta. cbn [gsat]. rewrite Sx.
    destruct (Rleb_spec ia (Ks s)) as [K|K]; [|exfalso; apply K; apply (Rmult_le_reg_r dt); auto].
    cbn [bind]. congruence.
Qed.

(** C64, refuted: a recovering soil can have a negative cumulative depth; rain that makes it pond then drives the root
    finder of the class without numba to a negative depth, or it raises.  The Green-Ampt depth is at least the
    ponding depth. *)
Theorem C64_negative_depth_refuted : forall s dt i x y,
  soil_ok s -> 0 < dt -> 0 <= i -> gsat x = false -> 0 < gtheta_d x -> gF x < 0 ->
  let ia := i + gd x / dt in
  Ks s < ia -> ponding_depth_needed (Ks s) (psi_f s) (gtheta_d x) ia <= gF x + ia * dt ->
  py_step s dt i x = Some y -> gF y < 0.
Proof.
  intros s dt i x y Hs Hdt Hi Sx Hth HF ia Hia HT. pose proof Hs as (Hp & HK & _ & _).
  unfold py_step, gstep_with. fold ia. cbv zeta. cbn [gsat]. rewrite Sx.
  destruct (Reqb_spec ia 0) as [Z|_]; [exfalso; lra|].
  destruct (Rleb_spec ia (Ks s)) as [K|_]; [exfalso; lra|].
  unfold unsaturated_case_3_with. cbn [gF gtheta_d]. cbv zeta.
  change (Ks s * psi_f s * gtheta_d x / (ia - Ks s)) with (ponding_depth_needed (Ks s) (psi_f s) (gtheta_d x) ia).
  set (Fs := ponding_depth_needed (Ks s) (psi_f s) (gtheta_d x) ia) in *.
  assert (HFs : 0 < Fs).
  { unfold Fs, ponding_depth_needed. apply Rmult_lt_0_compat; [apply Rmult_lt_0_compat; nra|apply Rinv_0_lt_compat; lra]. }
  destruct (Rleb_spec Fs (gF x)) as [C0|_]; [exfalso; lra|]. cbn [negb andb]. rewrite Bool.andb_true_r.
  destruct (Rltb_spec (gF x + ia * dt) Fs) as [C1|_]; [exfalso; lra|].
  rewrite py_newton_eq by exact Hp.
  assert (Ha : 0 < psi_f s * gtheta_d x) by nra. set (a := psi_f s * gtheta_d x) in *.
  set (c := Ks s * (dt - (Fs - gF x) / ia) + Fs - a * ln (Fs + a)).
  assert (Ht : 0 <= dt - (Fs - gF x) / ia).
  { assert ((Fs - gF x) / ia <= dt); [|lra]. apply Rmult_le_reg_r with ia; [lra|].
    unfold Rdiv; rewrite Rmult_assoc, Rinv_l; lra. }
  assert (F0 : 0 < c + a * ln a).
  { pose proof (f_decr a c Ha 0 Fs ltac:(lra) HFs) as D. cbv beta in D. rewrite Rplus_0_l, Rminus_0_r in D.
    assert (c + a * ln (Fs + a) - Fs = Ks s * (dt - (Fs - gF x) / ia)) by (unfold c; ring).
    assert (0 <= Ks s * (dt - (Fs - gF x) / ia)) by nra. lra. }
  assert (N : forall n z y0, z < 0 ->
    scipy_newton (fun y => if Rltb 0 (y + a) then Some (c + a * ln (y + a) - y) else None) (fun y => a / (a + y) - 1) ga_atol n z = Some y0 ->
    y0 < 0).
  { induction n as [|n IH]; intros z y0 Hz; cbn [scipy_newton]; [discriminate|].
    destruct (Rltb_spec 0 (z + a)) as [Pz|_]; cbn [bind]; [|discriminate].
    destruct (Reqb_spec (c + a * ln (z + a) - z) 0) as [E|E]; [intros R; injection R as <-; exact Hz|].
    destruct (Reqb_spec (a / (a + z) - 1) 0) as [D|D]; [discriminate|].
    assert (Sl : 0 < a / (a + z) - 1).
    { replace (a / (a + z) - 1) with (- z / (a + z)) by (field; lra).
      apply Rmult_lt_0_compat; [lra|apply Rinv_0_lt_compat; lra]. }
    assert (T : c + a * ln a <= c + a * ln (z + a) - z + (a / (a + z) - 1) * (0 - z)).
    { pose proof (ln_le_sub1 (a / (z + a))) as L.
      assert (V : 0 < a / (z + a)) by (apply Rmult_lt_0_compat; [lra|apply Rinv_0_lt_compat; lra]).
      specialize (L V). unfold Rdiv in L at 1. rewrite ln_mult, ln_Rinv in L by (try apply Rinv_0_lt_compat; lra).
      apply (Rmult_le_compat_l a) in L; [|lra].
      replace ((a / (a + z) - 1) * (0 - z)) with (z + a * (a / (z + a) - 1)) by (field; lra). lra. }
    set (v := c + a * ln (z + a) - z) in *. set (d := a / (a + z) - 1) in *.
    assert (Hq : z - v / d < 0).
    { apply (Rmult_lt_reg_l d); auto. replace (d * (z - v / d)) with (- (v + d * (0 - z))) by (field; lra). lra. }
    destruct (Rleb_spec (Rabs (z - v / d - z)) ga_atol); [intros R; injection R as <-; exact Hq|].
    apply IH. exact Hq. }
  match goal with |- bind (bind ?o _) _ = _ -> _ => destruct o as [F2|] eqn:E end; cbn [bind]; [|discriminate].
  intros R; injection R as <-. cbn [gF]. apply (N 50%nat (gF x) F2 HF E).
Qed.
