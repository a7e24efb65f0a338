(** Property C94: the suction head handed to the infiltration model is that of the Brooks-Corey soil. *)
From Verif Require Import Prelude M_Coeffs M_Numerics M_Infiltration S_Numerics L_Coeffs P_Infiltration P_SoilConstants.
From Verif Require Import M_Suction.

(** ** Specification: a Brooks-Corey soil *)

(** Degree of saturation; conductivity and tension of the soil at moisture [th]. *)
Definition saturation (theta_s theta_r th : R) : R := (th - theta_r) / (theta_s - theta_r).
Definition conductivity (theta_s theta_r Ks lambda_o th : R) : R := Ks * Rpower (saturation theta_s theta_r th) (3 + 2 / lambda_o).
Definition tension (theta_s theta_r psi_b lambda_o th : R) : R := psi_b * Rpower (saturation theta_s theta_r th) (- (1 / lambda_o)).

Lemma power_step theta_s theta_r a c th : theta_r < theta_s -> theta_r < th ->
  derivable_pt_lim (fun x => c * Rpower (saturation theta_s theta_r x) a) th
    (c * (a * Rpower (saturation theta_s theta_r th) (a - 1) / (theta_s - theta_r))).
Proof.
  intros Hr Ht. apply (derivable_pt_lim_scal (fun x => Rpower (saturation theta_s theta_r x) a)).
  assert (Hs : 0 < saturation theta_s theta_r th) by (apply Rdiv_lt_0_compat; lra).
  replace (a * Rpower (saturation theta_s theta_r th) (a - 1) / (theta_s - theta_r))
    with (a * Rpower (saturation theta_s theta_r th) (a - 1) * (1 / (theta_s - theta_r))) by (field; lra).
  apply (derivable_pt_lim_comp (saturation theta_s theta_r) (fun x => Rpower x a)).
  - assert (E : derivable_pt_lim (fun x => (x - theta_r) * / (theta_s - theta_r)) th ((1 - 0) * / (theta_s - theta_r) + (th - theta_r) * 0)).
    { apply (derivable_pt_lim_mult (fun x => x - theta_r) (fun _ => / (theta_s - theta_r))); [|apply derivable_pt_lim_const].
      apply (derivable_pt_lim_minus (fun x => x) (fun _ => theta_r)); [apply derivable_pt_lim_id|apply derivable_pt_lim_const]. }
    replace (1 / (theta_s - theta_r)) with ((1 - 0) * / (theta_s - theta_r) + (th - theta_r) * 0) by (field; lra). exact E.
  - apply derivable_pt_lim_power, Hs.
Qed.

(** The value in closed form. *)
Lemma suction_value theta_i theta_s theta_r Ks psi_b lambda_o :
  theta_r <= theta_i < theta_s -> 0 < Ks -> 0 < lambda_o ->
  suction_head theta_i theta_s theta_r Ks psi_b lambda_o =
  Some (psi_b / (1 + 3 * lambda_o) * (1 - fpow (theta_i - theta_r) (1 / lambda_o + 3) / fpow (theta_s - theta_r) (1 / lambda_o + 3))).
Proof.
  intros [H1 H2] HK Hl. unfold suction_head, s2, div, float_pow.
  assert (0 < 1 / lambda_o) by (apply Rdiv_lt_0_compat; lra).
  destruct (Reqb_spec lambda_o 0); [lra|]. cbn [bind].
  destruct (Rltb_spec (theta_s - theta_r) 0); [lra|]. destruct (Rltb_spec (theta_i - theta_r) 0); [lra|]. cbn [bind].
  destruct (fpow_pos (theta_s - theta_r) (1 / lambda_o + 3) ltac:(lra)) as [_ P].
  set (ps := fpow (theta_s - theta_r) (1 / lambda_o + 3)) in *. set (pi := fpow (theta_i - theta_r) (1 / lambda_o + 3)).
  assert (E : lambda_o * ps * (1 / lambda_o + 3) = ps * (1 + 3 * lambda_o)) by (field; lra).
  rewrite E. destruct (Reqb_spec (ps * (1 + 3 * lambda_o)) 0) as [Q|]; [exfalso; assert (0 < ps * (1 + 3 * lambda_o)) by (apply Rmult_lt_0_compat; lra); lra|].
  cbn [bind]. destruct (Reqb_spec (2 * Ks * (theta_s - theta_i)) 0) as [Q|].
  - exfalso. assert (0 < Ks * (theta_s - theta_i)) by (apply Rmult_lt_0_compat; lra). lra.
  - f_equal. field. repeat split; lra.
Qed.

(** C94: the suction head times the saturated conductivity is the drop of the flow potential between saturation and the
    initial moisture, for every flow potential [Phi] of the soil (an antiderivative of conductivity times the slope of the
    tension). *)
Theorem C94_suction_head_is_the_capillary_drive : forall theta_i theta_s theta_r Ks psi_b lambda_o Phi slope,
  theta_r < theta_i < theta_s -> 0 < Ks -> 0 < lambda_o ->
  (forall th, theta_i <= th <= theta_s ->
     derivable_pt_lim (tension theta_s theta_r psi_b lambda_o) th (slope th) /\
     derivable_pt_lim Phi th (conductivity theta_s theta_r Ks lambda_o th * - slope th)) ->
  exists psi, suction_head theta_i theta_s theta_r Ks psi_b lambda_o = Some psi /\ Ks * psi = Phi theta_s - Phi theta_i.
Proof.
  intros theta_i theta_s theta_r Ks psi_b lambda_o Phi slope [H1 H2] HK Hl HP.
  rewrite suction_value by lra. eexists. split; [reflexivity|].
  assert (0 < 1 / lambda_o) by (apply Rdiv_lt_0_compat; lra).
  set (e := 1 / lambda_o + 3) in *. set (Se := saturation theta_s theta_r).
  assert (Hs : forall th, theta_i <= th <= theta_s -> 0 < Se th) by (intros; apply Rdiv_lt_0_compat; lra).
  set (G := fun th => Ks * psi_b / (1 + 3 * lambda_o) * Rpower (Se th) e).
  assert (D : forall th, theta_i <= th <= theta_s -> derivable_pt_lim (fun x => Phi x - G x) th 0).
  { intros th Ht. destruct (HP th Ht) as [DT DP].
    pose proof (power_step theta_s theta_r (- (1 / lambda_o)) psi_b th ltac:(lra) ltac:(lra)) as DT'.
    rewrite (uniqueness_limite _ _ _ _ DT DT') in DP.
    pose proof (power_step theta_s theta_r e (Ks * psi_b / (1 + 3 * lambda_o)) th ltac:(lra) ltac:(lra)) as DG.
    pose proof (derivable_pt_lim_minus Phi G th _ _ DP DG) as DM. fold Se in DM.
    assert (EP : Rpower (Se th) (3 + 2 / lambda_o) * Rpower (Se th) (- (1 / lambda_o) - 1) = Rpower (Se th) (e - 1)).
    { rewrite <- Rpower_plus. f_equal. unfold e. field. lra. }
    assert (Z : conductivity theta_s theta_r Ks lambda_o th *
      - (psi_b * (- (1 / lambda_o) * Rpower (Se th) (- (1 / lambda_o) - 1) / (theta_s - theta_r))) -
      Ks * psi_b / (1 + 3 * lambda_o) * (e * Rpower (Se th) (e - 1) / (theta_s - theta_r)) = 0).
    { unfold conductivity. fold Se. rewrite <- EP. unfold e. field. repeat split; lra. }
    rewrite Z in DM. exact DM. }
  destruct (MVT_cor2 (fun x => Phi x - G x) (fun _ => 0) theta_i theta_s H2) as (c & E & _); [intros c Hc; apply D; lra|].
  assert (GG : G theta_s - G theta_i = Ks * (psi_b / (1 + 3 * lambda_o) * (1 - fpow (theta_i - theta_r) e / fpow (theta_s - theta_r) e))).
  { destruct (fpow_pos (theta_i - theta_r) e ltac:(lra)) as [-> _]. destruct (fpow_pos (theta_s - theta_r) e ltac:(lra)) as [-> Pp].
    unfold G. assert (S1 : Se theta_s = 1) by (unfold Se, saturation; field; lra). rewrite S1.
    assert (S2 : Rpower 1 e = 1) by (unfold Rpower; rewrite ln_1, Rmult_0_r; apply exp_0). rewrite S2.
    assert (S3 : Rpower (Se theta_i) e = Rpower (theta_i - theta_r) e / Rpower (theta_s - theta_r) e).
    { assert (X : Rpower (theta_i - theta_r) e = Rpower (Se theta_i) e * Rpower (theta_s - theta_r) e).
      { rewrite Rpower_mult_distr by (try apply Hs; lra). f_equal. unfold Se, saturation. field. lra. }
      rewrite X. field. unfold Rpower. pose proof (exp_pos (e * ln (theta_s - theta_r))). lra. }
    rewrite S3. field. split; [|lra]. unfold Rpower. pose proof (exp_pos (e * ln (theta_s - theta_r))). lra. }
  rewrite <- GG. lra.
Qed.

(** C94: for every initial moisture from the residual one up to, but not including, saturation there is a suction head; it
    is positive and at most psi_b / (1 + 3 lambda), does not depend on the conductivity, and is smaller for wetter soils. *)
Theorem C94_wetter_soils_suck_less : forall theta_i theta_s theta_r Ks psi_b lambda_o,
  theta_r <= theta_i < theta_s -> 0 < Ks -> 0 < psi_b -> 0 < lambda_o ->
  exists psi, suction_head theta_i theta_s theta_r Ks psi_b lambda_o = Some psi /\
    0 < psi <= psi_b / (1 + 3 * lambda_o) /\
    (theta_i = theta_r -> psi = psi_b / (1 + 3 * lambda_o)) /\
    (forall Ks', 0 < Ks' -> suction_head theta_i theta_s theta_r Ks' psi_b lambda_o = Some psi) /\
    (forall theta_i', theta_i < theta_i' < theta_s ->
       exists psi', suction_head theta_i' theta_s theta_r Ks psi_b lambda_o = Some psi' /\ psi' < psi).
Proof.
  intros theta_i theta_s theta_r Ks psi_b lambda_o [H1 H2] HK Hb Hl.
  assert (0 < 1 / lambda_o) by (apply Rdiv_lt_0_compat; lra). set (e := 1 / lambda_o + 3).
  assert (B : 0 < psi_b / (1 + 3 * lambda_o)) by (apply Rdiv_lt_0_compat; lra).
  destruct (fpow_pos (theta_s - theta_r) e ltac:(lra)) as [Es Ps].
  assert (Lt : forall x y, 0 <= x < y -> fpow x e < fpow y e).
  { intros x y [Hx Hy]. destruct (fpow_pos y e ltac:(lra)) as [Ey Py]. destruct (Req_dec x 0) as [->|Nx].
    - replace (fpow 0 e) with 0; [exact Py|]. unfold fpow. destruct (Reqb_spec 0 0); [|lra]. destruct (Reqb_spec e 0); [unfold e in *; lra|reflexivity].
    - destruct (fpow_pos x e ltac:(lra)) as [Ex _]. rewrite Ex, Ey. unfold Rpower. apply exp_increasing, Rmult_lt_compat_l; [unfold e; lra|].
      apply ln_increasing; lra. }
  assert (Nn : 0 <= fpow (theta_i - theta_r) e) by (apply L_Coeffs.fpow_nonneg; lra).
  pose proof (Lt (theta_i - theta_r) (theta_s - theta_r) ltac:(lra)) as L0.
  set (s := fpow (theta_s - theta_r) e) in *. set (x := fpow (theta_i - theta_r) e) in *. set (b := psi_b / (1 + 3 * lambda_o)) in *.
  assert (Q : 0 <= x / s < 1).
  { split; [apply Rmult_le_pos; [lra|left; now apply Rinv_0_lt_compat]|]. apply (Rmult_lt_reg_r s); [lra|]. unfold Rdiv. rewrite Rmult_assoc, Rinv_l; lra. }
  exists (b * (1 - x / s)). rewrite suction_value by lra. split; [reflexivity|]. split; [|split; [|split]].
  - split; [apply Rmult_lt_0_compat; lra|]. rewrite <- (Rmult_1_r b) at 2. apply Rmult_le_compat_l; lra.
  - intros E. assert (X0 : x = 0).
    { unfold x. rewrite E, Rminus_diag_eq by reflexivity. unfold fpow. destruct (Reqb_spec 0 0); [|lra]. destruct (Reqb_spec e 0); [unfold e in *; lra|reflexivity]. }
    rewrite X0. unfold Rdiv. ring.
  - intros Ks' HK'. now rewrite suction_value by lra.
  - intros th Ht. rewrite suction_value by lra. eexists. split; [reflexivity|]. fold e s b.
    pose proof (Lt (theta_i - theta_r) (th - theta_r) ltac:(lra)) as L1. fold x in L1.
    apply Rmult_lt_compat_l; [exact B|]. unfold Rdiv.
    pose proof (Rmult_lt_compat_r (/ s) _ _ (Rinv_0_lt_compat _ Ps) L1). lra.
Qed.

(** C94: a soil with this suction head is one for which the theorems on infiltration (C12 to C15, C55, C64) hold. *)
Theorem C94_such_soils_are_valid : forall theta_i theta_s theta_r Ks psi_b lambda_o psi area,
  theta_r <= theta_i < theta_s -> 0 < Ks -> 0 < psi_b -> 0 < lambda_o -> 0 < area ->
  suction_head theta_i theta_s theta_r Ks psi_b lambda_o = Some psi -> soil_ok (Build_soil psi Ks theta_s theta_i area).
Proof.
  intros theta_i theta_s theta_r Ks psi_b lambda_o psi area Hi HK Hb Hl Ha E.
  destruct (C94_wetter_soils_suck_less theta_i theta_s theta_r Ks psi_b lambda_o Hi HK Hb Hl) as (p & Ep & B & _).
  rewrite E in Ep. injection Ep as <-. unfold soil_ok. cbn. lra.
Qed.

(** C94, refuted at saturation: a saturated or an impermeable soil has no suction head (division by zero), and the constant
    value 0 that the formula tends to at saturation is not returned. *)
Theorem C94_saturated_soil_refuted : forall theta_i theta_s theta_r Ks psi_b lambda_o,
  Ks = 0 \/ theta_i = theta_s -> suction_head theta_i theta_s theta_r Ks psi_b lambda_o = None.
Proof.
  intros theta_i theta_s theta_r Ks psi_b lambda_o H. unfold suction_head.
  destruct (s2 theta_i theta_s theta_r Ks psi_b lambda_o); [|reflexivity]. cbn [bind]. unfold div.
  destruct (Reqb_spec (2 * Ks * (theta_s - theta_i)) 0) as [|N]; [reflexivity|]. elim N. destruct H as [->| ->]; ring.
Qed.

(** A loam: moistures 0.1, 0.3 and 0.5, bubbling pressure 0.2 m, pore size index 1/2 (exponent 5): half the range of moisture
    gives 0.08 (1 - 1/32) m. *)
Example C94_example :
  (exists psi, suction_head 0.3 0.5 0.1 (1 / 100000) 0.2 0.5 = Some psi /\ psi = 0.08 * (31 / 32)) /\
  exists Phi slope, (forall th, 0.3 <= th <= 0.5 -> derivable_pt_lim (tension 0.5 0.1 0.2 0.5) th (slope th) /\
     derivable_pt_lim Phi th (conductivity 0.5 0.1 (1 / 100000) 0.5 th * - slope th)).
Proof.
  split.
  - rewrite suction_value by lra. eexists. split; [reflexivity|].
    assert (F : forall x, 0 < x -> fpow x (1 / 0.5 + 3) = x ^ 5).
    { intros x Hx. destruct (fpow_pos x (1 / 0.5 + 3) Hx) as [-> _]. rewrite <- Rpower_pow by exact Hx. f_equal. simpl. lra. }
    rewrite !F by lra. lra.
  - exists (fun x => (1 / 100000) * 0.2 / (1 + 3 * 0.5) * Rpower (saturation 0.5 0.1 x) (1 / 0.5 + 3)).
    exists (fun th => 0.2 * (- (1 / 0.5) * Rpower (saturation 0.5 0.1 th) (- (1 / 0.5) - 1) / (0.5 - 0.1))).
    intros th Ht. split; [apply (power_step 0.5 0.1 (- (1 / 0.5)) 0.2); lra|].
    pose proof (power_step 0.5 0.1 (1 / 0.5 + 3) (1 / 100000 * 0.2 / (1 + 3 * 0.5)) th ltac:(lra) ltac:(lra)) as D.
    match type of D with derivable_pt_lim _ _ ?x => match goal with |- derivable_pt_lim _ _ ?y => replace y with x; [exact D|] end end.
    unfold conductivity. rewrite (Rplus_comm 3).
    assert (EP : Rpower (saturation 0.5 0.1 th) (2 / 0.5 + 3) * Rpower (saturation 0.5 0.1 th) (- (1 / 0.5) - 1) = Rpower (saturation 0.5 0.1 th) (1 / 0.5 + 3 - 1)).
    { rewrite <- Rpower_plus. f_equal. lra. }
    rewrite <- EP. field; repeat split; lra.
Qed.
