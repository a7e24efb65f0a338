(** Property C61, examples: the hypotheses of its theorems can be met, and two cases in which the data handed to the
    water-quality model do not conserve volume. *)
From Coq Require Import ZArith.
From Verif Require Import Prelude M_Numerics M_Coeffs M_Recurrence M_Assembly M_Step M_Geometry M_Storage M_Controls M_Simulation M_Model M_Quality M_Coupling
  S_Numerics S_Geometry S_Superlink S_Network S_Step S_Controls S_Simulation S_Model S_Object S_Quality S_Coupling
  L_Assembly L_Forward L_Backward L_Coeffs L_Boundary L_Step P_Assembly P_Superlink P_Step
  L_Geometry P_Geometry P_Limits P_Wellposed P_Controls P_Simulation L_Model L_Gauss P_Model P_Replay P_Object L_QualityNet P_Quality P_Coupling.

(** A flat channel of one link (10 m, with end pieces of 1 m) between two storages of 5 m2, without losses at its ends;
    the same inflow into both storages raises the level evenly. *)
Definition tub_net : network :=
  mkNetwork 1 (fun _ => 1%nat) (fun _ => 0%nat) (fun _ => 0%nat) (fun _ => 0%nat) (fun _ => 1%nat) 1 2 (fun _ => 0%nat) (fun _ => 0%nat) (fun _ => 0%nat)
    (fun I => Nat.eqb I 0) (fun I => Nat.eqb I 1) (fun _ => true) (fun _ => true)
    (fun _ => 10) (fun _ => 1/100) (fun _ => 0%nat) (fun _ => 0) (fun _ => 1) (fun _ => 0) (fun _ => false) (fun _ => 0)
    (fun _ => 1) (fun _ => 1) (fun _ => 0) (fun _ => 0) (fun _ => 0) (fun _ => 0) (fun _ => 1/100) (fun _ => 1/100)
    (fun _ => 0%nat) (fun _ => 0%nat) (fun _ => 0) (fun _ => 0) 2 (fun _ => false) (fun _ => 0) (fun _ => 100) (1/1000) (fun _ => 50)
    false BCz false true.
Definition tub (sec : section) : design :=
  mkDesign tub_net (fun i => i) (fun _ => Regular sec)
    (fun _ _ _ _ => 0) (fun _ => Functional 0 0 5) (d_or drop) (d_ocode drop) (d_o1 drop) (d_o2 drop) (d_o3 drop) (d_we drop) (d_pu drop).
Definition tub_state (L : R) : hstate := mkHState (fun _ => L) (fun _ => 0) (fun _ => 0) (fun _ => L) (fun _ => 0).
Definition tub_object (L : R) : object := mkModel 0 0%Z (body0 (tub_state L)) (0, save_body (body0 (tub_state L))).
(** Inflow that raises the level by [rise] in 60 s when the channel is [W] wide. *)
Definition tub_inputs (W rise : R) : inputs := M_Model.mkInputs zeros (fun _ => (5 + 6 * W) * rise / 60) zeros zeros zeros zeros.

(** Water at one level, no flow in the link. *)
Definition level_at (L : R) (st : hstate) : Prop :=
  (forall j, (j < 2)%nat -> h_H st j = L /\ h_h st j = L) /\ h_Q st 0%nat = 0.

Lemma tub_wf : well_formed tub_net.
Proof.
  constructor.
  - split; simpl; intros; lia.
  - intros k j Hk Hj. simpl in *. destruct k; [|lia]. destruct j as [|[|j]]; simpl; try lia; repeat split; auto; lia.
  - intros k Hk; simpl; lia.
  - intros k Hk; simpl; lia.
Qed.
Lemma tub_sound sec : conveying (Regular sec) -> sound (tub sec).
Proof.
  intros Hc. constructor.
  - exact tub_wf.
  - reflexivity.
  - simpl. lra.
  - intros i Hi. split; [exact Hc|]. simpl. repeat split; try lra; try lia; discriminate.
  - simpl; intros; lra.
  - simpl; intros; lra.
  - simpl; intros; lra.
  - split; intros k Hk; simpl in Hk; lia.
  - intros k Hk; simpl in Hk; lia.
  - split; intros k Hk; simpl in Hk; lia.
Qed.
Lemma tub_admissible sec W rise : admissible (tub sec) (tub_inputs W rise) 60.
Proof. split; [lra|split; simpl; intros; lia]. Qed.
Lemma tub_constructed sec L : 0 < L -> constructed (tub sec) (tub_object L).
Proof. intros HL. split; [reflexivity|]. split; intros i Hi; simpl; lra. Qed.

(** One pass of the hydraulic solver, from flows and levels in which the link does not flow. *)
Lemma tub_flows G w st sv u L0 L1 W : wet tub_net G -> g_B G 0%nat = W -> g_Bu G 0%nat = W -> g_Bd G 0%nat = W ->
  h_Q st 0%nat = 0 -> (forall j, (j < 2)%nat -> 0 <= h_H st j) -> level_at L0 sv ->
  setup_step tub_net G w st sv zeros 60 = Some u ->
  let q := 11 / 2 * W * (L1 - L0) / 60 in
  solve_superlink_flows (flow_coeffs tub_net u 0) L1 L1 = (q, - q) /\
  solve_superlink_depths (u_hu u 0) (u_hd u 0) q (- q) L1 L1 = (L1, L1).
Proof.
  intros Hwet GB GU GD Q0 Hh [Lv Qv] Hu q. pose proof tub_wf as Hwf.
  pose proof (setup_facts_ok _ _ _ _ _ _ _ _ Hu) as [Fm Fn Ff Fb Fhu Fhd].
  destruct (setup_signs tub_net G w st sv zeros 60 Hwf Hwet ltac:(lra) u Hu) as [HW HP].
  assert (HS : superlink_solution (ma (u_m u)) (mb (u_m u)) (mc (u_m u)) (mP (u_m u)) (g_A G) (u_E u) (u_D u) 0 0 1
                 (fun j => match j with O => q | S O => 0 | _ => - q end) (fun _ => L1)).
  { destruct (link_coeffs_entries _ _ _ _ _ _ Fm) as (Ea & Ec & EP & _).
    pose proof (node_coeffs_entries _ _ _ _ _ _ _ _ _ _ _ _ _ _ _ _ _ _ _ _ Fn) as En.
    destruct (wet_links _ _ Hwet 0%nat ltac:(simpl; lia)) as (PA & _).
    split.
    - intros j Hj. assert (j = 0%nat) by lia. subst j. simpl Nat.add. rewrite Ea, Ec, EP.
      unfold a_ik, c_ik, u_Ik, u_Ip1k, u_ik, P_ik. simpl. rewrite Q0, Qv. destruct (Reqb_spec (g_A G 0%nat) 0); [lra|].
      replace (0 / g_A G 0%nat) with 0 by (unfold Rdiv; ring). rewrite Ropp_0, Rmax_left by lra. lra.
    - intros j Hj. destruct (En (0 + j)%nat ltac:(simpl; lia)) as [-> ->]. unfold node_width, zeros.
      destruct (Lv 0%nat ltac:(lia)) as [_ V0]. destruct (Lv 1%nat ltac:(lia)) as [_ V1].
      destruct j as [|[|j]]; [| |lia]; simpl; rewrite ?GB, ?GU, ?GD, ?V0, ?V1; unfold q; lra. }
  apply boundary_unique.
  - exact (setup_det tub_net G w st sv zeros 60 Hwf Hwet ltac:(lra) (or_introl eq_refl) u Hu 0%nat ltac:(simpl; lia)).
  - pose proof (end_meaning _ _ _ _ _ _ _ 0 0 1 (u_f u) (u_b u) ltac:(lia)
      (forward_recurrence_ok _ _ _ _ _ _ _ _ _ _ _ _ _ (wf_layout _ Hwf) Ff 0%nat ltac:(simpl; lia))
      (backward_recurrence_ok _ _ _ _ _ _ _ _ _ _ _ _ _ _ _ (wf_layout _ Hwf) (fun k _ => conj eq_refl eq_refl) Fb 0%nat ltac:(simpl; lia))
      (fun j Hj => proj1 (HP 0%nat j (le_n 1) Hj))
                 (fun j Hj => proj1 (proj2 (HP 0%nat j (le_n 1) Hj))) false _ _ HS) as EM.
    cbv beta zeta in EM. simpl Nat.add in EM. destruct EM as [E1 E2].
    destruct (setup_theta tub_net G w st sv zeros 60 u Hu 0%nat ltac:(simpl; lia)) as (T1 & T2 & T3 & T4).
    assert (G0 : hk (u_hu u 0%nat) = 0 /\ hk (u_hd u 0%nat) = 0).
    { pose proof (Fhu 0%nat (le_n 1)) as Z1. pose proof (Fhd 0%nat (le_n 1)) as Z2. injection Z1 as <-. injection Z2 as <-. simpl.
      unfold gamma_uk, gamma_dk. rewrite !Rmult_0_r. unfold safe_divide.
      split; match goal with |- context [Reqb ?x ?y] => destruct (Reqb_spec x y) end; try lra; unfold Rdiv; ring. }
    destruct G0 as [G1 G2]. pose proof (Hh 0%nat ltac:(lia)). pose proof (Hh 1%nat ltac:(lia)).
    unfold above in T1, T2, T3, T4. simpl in T1, T2, T3, T4. destruct (Rleb_spec 0 (h_H st 0%nat)); [|lra]. destruct (Rleb_spec 0 (h_H st 1%nat)); [|lra].
    unfold end_equations. rewrite T1, T2, T3, T4, G1, G2. simpl n_end_o. simpl n_I1. simpl n_nk. simpl Nat.add. repeat split; auto; lra.
Qed.

Lemma tub_pass sec W L0 L1 sv b b1 b2 : conveying (Regular sec) ->
  watered (tub sec) (b_st b) -> reached (tub sec) (b_sys b) -> level_at L0 sv ->
  h_Q (b_st b) 0%nat = 0 -> (forall j, (j < 2)%nat -> 0 <= h_H (b_st b) j) ->
  (forall bg, geometries (tub sec) b = Some bg -> gm_B (b_gl bg 0%nat) = W /\ gm_B (b_gu bg 0%nat) = W /\ gm_B (b_gd bg 0%nat) = W) ->
  1/1000 <= L1 -> L1 < 50 ->
  setup_body (tub sec) (tub_inputs W (L1 - L0)) 60 sv b = Some b1 ->
  solve_body (tub sec) (gauss 2) (tub_inputs W (L1 - L0)) 60 b1 = Some b2 ->
  level_at L1 (b_st b2) /\ heads_free tub_net (b_st b2) /\ depths_inside tub_net (b_cf b2) (b_st b2) /\ ends_covered tub_net (b_st b2).
Proof.
  intros Hc Wd Rc Hv Q0 Hh Hw H1 H2 E1 E2.
  pose proof (tub_sound sec Hc) as HD. pose proof (gauss_solver 2) as Hs.
  pose proof (tub_admissible sec W (L1 - L0)) as A.
  destruct (pass_facts (tub sec) (gauss 2) HD Hs _ _ _ _ _ _ A Wd Rc E1 E2)
    as (bg & Vs & Ao & u & H & Eg & Wt & _ & _ & _ & Eu & F). unfold controls_of in F.
  destruct F as (Hr & Hn & Sol & Un & Est & Ecf & _). change (b_st b2 = M_Step.solve_step tub_net u (b_st b) H) in Est.
  pose proof (geometries_at (tub sec) _ _ Eg) as [_ _ _ GS].
  destruct (Hw bg Eg) as (B1 & B2 & B3).
  assert (B4 : forall j, (j < 2)%nat -> b_As bg j = 5).
  { intros j Hj. specialize (GS j Hj). revert GS. unfold storage_area. simpl. intros [= <-]. unfold functional_area.
    match goal with |- context [Rltb (Rmax ?x ?y) 0] => pose proof (Rmax_r x y); destruct (Rltb_spec (Rmax x y) 0) end; [lra|ring]. }
  destruct (tub_flows _ _ _ _ _ L0 L1 W Wt B1 B2 B3 Q0 Hh Hv Eu) as [HE1 HE2].
  set (q := 11 / 2 * W * (L1 - L0) / 60) in *.
  assert (EH : forall j, (j < 2)%nat -> H j = L1).
  { refine (Un (fun _ => L1) _). intros j Hj. apply C22_row_is_water_balance; auto; try lra.
    destruct (setup_theta tub_net (geometry_of bg) _ (b_st b) sv zeros 60 u Eu 0%nat (le_n 1)) as (T1 & _ & T3 & _).
    pose proof (Hh 0%nat ltac:(lia)). pose proof (Hh 1%nat ltac:(lia)).
    unfold above in T1, T3. simpl in T1, T3. destruct (Rleb_spec 0 (h_H (b_st b) 0%nat)); [|lra]. destruct (Rleb_spec 0 (h_H (b_st b) 1%nat)); [|lra].
    unfold attached_area. rewrite (B4 j Hj). simpl in Hj. destruct (proj1 Hv j Hj) as [-> _].
    unfold net_inflow, sum_if. cbn [superlink_elements control_elements superlinks_of e_n e_Ju e_Jd e_in e_out c_n c_Ju c_Jd
      k_n k_Ju k_Jd k_dxu k_Bu k_thu k_dxd k_Bd k_thd k_au k_bu k_cu k_ad k_bd k_cd].
    pose proof (f_equal fst HE1) as Q1. pose proof (f_equal snd HE1) as Q2. cbn in Q1, Q2.
    cbn. rewrite B2, B3, T1, T3. rewrite T1, T3 in Q1, Q2. unfold q in *. destruct j as [|[|j]]; [| |lia]; cbn; lra. }
  assert (EL : forall j, (j < 2)%nat -> limit_head 0 100 (H j) = L1).
  { intros j Hj. rewrite EH by auto. apply limit_head_id. lra. }
  assert (EQ : solve_superlink_flows (flow_coeffs tub_net u 0) (limit_head 0 100 (H 0%nat)) (limit_head 0 100 (H 1%nat)) = (q, - q))
    by (rewrite !EL by lia; exact HE1).
  assert (ED : end_depths tub_net u (b_st b2) 0 = (L1, L1)).
  { rewrite Est. set (f := solve_superlink_flows (flow_coeffs tub_net u 0) (limit_head 0 100 (H 0%nat)) (limit_head 0 100 (H 1%nat))).
    change (solve_superlink_depths (u_hu u 0) (u_hd u 0) (fst f) (snd f) (limit_head 0 100 (H 0%nat)) (limit_head 0 100 (H 1%nat)) = (L1, L1)).
    unfold f. rewrite EQ. rewrite !EL by lia. exact HE2. }
  assert (Di : depths_inside tub_net u (b_st b2)).
  { intros k Hk. simpl in Hk. destruct k; [|lia]. rewrite ED. simpl. repeat split; try lra; lia. }
  assert (HH : forall j, (j < 2)%nat -> h_H (b_st b2) j = L1) by (intros j Hj; rewrite Est; exact (EL j Hj)).
  assert (HU : h_Qu (b_st b2) 0%nat = q /\ h_Qd (b_st b2) 0%nat = - q).
  { rewrite Est. split.
    - change (fst (solve_superlink_flows (flow_coeffs tub_net u 0) (limit_head 0 100 (H 0%nat)) (limit_head 0 100 (H 1%nat))) = q). now rewrite EQ.
    - change (snd (solve_superlink_flows (flow_coeffs tub_net u 0) (limit_head 0 100 (H 0%nat)) (limit_head 0 100 (H 1%nat))) = - q). now rewrite EQ. }
  pose proof Di as Di'. rewrite Est in Di'.
  destruct (reported_solution tub_net (geometry_of bg) _ (b_st b) sv zeros 60 u H tub_wf Wt ltac:(lra) (or_introl eq_refl) eq_refl Eu Di' 0%nat ltac:(simpl; lia))
    as (SS & D1 & D2). rewrite <- Est in SS, D1, D2. change (h_h (b_st b2) 0%nat = fst (end_depths tub_net u (b_st b2) 0)) in D1.
  change (h_h (b_st b2) 1%nat = snd (end_depths tub_net u (b_st b2) 0)) in D2. rewrite ED in D1, D2. cbn [fst snd] in D1, D2.
  assert (QL : h_Q (b_st b2) 0%nat = 0).
  { destruct SS as [HM _]. specialize (HM 0%nat ltac:(simpl; lia)).
    pose proof (setup_facts_ok _ _ _ _ _ _ _ _ Eu) as [Fm _ _ _ _ _].
    destruct (setup_signs tub_net (geometry_of bg) _ (b_st b) sv zeros 60 tub_wf Wt ltac:(lra) u Eu) as [HW _].
    destruct (HW 0%nat (le_n 1)) as [HW' _]. destruct (HW' 0%nat ltac:(simpl; lia)) as (_ & _ & _ & Hp). simpl in Hp.
    destruct (link_coeffs_entries _ _ _ _ _ _ Fm) as (Ea & Ec & EP & _).
    destruct (wet_links _ _ Wt 0%nat ltac:(simpl; lia)) as (PA & _).
    simpl in HM. rewrite Ea, Ec, EP in HM. rewrite Ea, Ec in Hp. revert Hp HM. unfold a_ik, c_ik, u_Ik, u_Ip1k, u_ik, P_ik. simpl. rewrite Q0, (proj2 Hv), D1, D2.
    destruct (Reqb_spec (gm_A (b_gl bg 0%nat)) 0) as [Z|Z]; [simpl in PA; lra|].
    replace (0 / gm_A (b_gl bg 0%nat)) with 0 by (unfold Rdiv; ring). rewrite Ropp_0, Rmax_left by lra. intros Hp HM. unfold local_flows in HM. simpl in HM.
    assert (X : mb (u_m u) 0%nat * h_Q (b_st b2) 0%nat = 0) by lra. apply Rmult_integral in X. destruct X; lra. }
  rewrite Ecf. split; [|split; [|split]].
  - split; [|exact QL]. intros j Hj. split; [now apply HH|]. destruct j as [|[|j]]; [exact D1|exact D2|lia].
  - intros j Hj. change (0 < h_H (b_st b2) j < 0 + 100). rewrite HH by exact Hj. lra.
  - exact Di.
  - intros k Hk. change (0 <= h_H (b_st b2) 0%nat /\ 0 <= h_H (b_st b2) 1%nat). rewrite !HH by lia. lra.
Qed.

(** A channel 1 m wide with walls 10 m high; a pipe of 4 m diameter. *)
Definition trough : section := {| shape := 3%nat; g1 := 10; g2 := 1; g3 := 0; g4 := 0; g5 := 0; g6 := 0; g7 := 0 |}.
Definition pipe : section := {| shape := 1%nat; g1 := 4; g2 := / 1000; g3 := 0; g4 := 0; g5 := 0; g6 := 0; g7 := 0 |}.

Lemma trough_conveys : conveying (Regular trough). Proof. simpl. lra. Qed.
Lemma pipe_conveys : conveying (Regular pipe). Proof. simpl. lra. Qed.
Lemma trough_width b bg : geometries (tub trough) b = Some bg ->
  gm_B (b_gl bg 0%nat) = 1 /\ gm_B (b_gu bg 0%nat) = 1 /\ gm_B (b_gd bg 0%nat) = 1.
Proof.
  intros Eg. pose proof (geometries_at (tub trough) _ _ Eg) as [GL GU GD _].
  split; [|split].
  - destruct (GL 0%nat ltac:(simpl; lia)) as (o & gm & X & _ & _ & E). simpl in X. injection X as <-. exact E.
  - destruct (GU 0%nat ltac:(simpl; lia)) as (o & gm & X & _ & _ & E). simpl in X. injection X as <-. exact E.
  - destruct (GD 0%nat ltac:(simpl; lia)) as (o & gm & X & _ & _ & E). simpl in X. injection X as <-. exact E.
Qed.

(** The pipe half full. *)
Lemma pipe_half h0 h1 old gm : h0 = 2 -> h1 = 2 -> section_geometry (Regular pipe) h0 h1 old = Some gm -> gm_A gm = 2 * PI /\ gm_B gm = 4.
Proof.
  intros -> ->. unfold section_geometry, hydraulic_geometry. cbn [shape pipe g1 g2].
  unfold Circular_A_ik, Circular_Pe_ik, Circular_B_ik, circle_theta, mid, floor0, cap.
  destruct (Rltb_spec ((2 + 2) / 2) 0); [lra|]. destruct (Rltb_spec 4 ((2 + 2) / 2)); [lra|].
  unfold div. destruct (Reqb_spec (4 / 2) 0); [lra|]. cbn [bind].
  replace ((2 + 2) / 2 / (4 / 2)) with 1 by lra. destruct (Rltb_spec 1 0); [lra|]. destruct (Rltb_spec 2 1); [lra|].
  destruct (Rltb_spec ((2 + 2) / 2) 4); [|lra].
  intros [= <-]. cbn [gm_A gm_B]. replace (1 - 1) with 0 by ring. rewrite acos_0, cos_PI2, sin_PI2. split; [field|lra].
Qed.
Lemma pipe_width b bg : b_st b = tub_state 2 -> b_thu b = (fun _ => 1) -> b_thd b = (fun _ => 1) -> geometries (tub pipe) b = Some bg ->
  (gm_B (b_gl bg 0%nat) = 4 /\ gm_B (b_gu bg 0%nat) = 4 /\ gm_B (b_gd bg 0%nat) = 4) /\ gm_A (b_gl bg 0%nat) = 2 * PI.
Proof.
  intros Es Eu Ed Eg. pose proof (geometries_at (tub pipe) _ _ Eg) as [GL GU GD _]. rewrite Es in GL, GU, GD. rewrite Eu in GU. rewrite Ed in GD.
  destruct (GL 0%nat ltac:(simpl; lia)) as (o1 & m1 & X1 & Y1 & _ & Z1). apply pipe_half in X1; try reflexivity.
  destruct (GU 0%nat ltac:(simpl; lia)) as (o2 & m2 & X2 & Y2 & _ & Z2). apply pipe_half in X2; [|reflexivity|simpl; lra].
  destruct (GD 0%nat ltac:(simpl; lia)) as (o3 & m3 & X3 & Y3 & _ & Z3). apply pipe_half in X3; [|reflexivity|simpl; lra].
  cbn [geometry_of g_A g_B g_Bu g_Bd] in *. rewrite Z1, Z2, Z3, Y1. tauto.
Qed.
(** The areas the water-quality model computes for round pipes are those of the hydraulic model (C06), at all depths. *)
Theorem C61_round_area_is_hydraulic_area s B h0 h1 old : dims_ok s -> shape s = 1%nat ->
  exists gm, hydraulic_geometry s h0 h1 old = Some gm /\
    link_area 1 (g1 s) B h0 h1 = Some (gm_A gm) /\ end_area 1 (g1 s) B (h0 + h1) = Some (gm_A gm).
Proof.
  intros H Es. destruct (geometry_value s h0 h1 old H) as (gm & E & EA). exists gm. split; [exact E|]. rewrite EA.
  pose proof (dims_g1 s H) as G. pose proof (depth_in_range s h0 h1 G) as D. unfold area_at. rewrite Es.
  unfold link_area, end_area, circle_area, circle_area_scalar, div.
  replace (/ 2 * (h0 + h1)) with ((h0 + h1) / 2) by (unfold Rdiv; ring).
  assert (EY : (if Rltb (g1 s) (if Rltb ((h0 + h1) / 2) 0 then 0 else (h0 + h1) / 2) then g1 s else
     (if Rltb ((h0 + h1) / 2) 0 then 0 else (h0 + h1) / 2)) = depth_in s h0 h1).
  { unfold depth_in. set (m := (h0 + h1) / 2). clearbody m. unfold Rmax. destruct (Rltb_spec m 0), (Rle_dec m 0); try lra.
    - unfold Rmin. destruct (Rltb_spec (g1 s) 0), (Rle_dec 0 (g1 s)); lra.
    - unfold Rmin. destruct (Rltb_spec (g1 s) m), (Rle_dec m (g1 s)), (Rle_dec 0 (g1 s)); lra.
    - unfold Rmin. destruct (Rltb_spec (g1 s) m), (Rle_dec m (g1 s)); lra. }
  assert (EZ : (if Rltb ((h0 + h1) / 2) 0 then 0 else if Rltb (g1 s) ((h0 + h1) / 2) then g1 s else (h0 + h1) / 2) = depth_in s h0 h1).
  { unfold depth_in. set (m := (h0 + h1) / 2). clearbody m. unfold Rmax. destruct (Rltb_spec m 0), (Rle_dec m 0); try lra.
    - unfold Rmin. destruct (Rltb_spec (g1 s) 0), (Rle_dec 0 (g1 s)); lra.
    - unfold Rmin. destruct (Rltb_spec (g1 s) m), (Rle_dec m (g1 s)), (Rle_dec 0 (g1 s)); lra.
    - unfold Rmin. destruct (Rltb_spec (g1 s) m), (Rle_dec m (g1 s)); lra. }
  cbv zeta. rewrite EY, EZ. destruct (Reqb_spec (g1 s / 2) 0); [lra|]. cbn [bind].
  set (y := depth_in s h0 h1) in *.
  assert (0 <= y / (g1 s / 2) <= 2).
  { split; [apply Rmult_le_pos; [lra|left; apply Rinv_0_lt_compat; lra]|].
    apply (Rmult_le_reg_r (g1 s / 2)); [lra|]. unfold Rdiv at 1. rewrite Rmult_assoc, Rinv_l by lra. lra. }
  destruct (Rltb_spec (y / (g1 s / 2)) 0); [lra|]. destruct (Rltb_spec 2 (y / (g1 s / 2))); [lra|].
  split; reflexivity.
Qed.
Lemma pipe_full : circle_area 4 4 = 4 * PI.
Proof.
  unfold circle_area. destruct (Rltb_spec 4 0); [lra|]. destruct (Rltb_spec 4 4); [lra|].
  replace (4 / (4 / 2)) with 2 by lra. destruct (Rltb_spec 2 0); [lra|]. destruct (Rltb_spec 2 2); [lra|].
  replace (1 - 2) with (-(1)) by ring. rewrite acos_opp, acos_1, Rminus_0_r, cos_PI, sin_PI. field.
Qed.
Lemma PI_below_4 : PI < 4.
Proof. destruct (PI_ineq 1) as [_ X]. unfold tg_alt, PI_tg in X. simpl in X. lra. Qed.

(** Mixing parameters without reaction. *)
Definition tub_par : wq_par := mkPar zeros zeros zeros (fun _ => 1) (fun _ => 1) (fun _ => 1) (fun _ => false) 0 100.
Definition tub_doses (c : R) : doses := mkDoses (fun _ => c) (fun _ => c) (fun _ => c).
Lemma tub_mixing : mixing tub_net tub_par.
Proof. constructor; simpl; intros; unfold zeros; repeat split; try lra; discriminate. Qed.
Lemma tub_quiet : no_reaction tub_net tub_par.
Proof. constructor; reflexivity. Qed.
Lemma tub_covered : covered tub_net.
Proof. intros I HI. simpl in HI. exists 0%nat, I. simpl. lia. Qed.
Lemma tub_uncontrolled sec : uncontrolled (tub sec).
Proof. split; [|split]; reflexivity. Qed.
Lemma tub_joins sec : links_join (tub sec).
Proof. intros k j Hk Hj. reflexivity. Qed.
Lemma tub_supply c W rise : 0 <= W -> 0 <= rise -> supply tub_net tub_par c c (tub_inputs W rise) (tub_doses c).
Proof.
  intros HW Hr. split; [|split].
  - intros j Hj. cbn [tub_inputs i_Qin]. pose proof (Rmult_le_pos (5 + 6 * W) rise ltac:(lra) Hr). lra.
  - intros I HI. cbn [tub_inputs i_Q0]. unfold zeros. lra.
  - constructor; simpl; intros; lra.
Qed.
Lemma tub_level L : level_at L (tub_state L).
Proof. split; [intros; simpl; lra|reflexivity]. Qed.

(** C61: the hypotheses of all its theorems are met: the trough filled from 2 m to 3 m in one step of one pass, with
    concentration 1 everywhere; the water-quality step succeeds and leaves the concentrations as they were. *)
Example C61_example :
  let D := tub trough in
  sound D /\ constructed D (tub_object 2) /\ open_channels D /\ links_join D /\ uncontrolled D /\ covered tub_net /\
  mixing tub_net tub_par /\ no_reaction tub_net tub_par /\
  admissible D (tub_inputs 1 1) 60 /\ supply tub_net tub_par 1 1 (tub_inputs 1 1) (tub_doses 1) /\
  exists m1 o1, coupled_run D (gauss 2) tub_par (undisturbed D) (cons (tub_inputs 1 1, tub_doses 1, 60) nil)
                  (tub_object 2) (wq_fresh (constant_state 1)) m1 o1 /\
    (forall j, (j < 2)%nat -> h_H (b_st (m_body m1)) j = 3) /\ (forall j, (j < 2)%nat -> c_j (ob_c o1) j = 1) /\ c_i (ob_c o1) 0%nat = 1.
Proof.
  intros D. pose proof (tub_sound trough trough_conveys) as HD. pose proof (gauss_solver 2) as Hs.
  assert (C : constructed D (tub_object 2)) by (apply tub_constructed; lra).
  assert (Ho : open_channels D) by (intros i Hi; exists trough; split; reflexivity).
  pose proof (tub_admissible trough 1 1) as A.
  assert (S : supply tub_net tub_par 1 1 (tub_inputs 1 1) (tub_doses 1)) by (apply tub_supply; lra).
  assert (W0 : within tub_net 1 1 (constant_state 1)) by (constructor; simpl; intros; lra).
  split; [exact HD|]. split; [exact C|]. split; [exact Ho|]. split; [apply tub_joins|]. split; [apply tub_uncontrolled|]. split; [exact tub_covered|].
  split; [exact tub_mixing|]. split; [exact tub_quiet|]. split; [exact A|].
  split; [exact S|].
  destruct (C61_coupled_runs_keep_bounds D (gauss 2) HD Hs (tub_object 2) (constant_state 1) tub_par nil _ _ 1 1 C eq_refl
    ltac:(simpl; lia) Ho (tub_joins _) (tub_uncontrolled _) tub_covered tub_mixing ltac:(simpl; lra) ltac:(simpl; lra) (or_intror tub_quiet) W0
    (List.Forall_nil _) (run_nil _ _ _ _ _ _)) as [_ Nx].
  destruct (Nx (tub_inputs 1 1) (tub_doses 1) 60 0 A S) as (m1 & E & Go). clear Nx.
  assert (Hm : healthy D (tub_object 2)) by (apply (healthy_history D (gauss 2) HD Hs (tub_object 2) []); auto; intros a []).
  destruct (one_pass D (gauss 2) HD Hs _ _ _ _ _ _ A Hm E) as (b1 & E1 & E2 & _).
  replace (tub_inputs 1 1) with (tub_inputs 1 (3 - 2)) in E1, E2 by (replace (3 - 2) with 1 by lra; reflexivity).
  destruct (tub_pass trough 1 2 3 _ _ _ _ trough_conveys (proj1 Hm) (proj1 (proj2 Hm)) (tub_level 2) eq_refl
    ltac:(intros; simpl; lra) (trough_width _) ltac:(lra) ltac:(lra) E1 E2) as (Lv & Hf & Di & _).
  assert (U : undisturbed D (tub_object 2) m1).
  { constructor; auto.
    - intros i s Hi Es. simpl in Es. injection Es as <-. simpl. lra.
    - intros k Hk. simpl. lra. }
  destruct (Go U) as [o1 St]. exists m1, o1.
  assert (Rn : coupled_run D (gauss 2) tub_par (undisturbed D) (cons (tub_inputs 1 1, tub_doses 1, 60) nil) (tub_object 2) (wq_fresh (constant_state 1)) m1 o1)
    by (eapply run_cons; [exact St|exact U|apply run_nil]).
  split; [exact Rn|]. split; [intros j Hj; apply Lv; exact Hj|].
  destruct (C61_coupled_runs_keep_bounds D (gauss 2) HD Hs (tub_object 2) (constant_state 1) tub_par _ _ _ 1 1 C eq_refl
    ltac:(simpl; lia) Ho (tub_joins _) (tub_uncontrolled _) tub_covered tub_mixing ltac:(simpl; lra) ltac:(simpl; lra) (or_intror tub_quiet) W0
    (List.Forall_cons (tub_inputs 1 1, tub_doses 1, 60) (conj A S) (List.Forall_nil _)) Rn) as [[Wj _ Wi _ _] _].
  split; [intros j Hj; specialize (Wj j Hj); lra|]. specialize (Wi 0%nat 0%nat ltac:(simpl; lia) ltac:(simpl; lia)). simpl in Wi. lra.
Qed.

(** What conservation along the link of the tub says. *)
Lemma tub_link sec F Q0 : network_conserves tub_net tub_par (orifices_of (tub sec)) (weirs_of (tub sec)) (pumps_of (tub sec)) F Q0 zeros 60 ->
  (10 * f_A F 0%nat - 10 * f_Ap F 0%nat) / 60 = f_Qup F 0%nat - f_Qdn F 0%nat.
Proof. intros [NC _]. destruct (NC 0%nat ltac:(simpl; lia) (constant_state 0) zeros) as [X _]. specialize (X 1%nat ltac:(simpl; lia)). exact X. Qed.
(** ... and what a uniform concentration says. *)
Lemma tub_uniform sec F x Q0 : network_transport tub_net tub_par (orifices_of (tub sec)) (weirs_of (tub sec)) (pumps_of (tub sec)) F (constant_state 1)
    x x Q0 x zeros 60 (constant_state 1) ->
  (10 * f_A F 0%nat - 10 * f_Ap F 0%nat) / 60 = f_Qup F 0%nat - f_Qdn F 0%nat.
Proof.
  intros [_ T]. destruct (T 0%nat ltac:(simpl; lia)) as [X _]. specialize (X 1%nat ltac:(simpl; lia)). unfold piece_balance in X.
  cbn -[face S_Quality.storage] in X. unfold zeros in X. rewrite !face_const in X. unfold S_Quality.storage in X. lra.
Qed.

(** Refuted for round pipes: the areas of the link follow the circle while the flows at its faces are computed from
    the width at the start of the step.  A pipe of 4 m diameter, half full and filled in one step of one pass, no limit
    active: the link gains 20 PI m3 but 80 m3 flow into it; concentration 1 everywhere does not solve the transport
    equations although all inflow has concentration 1. *)
Theorem C61_round_pipes_refuted : let D := tub pipe in
  sound D /\ (forall i, (i < n_L (d_net D))%nat -> exists s, d_sec D i = Regular s /\ shape s = 1%nat) /\
  links_join D /\ uncontrolled D /\ n_end_o (d_net D) = false /\
  exists m i x dt m' F, constructed D m /\ admissible D i dt /\ supply (d_net D) tub_par 1 1 i x /\
    object_step D (gauss 2) i dt 1 0 m = Some (m', 1%nat) /\ import_flow D dt m' = Some F /\ undisturbed D m m' /\
    ~ network_conserves (d_net D) tub_par (orifices_of D) (weirs_of D) (pumps_of D) F (i_Qin i) (i_Q0 i) dt /\
    ~ network_transport (d_net D) tub_par (orifices_of D) (weirs_of D) (pumps_of D) F (constant_state 1) (x_bc x) (x_0j x) (i_Qin i) (x_0I x) (i_Q0 i) dt
        (constant_state 1).
Proof.
  intros D. pose proof (tub_sound pipe pipe_conveys) as HD. pose proof (gauss_solver 2) as Hs.
  split; [exact HD|]. split; [intros i Hi; exists pipe; split; reflexivity|]. split; [apply tub_joins|]. split; [apply tub_uncontrolled|]. split; [reflexivity|].
  assert (C : constructed D (tub_object 2)) by (apply tub_constructed; lra).
  pose proof (tub_admissible pipe 4 (4 - 2)) as A.
  assert (Hm : healthy D (tub_object 2)) by (apply (healthy_history D (gauss 2) HD Hs (tub_object 2) []); auto; intros a []).
  destruct (object_step_total D (gauss 2) HD Hs (tub_inputs 4 (4 - 2)) 60 1 0 (tub_object 2) A Hm) as ([m' p] & E & _).
  pose proof (single_pass D (gauss 2) _ _ _ _ _ _ E). subst p.
  destruct (one_pass D (gauss 2) HD Hs _ _ _ _ _ _ A Hm E) as (b1 & E1 & E2 & Sv & _).
  destruct (tub_pass pipe 4 2 4 _ _ _ _ pipe_conveys (proj1 Hm) (proj1 (proj2 Hm)) (tub_level 2) eq_refl
    ltac:(intros; simpl; lra) (fun bg Eg => proj1 (pipe_width (m_body (tub_object 2)) bg eq_refl eq_refl eq_refl Eg)) ltac:(lra) ltac:(lra) E1 E2) as (Lv & Hf & Di & _).
  destruct (import_total_round D 60 m' ltac:(simpl; lia) eq_refl ltac:(intros; simpl; lra) ltac:(lra)) as [F EF].
  assert (No : (10 * f_A F 0%nat - 10 * f_Ap F 0%nat) / 60 <> f_Qup F 0%nat - f_Qdn F 0%nat).
  { destruct (import_inv D _ _ _ EF) as (_ & a & e & Ea & _ & ->). specialize (Ea 0%nat ltac:(simpl; lia)).
    destruct (pass_facts D (gauss 2) HD Hs _ _ _ _ _ _ A (proj1 Hm) (proj1 (proj2 Hm)) E1 E2) as (bg & _ & _ & _ & _ & Eg & _).
    destruct (pass_geometry D (gauss 2) _ _ _ _ _ _ _ E1 E2 Eg) as (Gl & _).
    destruct (pipe_width (m_body (tub_object 2)) bg eq_refl eq_refl eq_refl Eg) as [(B & _) AA].
    destruct Lv as [Lv Q0]. destruct (Lv 0%nat ltac:(lia)) as [_ V0]. destruct (Lv 1%nat ltac:(lia)) as [_ V1].
    rewrite Sv. cbn [f_A f_Ap f_Qup f_Qdn]. unfold face_up, face_dn. cbn [d_Ik D tub]. rewrite Gl, B, AA, Q0. cbn [Nat.add].
    change (h_h (b_st (m_body m')) (0 + 1)%nat) with (h_h (b_st (m_body m')) 1%nat). rewrite V0, V1.
    cbn [code_of dim_of d_sec D tub pipe shape g1 d_Ik] in Ea. change (0 + 1)%nat with 1%nat in Ea. rewrite V0, V1 in Ea. cbn in Ea. injection Ea as <-.
    replace (/ 2 * (4 + 4)) with 4 by lra. rewrite pipe_full. cbn. pose proof PI_below_4. lra. }
  exists (tub_object 2), (tub_inputs 4 (4 - 2)), (tub_doses 1), 60, m', F.
  split; [exact C|]. split; [exact A|]. split; [apply tub_supply; lra|]. split; [exact E|]. split; [exact EF|]. split; [|split].
  - constructor; auto.
    + intros i s Hi Es. simpl in Es. injection Es as <-. simpl. lra.
    + intros k Hk. simpl. lra.
  - intros NC. apply No. exact (tub_link pipe F _ NC).
  - intros T. apply No. exact (tub_uniform pipe F _ _ T).
Qed.

(** Refuted for more than one pass per step: the previous area of a link is the one at the start of the last pass, while
    the flows at its faces belong to the whole step.  The trough filled from 2 m to 3 m in one step of two passes. *)
Theorem C61_two_passes_refuted : let D := tub trough in
  sound D /\ open_channels D /\ links_join D /\ uncontrolled D /\ n_end_o (d_net D) = false /\
  exists m i x dt m' F, constructed D m /\ admissible D i dt /\ supply (d_net D) tub_par 1 1 i x /\
    object_step D (gauss 2) i dt 2 0 m = Some (m', 2%nat) /\ import_flow D dt m' = Some F /\ undisturbed D m m' /\
    ~ network_conserves (d_net D) tub_par (orifices_of D) (weirs_of D) (pumps_of D) F (i_Qin i) (i_Q0 i) dt /\
    ~ network_transport (d_net D) tub_par (orifices_of D) (weirs_of D) (pumps_of D) F (constant_state 1) (x_bc x) (x_0j x) (i_Qin i) (x_0I x) (i_Q0 i) dt
        (constant_state 1).
Proof.
  intros D. pose proof (tub_sound trough trough_conveys) as HD. pose proof (gauss_solver 2) as Hs.
  assert (Ho : open_channels D) by (intros i Hi; exists trough; split; reflexivity).
  split; [exact HD|]. split; [exact Ho|]. split; [apply tub_joins|]. split; [apply tub_uncontrolled|]. split; [reflexivity|].
  assert (C : constructed D (tub_object 2)) by (apply tub_constructed; lra).
  set (inp := tub_inputs 1 (3 - 2)).
  pose proof (tub_admissible trough 1 (3 - 2) : admissible D inp 60) as A.
  assert (Hm : healthy D (tub_object 2)) by (apply (healthy_history D (gauss 2) HD Hs (tub_object 2) []); auto; intros a []).
  destruct (object_step_total D (gauss 2) HD Hs inp 60 2 0 (tub_object 2) A Hm) as ([m' p] & E & _).
  assert (E2p : p = 2%nat).
  { revert E. unfold object_step, step. destruct (setup_step' _ _ _ _ _ _ _ _ _) as [m1|]; [|discriminate]. cbn [bind].
    destruct (solve_step' _ _ _ _ _ _ m1) as [m2|]; [|discriminate]. cbn [bind Nat.sub Nat.ltb Nat.leb].
    assert (NB : forall a b, all_below 2 0 a b = false).
    { intros a b. unfold all_below. cbn [seq forallb]. destruct (Rltb_spec (Rabs (a 0%nat - b 0%nat)) 0); [|reflexivity].
      pose proof (Rabs_pos (a 0%nat - b 0%nat)). lra. }
    change (n_M (d_net D)) with 2%nat. rewrite NB. unfold iterate. destruct (setup_step' _ _ _ _ _ _ _ _ _) as [m3|]; [|discriminate]. cbn [bind].
    destruct (solve_step' _ _ _ _ _ _ m3) as [m4|]; [|discriminate]. cbn [bind]. rewrite NB. cbn. intros [= _ <-]. reflexivity. }
  subst p.
  destruct (step_last D (gauss 2) HD Hs (fun _ => True) inp 60 2 0 _ _ _ A Hm I ltac:(auto) E)
    as (mb & Bl & b1 & _ & W & Rc & E1 & E2 & _ & _ & _ & Sv).
  destruct Bl as [[X _]|(q & Q1 & Q2 & Eb)]; [discriminate|]. assert (q = 1%nat) by lia. subst q.
  destruct (one_pass D (gauss 2) HD Hs _ _ _ _ _ _ A Hm Eb) as (b3 & E3 & E4 & _ & _).
  destruct (tub_pass trough 1 2 3 _ _ _ _ trough_conveys (proj1 Hm) (proj1 (proj2 Hm)) (tub_level 2) eq_refl
    ltac:(intros; simpl; lra) (trough_width _) ltac:(lra) ltac:(lra) E3 E4) as ([Lb Qb] & _ & _ & _).
  destruct (tub_pass trough 1 2 3 _ _ _ _ trough_conveys W Rc (tub_level 2) Qb
    ltac:(intros j Hj; destruct (Lb j Hj) as [-> _]; lra) (trough_width _) ltac:(lra) ltac:(lra) E1 E2) as (Lv & Hf & Di & _).
  destruct (import_total D 60 m' ltac:(simpl; lia) Ho ltac:(lra)) as [F EF].
  assert (No : (10 * f_A F 0%nat - 10 * f_Ap F 0%nat) / 60 <> f_Qup F 0%nat - f_Qdn F 0%nat).
  { destruct (import_inv D _ _ _ EF) as (_ & a & e & Ea & _ & ->). specialize (Ea 0%nat ltac:(simpl; lia)).
    destruct (pass_facts D (gauss 2) HD Hs _ _ _ _ _ _ A W Rc E1 E2) as (bg & _ & _ & _ & _ & Eg & _).
    destruct (pass_geometry D (gauss 2) _ _ _ _ _ _ _ E1 E2 Eg) as (Gl & _).
    destruct (trough_width _ _ Eg) as (B & _). pose proof (geometries_at D _ _ Eg) as [GL _ _ _].
    destruct (GL 0%nat ltac:(simpl; lia)) as (o & gm & X & Y & _ & _).
    destruct (Lb 0%nat ltac:(lia)) as [_ U0]. destruct (Lb 1%nat ltac:(lia)) as [_ U1].
    cbn [d_Ik D tub d_sec] in X. change (0 + 1)%nat with 1%nat in X. rewrite U0, U1 in X.
    pose proof (open_area _ _ _ _ _ trough eq_refl eq_refl X ltac:(lra) ltac:(simpl; lra)) as AA. cbn [geometry_of g_A] in Y. rewrite AA in Y. cbn in Y.
    destruct Lv as [Lv Q0]. destruct (Lv 0%nat ltac:(lia)) as [_ V0]. destruct (Lv 1%nat ltac:(lia)) as [_ V1].
    rewrite Sv. cbn [f_A f_Ap f_Qup f_Qdn]. unfold face_up, face_dn. cbn [d_Ik D tub]. rewrite Gl, B, Y, Q0.
    change (0 + 1)%nat with 1%nat. rewrite V0, V1.
    cbn [code_of dim_of d_sec D tub trough shape g1 d_Ik] in Ea. change (0 + 1)%nat with 1%nat in Ea. rewrite V0, V1, Gl, B in Ea. cbn in Ea. injection Ea as <-.
    cbn. lra. }
  exists (tub_object 2), inp, (tub_doses 1), 60, m', F.
  split; [exact C|]. split; [exact A|]. split; [apply tub_supply; lra|]. split; [exact E|]. split; [exact EF|]. split; [|split].
  - constructor; auto.
    + intros i s Hi Es. simpl in Es. injection Es as <-. simpl. lra.
    + intros k Hk. simpl. lra.
  - intros NC. apply No. exact (tub_link trough F _ NC).
  - intros T. apply No. exact (tub_uniform trough F _ _ T).
Qed.
