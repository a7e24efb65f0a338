(** Property C68: superlink ends under the momentum boundary method (bc_method='b'). *)
From Verif Require Import Prelude M_Coeffs M_Recurrence M_Assembly M_Step S_Superlink S_Network S_Step S_MomentumEnds
  L_Forward L_Backward L_Pivots L_Internals L_Coeffs L_Boundary L_Assembly L_Dominance L_Linear
  P_Superlink P_Assembly P_Wellposed L_Step P_Step.

(** What the coefficients mean: the momentum equation with friction [9.81 A] times too large, and of the opposite sign at
    the upstream end. *)
Lemma end_relations H z_inv Q Q_old dx A C Rh n sf S_o dt hu hd :
  0 < A -> 0 < Rh -> 0 < n -> friction_defined sf Q A Rh n -> 0 < dt -> z_inv <= H ->
  upstream_head_coefficients BCb H z_inv Q Q_old dx A C Rh n sf S_o dt = Some hu ->
  downstream_head_coefficients BCb H z_inv Q Q_old dx A C Rh n sf S_o dt = Some hd ->
  let f := friction_law sf Q dx A Rh n in
  (forall q Hj h, h = hk hu * q + hl hu * Hj + hm hu <->
     end_momentum A dx dt C (- (9.81 * A * f)) Q Q_old q (Hj - (z_inv - dx * S_o + h))) /\
  (forall q Hj h, h = hk hd * q + hl hd * Hj + hm hd <->
     end_momentum A dx dt C (9.81 * A * f) Q Q_old q (z_inv + dx * S_o + h - Hj)).
Proof.
  intros HA HR Hn HF Hdt Hz. unfold upstream_head_coefficients, downstream_head_coefficients, kappa_uk, kappa_dk.
  rewrite (friction_defined_ok Q dx A Rh n sf HA HR Hn HF). cbn [bind]. intros E1 E2.
  injection E1 as <-. injection E2 as <-. cbn [hk hl hm]. unfold theta_k. destruct (Rleb_spec z_inv H); [|lra].
  unfold end_momentum, mu_uk, mu_dk. set (f := friction_law sf Q dx A Rh n).
  split; intros q Hj h; split.
  - intros ->. unfold g. field. lra.
  - intros E. apply (Rmult_eq_reg_r (9.81 * A)); [|lra].
    replace (h * (9.81 * A)) with (9.81 * A * (Hj - (z_inv - dx * S_o)) - 9.81 * A * (Hj - (z_inv - dx * S_o + h))) by ring.
    rewrite <- E. unfold g. field. lra.
  - intros ->. unfold g. field. lra.
  - intros E. apply (Rmult_eq_reg_r (9.81 * A)); [|lra].
    replace (h * (9.81 * A)) with (9.81 * A * (z_inv + dx * S_o + h - Hj) + 9.81 * A * (Hj - (z_inv + dx * S_o))) by ring.
    rewrite <- E. unfold g. field. lra.
Qed.

(** Still water, or an end piece of no length: the coefficients exist and the end depths are exactly those of the momentum
    equation of the end pieces, for every new flow and head. *)
Theorem C68_end_depths_without_friction :
  forall H z_inv Q Q_old dx A C Rh n sf S_o dt,
  0 < A -> 0 < Rh -> 0 < n -> (sf <= 1)%nat -> Q = 0 \/ dx = 0 -> 0 < dt -> z_inv <= H ->
  exists hu hd,
  upstream_head_coefficients BCb H z_inv Q Q_old dx A C Rh n sf S_o dt = Some hu /\
  downstream_head_coefficients BCb H z_inv Q Q_old dx A C Rh n sf S_o dt = Some hd /\
  let f := friction_law sf Q dx A Rh n in
  (forall q Hj h, h = hk hu * q + hl hu * Hj + hm hu <->
     end_momentum A dx dt C f Q Q_old q (Hj - (z_inv - dx * S_o + h))) /\
  (forall q Hj h, h = hk hd * q + hl hd * Hj + hm hd <->
     end_momentum A dx dt C f Q Q_old q (z_inv + dx * S_o + h - Hj)).
Proof.
  intros H z_inv Q Q_old dx A C Rh n sf S_o dt HA HR Hn Hsf H0 Hdt Hz.
  assert (HF : friction_defined sf Q A Rh n) by (left; exact Hsf).
  destruct (upstream_head_coefficients BCb H z_inv Q Q_old dx A C Rh n sf S_o dt) as [hu|] eqn:E1.
  2:{ unfold upstream_head_coefficients, kappa_uk in E1. rewrite friction_defined_ok in E1 by auto. discriminate. }
  destruct (downstream_head_coefficients BCb H z_inv Q Q_old dx A C Rh n sf S_o dt) as [hd|] eqn:E2.
  2:{ unfold downstream_head_coefficients, kappa_dk in E2. rewrite friction_defined_ok in E2 by auto. discriminate. }
  exists hu, hd. split; [reflexivity|]. split; [reflexivity|]. cbv zeta.
  assert (F0 : friction_law sf Q dx A Rh n = 0).
  { destruct H0 as [->| ->]; [apply friction_still; auto|]. unfold friction_law. destruct sf as [|[|sf]]; [| |lia]; unfold Rdiv; ring. }
  destruct (end_relations H z_inv Q Q_old dx A C Rh n sf S_o dt hu hd HA HR Hn HF Hdt Hz E1 E2) as [X Y].
  rewrite F0 in *. replace (- (9.81 * A * 0)) with 0 in X by ring. replace (9.81 * A * 0) with 0 in Y by ring. auto.
Qed.

(** With friction (moving water, an end piece of some length, any of the three formulas) no flow other than zero satisfies
    both the upstream relation and the momentum equation: the code adds a head gain instead of a head loss.  Downstream the
    loss is taken 9.81 A times, so it is right only where 9.81 A = 1. *)
Theorem C68_friction_refuted :
  forall H z_inv Q Q_old dx A C Rh n sf S_o dt hu hd,
  0 < A -> 0 < Rh -> 0 < n -> friction_defined sf Q A Rh n -> Q <> 0 -> 0 < dx -> 0 < dt -> z_inv <= H ->
  upstream_head_coefficients BCb H z_inv Q Q_old dx A C Rh n sf S_o dt = Some hu ->
  downstream_head_coefficients BCb H z_inv Q Q_old dx A C Rh n sf S_o dt = Some hd ->
  let f := friction_law sf Q dx A Rh n in
  (forall q Hj, end_momentum A dx dt C f Q Q_old q (Hj - (z_inv - dx * S_o + (hk hu * q + hl hu * Hj + hm hu))) -> q = 0) /\
  (forall q Hj, end_momentum A dx dt C f Q Q_old q (z_inv + dx * S_o + (hk hd * q + hl hd * Hj + hm hd) - Hj) ->
     q = 0 \/ 9.81 * A = 1).
Proof.
  intros H z_inv Q Q_old dx A C Rh n sf S_o dt hu hd HA HR Hn HF HQ Hdx Hdt Hz E1 E2 f.
  destruct (end_relations H z_inv Q Q_old dx A C Rh n sf S_o dt hu hd HA HR Hn HF Hdt Hz E1 E2) as [X Y].
  pose proof (friction_defined_pos Q dx A Rh n sf HQ Hdx HA HR Hn HF) as PF. fold f in X, Y, PF.
  split; intros q Hj M.
  - pose proof (proj1 (X q Hj _) eq_refl) as M'. unfold end_momentum in *.
    assert (Z : f * (1 + 9.81 * A) * q = 0) by lra.
    apply Rmult_integral in Z. destruct Z as [Z|Z]; [|exact Z]. exfalso.
    assert (0 < f * (1 + 9.81 * A)) by (apply Rmult_lt_0_compat; lra). lra.
  - pose proof (proj1 (Y q Hj _) eq_refl) as M'. unfold end_momentum in *.
    assert (Z : f * ((9.81 * A - 1) * q) = 0) by lra.
    apply Rmult_integral in Z. destruct Z as [Z|Z]; [lra|]. apply Rmult_integral in Z. destruct Z; [right|left]; lra.
Qed.

(** Every wet superlink of any length: whatever the coefficients of its downstream end, for any flow in the upstream end
    piece there is a roughness of that piece at which the determinant the code divides by is zero; both end flows are then
    silently set to zero, whatever the heads. *)
Theorem C68_end_flows_vanish_refuted :
  forall a b c P A E D NK nk i_1k I_1k sf f sb bw end_o hd,
  layout NK nk i_1k I_1k ->
  (forall k, (k < NK)%nat -> wet_superlink a b c A E (i_1k k) (I_1k k) (nk k)) ->
  numba_forward_recurrence sf a b c P A E D NK nk I_1k i_1k = Some f ->
  numba_backward_recurrence sb a b c P A E D NK nk
     (fun k => I_1k k + nk k - 1)%nat (fun k => i_1k k + nk k - 1)%nat = Some bw ->
  0 <= hk hd ->
  forall k H z_inv Q Q_old dx Ae C Rh S_o dt,
  (k < NK)%nat -> Q <> 0 -> 0 < dx -> 0 < Ae -> 0 <= C -> 0 < Rh -> 0 < dt ->
  exists n hu, 0 < n /\
    upstream_head_coefficients BCb H z_inv Q Q_old dx Ae C Rh n 0 S_o dt = Some hu /\
    let e := end_coeffs end_o f bw E D (I_1k k) (I_1k k + nk k - 1) (I_1k k + nk k) in
    forall H_u H_d, solve_superlink_flows (superlink_flow_coefficients e hu hd) H_u H_d = (0, 0).
Proof.
  intros a b c P A E D NK nk i_1k I_1k sf f sb bw end_o hd Hl Hw Ef Eb Hkd k H z_inv Q Q_old dx Ae C Rh S_o dt Hk HQ Hdx HA HC HR Hdt.
  pose proof (forward_recurrence_ok _ _ _ _ _ _ _ sf NK nk I_1k i_1k f Hl Ef k Hk) as HF.
  assert (HB : bwd_eqs a b c P A E D (i_1k k) (I_1k k) (nk k) bw) by (eapply backward_recurrence_ok; eauto; intros; cbv beta; lia).
  assert (Hn : (1 <= nk k)%nat) by (apply Hl; auto).
  pose proof (end_order a b c P A E D (i_1k k) (I_1k k) (nk k) f bw Hn HF HB (Hw k Hk) end_o) as X. cbv zeta in X.
  set (e := end_coeffs end_o f bw E D (I_1k k) (I_1k k + nk k - 1) (I_1k k + nk k)) in *.
  destruct X as [[W1 W2] [U1 U2]].
  set (kd := hk hd) in *.
  assert (PA : 1 <= 1 - eU e * kd) by (assert (0 <= - eU e * kd) by (apply Rmult_le_pos; lra); lra).
  assert (PB : 0 < eX e * (1 - eU e * kd) + eZ e * eW e * kd).
  { assert (- eZ e * eW e <= - eU e * eX e) by (apply Rmult_le_compat; lra).
    assert (0 <= (- eU e * eX e - - eZ e * eW e) * kd) by (apply Rmult_le_pos; lra). lra. }
  set (ku := (1 - eU e * kd) / (eX e * (1 - eU e * kd) + eZ e * eW e * kd)).
  assert (PK : 0 < ku) by (apply div_pos_pos; lra).
  pose proof g_pos as Hg. pose proof (Rabs_pos_lt _ HQ) as PQ.
  set (p := dx / g / Ae / dt + C * Rabs Q / 2 / g / Ae ^ 2).
  assert (Pp : 0 <= p).
  { unfold p. apply Rplus_le_le_0_compat; repeat apply div_nonneg_pos; try lra; [apply Rmult_le_pos; lra|apply sq_pos; lra]. }
  pose proof (exp_pos (4 / 3 * ln Rh)) as PR. change (exp (4 / 3 * ln Rh)) with (Rpower Rh (4 / 3)) in PR.
  set (r := 9.81 * Rabs Q * dx / (Ae * Rpower Rh (4 / 3))).
  assert (Pr : 0 < r).
  { unfold r. apply div_pos_pos; [|apply Rmult_lt_0_compat; auto]. apply Rmult_lt_0_compat; auto. lra. }
  exists (sqrt ((ku + p) / r)).
  assert (Pn : 0 < sqrt ((ku + p) / r)) by (apply sqrt_lt_R0; apply div_pos_pos; lra).
  unfold upstream_head_coefficients, kappa_uk. rewrite friction_law_ok by auto. cbn [bind].
  eexists. split; [exact Pn|]. split; [reflexivity|]. cbv zeta. intros H_u H_d.
  assert (EK : forall th mu, hk (mkHead (- dx / g / Ae / dt + friction_law 0 Q dx Ae Rh (sqrt ((ku + p) / r)) + - C * Rabs Q / 2 / g / Ae ^ 2) th mu) = ku).
  { intros th mu. cbn [hk]. unfold friction_law.
    replace (sqrt ((ku + p) / r) ^ 2) with ((ku + p) / r) by (symmetry; apply pow2_sqrt; left; apply div_pos_pos; lra).
    replace (9.81 * ((ku + p) / r) * Rabs Q * dx / (Ae * Rpower Rh (4 / 3))) with ((ku + p) / r * r).
    2:{ unfold r at 2. unfold Rdiv. ring. }
    replace ((ku + p) / r * r) with (ku + p) by (field; lra). unfold p. unfold Rdiv. ring. }
  unfold superlink_flow_coefficients. rewrite EK. fold kd.
  replace (D_k_star (eX e) ku (eU e) kd (eZ e) (eW e)) with 0.
  2:{ unfold D_k_star, ku. field. lra. }
  unfold solve_superlink_flows. cbn [au bu cu ad bd cd].
  unfold alpha_uk, beta_uk, chi_uk, alpha_dk, beta_dk, chi_dk, safe_divide.
  destruct (Reqb_spec 0 0); [|lra]. f_equal; ring.
Qed.

(** Still water under Manning or Hazen-Williams friction: the momentum method suits the state, so a level surface stays at
    rest (C28) with end pieces of any length and slope. *)
Theorem C68_water_at_rest_stays_at_rest :
  forall N G w st sv Q0 Q_in dt u CO CW CP H_bc s zI H0,
  well_formed N -> wet N G -> 0 < dt -> n_bcm N = BCb ->
  (forall k, (k < n_K N)%nat -> 0 < g_Au G k /\ 0 < g_Ru G k /\ 0 < n_nu N k /\ (n_sfu N k <= 1)%nat /\
                                0 < g_Ad G k /\ 0 < g_Rd G k /\ 0 < n_nd N k /\ (n_sfd N k <= 1)%nat) ->
  bed N zI -> level_inside N zI H0 -> at_rest N zI H0 st -> at_rest N zI H0 sv ->
  (forall I, Q0 I = 0) -> (forall j, Q_in j = 0) -> (forall j, (j < n_M N)%nat -> n_bc N j = true -> H_bc j = H0) ->
  controls_ordered CO -> controls_ordered CW -> controls_ordered CP -> idle CO H0 -> idle CW H0 -> idle CP H0 ->
  (forall j, (j < n_M N)%nat -> n_bc N j = false -> 0 < junction_surface N G (h_H st) j) ->
  setup_step N G w st sv Q0 dt = Some u ->
  let K := superlinks_of N G u in
  reachable (n_M N) (n_bc N) K CO CW CP s -> network_ok (n_M N) K CO CW CP ->
  let l := matrix (n_M N) (n_bc N) K CO CW CP (g_Asj G) (h_H sv) H_bc Q_in dt s in
  let b := s_b (assembled (n_M N) (n_bc N) K CO CW CP (g_Asj G) (h_H sv) H_bc Q_in dt s) in
  solves (n_M N) l b (fun _ => H0) /\
  forall H_sol, solves (n_M N) l b H_sol -> at_rest N zI H0 (solve_step N u st H_sol).
Proof.
  intros N G w st sv Q0 Q_in dt u CO CW CP H_bc s zI H0 Hwf Hwet Hdt Hb HE Hbed Hlev Hst.
  assert (HM : ends_mild N G st dt).
  { right. intros k Hk. destruct (HE k Hk) as (X1 & X2 & X3 & X4 & X5 & X6 & X7 & X8).
    split; [repeat (split; [assumption|]); left; assumption|]. split; [repeat (split; [assumption|]); left; assumption|].
    destruct (ar_ends _ _ _ _ Hst k Hk) as [-> _]. rewrite friction_still by auto. rewrite Rabs_R0.
    destruct (wet_ends _ _ Hwet k Hk) as (_ & _ & Hdx & _).
    assert (0 <= n_dxu N k / dt) by (apply div_nonneg_pos; auto). unfold Rdiv at 2. lra. }
  intros Hsv. exact (C28_water_at_rest_stays_at_rest N G w st sv Q0 Q_in dt u CO CW CP H_bc s zI H0 Hwf Hwet Hdt HM Hbed Hlev Hst Hsv).
Qed.

(** Witness: the network of C28 with the momentum method and sloping end pieces. *)
Definition piece_net : network :=
  mkNetwork 2 ex_nk ex_i1 ex_I1 (fun k => k) (fun k => S k) 5 7 ex_kI ex_fwdi ex_bwdi ex_isS ex_isE
    (fun i => Nat.eqb i 0 || Nat.eqb i 3) (fun i => Nat.eqb i 2 || Nat.eqb i 4)
    (fun _ => 10) (fun _ => 1/100) (fun i => if Nat.eqb i 1 then 1%nat else 0%nat) (fun _ => 1/10) (fun _ => 1) (fun _ => 1/2)
    (fun i => Nat.eqb i 2) (fun _ => 0) (fun _ => 1) (fun _ => 2) (fun _ => 1/2) (fun _ => 1)
    (fun k => if Nat.eqb k 0 then 4 else 3) (fun _ => 1/2) (fun _ => 1/100) (fun _ => 1/100) (fun _ => 1%nat) (fun _ => 0%nat)
    (fun _ => 1) (fun _ => - (1/4)) 3 (fun j => Nat.eqb j 2) (fun _ => 0) (fun _ => 100) (1/1000) (fun _ => 50) false BCb true true.
Lemma piece_net_ok : well_formed piece_net /\ wet piece_net rest_geom.
Proof.
  split.
  - constructor.
    + exact ex_layout.
    + exact ex_chain.
    + intros [|[|k]] Hk; simpl in Hk; [| |lia]; unfold piece_net, ex_i1, ex_I1, ex_nk; simpl; lia.
    + intros k Hk; simpl in *; lia.
  - constructor; simpl; intros; repeat split; try lra. destruct (Nat.eqb i 1); lia.
Qed.
Example C68_example :
  bed piece_net rest_bed /\ level_inside piece_net rest_bed 10 /\ at_rest piece_net rest_bed 10 rest_state /\
  (forall j, (j < 3)%nat -> n_bc piece_net j = false -> 0 < junction_surface piece_net rest_geom (h_H rest_state) j) /\
  exists u, setup_step piece_net rest_geom
      (mkWork zeros zeros zeros (mkFwd zeros zeros zeros zeros) (mkBwd zeros zeros zeros zeros) (fun _ => mkHead 0 0 0) (fun _ => mkHead 0 0 0))
      rest_state rest_state zeros 60 = Some u /\ hk (u_hu u 0%nat) < 0 /\
    network_ok 3 (superlinks_of piece_net rest_geom u) no_controls no_controls no_controls.
Proof.
  split; [|split; [|split; [|split]]].
  - intros [|[|k]] Hk; simpl in Hk; [| |lia]; unfold rest_bed; cbn -[INR]; (split; [simpl; lra|split; [simpl; lra|]]); intros j Hj;
      do 3 (destruct j as [|j]; [simpl; lra|]); lia.
  - split; [|split; [|split]].
    + simpl; intros; lra.
    + intros [|[|k]] Hk; simpl; lra.
    + intros [|[|k]] j Hk Hj; simpl in Hk; [| |lia]; unfold rest_bed; cbn -[INR]; cbn in Hj;
        do 4 (destruct j as [|j]; [simpl; lra|]); lia.
    + intros [|[|k]] j Hk Hj1 Hj; simpl in Hk; [| |lia]; unfold rest_bed; cbn -[INR]; cbn in Hj;
        do 4 (destruct j as [|j]; [simpl; lra|]); lia.
  - constructor; simpl; intros; auto.
  - intros [|[|[|j]]] Hj Hb; try lia; try discriminate; unfold junction_surface, attached_area, sum_if, above; simpl;
      repeat match goal with |- context [Rleb ?a ?b] => destruct (Rleb_spec a b) end; lra.
  - destruct piece_net_ok as [H1 H2].
    assert (HM : ends_mild piece_net rest_geom rest_state 60).
    { right. intros k Hk. split; [|split].
      - cbn. repeat split; try lra. left. lia.
      - cbn. repeat split; try lra. left. lia.
      - cbn [piece_net rest_geom rest_state n_sfu h_Qu n_dxu g_Au g_Ru n_nu n_Cu]. rewrite friction_still by lia. rewrite Rabs_R0. lra. }
    destruct (setup_total piece_net rest_geom
      (mkWork zeros zeros zeros (mkFwd zeros zeros zeros zeros) (mkBwd zeros zeros zeros zeros) (fun _ => mkHead 0 0 0) (fun _ => mkHead 0 0 0))
      rest_state rest_state zeros 60 H1 H2 ltac:(lra) HM) as [u Hu].
    exists u. split; [exact Hu|]. split.
    + pose proof (setup_facts_ok _ _ _ _ _ _ _ _ Hu) as [_ _ _ _ Fhu _]. specialize (Fhu 0%nat ltac:(simpl; lia)).
      unfold upstream_head_coefficients in Fhu. cbn [piece_net rest_geom rest_state n_bcm n_sfu h_Qu n_dxu g_Au g_Ru n_nu n_Cu] in Fhu.
      unfold kappa_uk in Fhu. rewrite friction_law_ok in Fhu by (lra || lia). rewrite friction_still in Fhu by lia.
      cbn [bind] in Fhu. injection Fhu as <-. cbn [hk]. rewrite Rabs_R0. unfold g. lra.
    + split; [|unfold ends_in; simpl; repeat split; intros; lia]. intros k Hk. simpl in *. lia.
Qed.
