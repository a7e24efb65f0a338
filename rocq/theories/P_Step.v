(** Properties C26 (network volume balance) and C28 (water at rest): whole steps. *)
From Verif Require Import Prelude M_Coeffs M_Recurrence M_Assembly M_Step S_Superlink S_Network S_Step
  L_Forward L_Backward L_Pivots L_Internals L_Coeffs L_Boundary L_Assembly L_Dominance L_Linear
  P_Superlink P_Assembly P_Wellposed L_Step.

(** ** C26  Volume balance of a network over one step *)

(** Every superlink's reported flows and depths satisfy the linearised momentum and continuity equations of the step when
    the depths stay inside their limits (C21); its end depths are those computed from the head relations. *)
Lemma reported_solution N G w st sv Q0 dt u H_sol :
  well_formed N -> wet N G -> 0 < dt -> ends_mild N G st dt -> n_end_o N = false ->
  setup_step N G w st sv Q0 dt = Some u ->
  let st' := solve_step N u st H_sol in
  depths_inside N u st' ->
  forall k, (k < n_K N)%nat ->
  superlink_solution (ma (u_m u)) (mb (u_m u)) (mc (u_m u)) (mP (u_m u)) (g_A G) (u_E u) (u_D u)
    (n_i1 N k) (n_I1 N k) (n_nk N k)
    (local_flows (h_Q st') (n_i1 N k) (n_nk N k) (h_Qu st' k) (h_Qd st' k)) (fun j => h_h st' (n_I1 N k + j)%nat) /\
  h_h st' (n_I1 N k) = fst (end_depths N u st' k) /\ h_h st' (n_I1 N k + n_nk N k)%nat = snd (end_depths N u st' k).
Proof.
  intros Hwf Hwet Hdt Hz Hend Hu st' Hd k Hk.
  pose proof (setup_facts_ok _ _ _ _ _ _ _ _ Hu) as [Fm Fn Ff Fb Fhu Fhd].
  destruct (setup_signs N G w st sv Q0 dt Hwf Hwet Hdt u Hu) as [HW HP].
  set (Hn' := fun j => limit_head (n_zj N j) (n_maxj N j) (H_sol j)).
  assert (EH' : h_H st' = Hn').
  { reflexivity. }
  assert (EQu : forall k, h_Qu st' k = fst (solve_superlink_flows (flow_coeffs N u k) (Hn' (n_Ju N k)) (Hn' (n_Jd N k)))).
  { intros. reflexivity. }
  assert (EQd : forall k, h_Qd st' k = snd (solve_superlink_flows (flow_coeffs N u k) (Hn' (n_Ju N k)) (Hn' (n_Jd N k)))).
  { intros. reflexivity. }
  assert (ES : solve_internals (n_back N) (h_h st, h_Q st) (fun k => fst (end_depths N u st' k)) (fun k => snd (end_depths N u st' k))
              (u_f u) (u_b u) (n_i1 N) (n_I1 N) (n_nk N) (n_K N) (n_min N) (n_maxk N) = (h_h st', h_Q st')).
  { unfold st', solve_step, end_depths; cbn. destruct (solve_internals _ _ _ _ _ _ _ _ _ _ _ _); reflexivity. }
  destruct (Hd k Hk) as (D1 & D2 & D3).
  destruct (C21_reported_state_satisfies_momentum_and_continuity
    (ma (u_m u)) (mb (u_m u)) (mc (u_m u)) (mP (u_m u)) (g_A G) (u_E u) (u_D u) (n_K N) (n_nk N) (n_i1 N) (n_I1 N)
    (w_f w) (u_f u) (w_w w) (u_b u) (u_hu u) (u_hd u) (fun k => Hn' (n_Ju N k)) (fun k => Hn' (n_Jd N k))
    (h_Qu st') (h_Qd st') (fun k => fst (end_depths N u st' k)) (fun k => snd (end_depths N u st' k))
    (n_min N) (n_maxk N) (n_back N) (h_h st, h_Q st) (h_h st') (h_Q st')) with (k := k) as [SS X]; auto.
  - apply Hwf.
  - intros k' Hk'. rewrite <- Hend. split; [apply (setup_det N G w st sv Q0 dt Hwf Hwet Hdt Hz u Hu k' Hk')|]. split.
    + rewrite EQu, EQd. fold (flow_coeffs N u k'). destruct (solve_superlink_flows _ _ _); reflexivity.
    + unfold end_depths. rewrite EH'. destruct (solve_superlink_depths _ _ _ _ _ _); reflexivity.
Qed.

(** A network of any topology and size without prescribed heads, in a wet state, default end method, either boundary method
    (momentum ends with friction below inertia, [ends_mild]), any orifices, weirs and pumps, any history of the model
    object: if the linear solver returned a solution of the assembled system and no limit on heads or depths was active, the change of stored volume is dt times inflow. *)
Theorem C26_step_conserves_volume :
  forall N G w st sv Q0 Q_in dt u CO CW CP H_bc s H_sol,
  well_formed N -> wet N G -> 0 < dt -> ends_mild N G st dt -> n_end_o N = false ->
  (forall j, (j < n_M N)%nat -> n_bc N j = false) ->
  setup_step N G w st sv Q0 dt = Some u ->
  let K := superlinks_of N G u in
  reachable (n_M N) (n_bc N) K CO CW CP s -> network_ok (n_M N) K CO CW CP ->
  solves (n_M N) (matrix (n_M N) (n_bc N) K CO CW CP (g_Asj G) (h_H sv) H_bc Q_in dt s)
         (s_b (assembled (n_M N) (n_bc N) K CO CW CP (g_Asj G) (h_H sv) H_bc Q_in dt s)) H_sol ->
  let st' := solve_step N u st H_sol in
  heads_inside N H_sol -> depths_inside N u st' ->
  stored_volume_change N G (h_H st) sv st' = dt * total_inflow N Q_in Q0.
Proof.
  intros N G w st sv Q0 Q_in dt u CO CW CP H_bc s H_sol Hwf Hwet Hdt Hz Hend Hbc Hu K Hr Hn Hsol st' HH Hd.
  pose proof (setup_facts_ok _ _ _ _ _ _ _ _ Hu) as [Fm Fn Ff Fb Fhu Fhd].
  destruct (setup_signs N G w st sv Q0 dt Hwf Hwet Hdt u Hu) as [HW HP].
  assert (EH : forall j, (j < n_M N)%nat -> h_H st' j = H_sol j).
  { intros j Hj. unfold st', solve_step. simpl.
    apply limit_head_id. apply HH; auto. }
  set (Hn' := fun j => limit_head (n_zj N j) (n_maxj N j) (H_sol j)).
  assert (EH' : h_H st' = Hn').
  { reflexivity. }
  assert (EQu : forall k, h_Qu st' k = fst (solve_superlink_flows (flow_coeffs N u k) (Hn' (n_Ju N k)) (Hn' (n_Jd N k)))).
  { intros k. reflexivity. }
  assert (EQd : forall k, h_Qd st' k = snd (solve_superlink_flows (flow_coeffs N u k) (Hn' (n_Ju N k)) (Hn' (n_Jd N k)))).
  { intros k. reflexivity. }
  (* the superlinks *)
  assert (SL : forall k, (k < n_K N)%nat ->
     sum_n (fun j => internal_surface N G (n_I1 N k + j)%nat * (h_h st' (n_I1 N k + j)%nat - h_h sv (n_I1 N k + j)%nat)) (n_nk N k + 1)
     = dt * (h_Qu st' k - h_Qd st' k + sum_n (fun j => Q0 (n_I1 N k + j)%nat) (n_nk N k + 1))).
  { intros k Hk.
    pose proof (proj1 (reported_solution N G w st sv Q0 dt u H_sol Hwf Hwet Hdt Hz Hend Hu Hd k Hk)) as SS.
    cbv zeta in SS. fold st' in SS.
    pose proof (C21_superlink_conserves_volume dt _ _ Q0 _ _ _ _ _ _ _ _ _ _ _ _ _ _ _ _ _ _ _ _ _ (n_i1 N k) (n_I1 N k) (n_nk N k) _ _
       Hdt Fn (proj2 (wf_range _ Hwf k Hk)) SS) as V. cbv zeta in V. unfold internal_surface. rewrite V.
    unfold local_flows. simpl Nat.eqb.
    destruct (Nat.eqb_spec (n_nk N k + 1) 0); [lia|]. destruct (Nat.leb_spec (n_nk N k + 1) (n_nk N k)); [lia|]. reflexivity. }
  (* the junctions *)
  assert (JL : sum_n (fun j => junction_surface N G (h_H st) j * (h_H st' j - h_H sv j)) (n_M N)
     = dt * (sum_n Q_in (n_M N) + sum_n (fun k => h_Qd st' k - h_Qu st' k) (n_K N))).
  { assert (RW : forall j, (j < n_M N)%nat ->
       junction_surface N G (h_H st) j * (h_H st' j - h_H sv j)
       = dt * (Q_in j + net_inflow (superlink_elements K) H_sol j + net_inflow (control_elements CO) H_sol j
                 + net_inflow (control_elements CW) H_sol j + net_inflow (control_elements CP) H_sol j)).
    { intros j Hj. rewrite EH by auto.
      pose proof (proj1 (C22_row_is_water_balance (n_M N) (n_bc N) K CO CW CP (g_Asj G) (h_H sv) H_bc Q_in dt s H_sol j
        Hr Hn ltac:(lra) Hj (Hbc j Hj)) (Hsol j Hj)) as B.
      rewrite <- B.
      assert (EA : junction_surface N G (h_H st) j
        = attached_area (g_Asj G) (k_n K) (k_Ju K) (k_Jd K) (k_dxu K) (k_Bu K) (k_thu K) (k_dxd K) (k_Bd K) (k_thd K) j).
      { unfold junction_surface, attached_area. f_equal; [f_equal|]; apply sum_if_ext; intros k Hk; (split; [reflexivity|]); intros _; simpl.
        - destruct (setup_theta N G w st sv Q0 dt u Hu k Hk) as (-> & _). reflexivity.
        - destruct (setup_theta N G w st sv Q0 dt u Hu k Hk) as (_ & _ & -> & _). reflexivity. }
      rewrite EA. field. lra. }
    rewrite (sum_n_ext _ _ _ RW). rewrite sum_n_scal. f_equal.
    rewrite !sum_n_plus. destruct Hn as (N1 & N2 & N3 & N4). rewrite !net_controls_total by auto.
    unfold net_inflow. rewrite sum_n_minus. rewrite !sum_if_total by (intros; now apply N1).
    simpl. rewrite <- sum_n_minus.
    assert (X : sum_n (fun i => k_ad K i * H_sol (n_Ju N i) + k_bd K i * H_sol (n_Jd N i) + k_cd K i
                    - (k_au K i * H_sol (n_Ju N i) + k_bu K i * H_sol (n_Jd N i) + k_cu K i)) (n_K N)
            = sum_n (fun k => h_Qd st' k - h_Qu st' k) (n_K N)).
    { apply sum_n_ext. intros k Hk. rewrite EQu, EQd. unfold solve_superlink_flows. simpl.
      destruct (wf_ends _ Hwf k Hk) as [J1 J2]. unfold Hn'. rewrite !limit_head_id by (apply HH; auto). reflexivity. }
    simpl in X. rewrite X. lra. }
  unfold stored_volume_change, total_inflow. rewrite JL, (sum_n_ext _ _ _ SL), sum_n_scal, sum_n_plus, !sum_n_minus. lra.
Qed.

(** ** C28  Water at rest stays at rest *)

(** Linearised control flow vanishes when both heads are H0 (C35: true for every control whose last flow was 0). *)
Definition idle (C : controls) (H0 : R) : Prop :=
  forall k, (k < c_n C)%nat -> c_a C k * H0 + c_b C k * H0 + c_c C k = 0.

(** Superlinks at rest: the coefficients of the step are satisfied by zero flow and the level H0. *)
Lemma rest_solution N G w st sv Q0 dt u zI H0 :
  well_formed N -> wet N G -> 0 < dt -> bed N zI ->
  at_rest N zI H0 st -> at_rest N zI H0 sv -> (forall I, Q0 I = 0) ->
  setup_step N G w st sv Q0 dt = Some u ->
  forall k, (k < n_K N)%nat ->
  superlink_solution (ma (u_m u)) (mb (u_m u)) (mc (u_m u)) (mP (u_m u)) (g_A G) (u_E u) (u_D u)
    (n_i1 N k) (n_I1 N k) (n_nk N k) (fun _ => 0) (fun j => H0 - zI (n_I1 N k + j)%nat).
Proof.
  intros Hwf Hwet Hdt Hbed Hst Hsv HQ0 Hu k Hk.
  pose proof (setup_facts_ok _ _ _ _ _ _ _ _ Hu) as [Fm Fn _ _ _ _].
  destruct (Hbed k Hk) as (_ & _ & HS). destruct (wf_range _ Hwf k Hk) as [R1 R2]. split.
  - intros j Hj. destruct (link_coeffs_entries _ _ _ _ _ _ Fm) as (_ & _ & EP & _). rewrite EP.
    unfold P_ik. simpl. rewrite (ar_flows _ _ _ _ Hsv k j Hk Hj). specialize (HS j Hj).
    replace (zI (n_I1 N k + (j + 1))%nat) with (zI (n_I1 N k + j + 1)%nat) by (f_equal; lia).
    replace (H0 - zI (n_I1 N k + j)%nat - (H0 - zI (n_I1 N k + j + 1)%nat))
      with (- (n_So N (n_i1 N k + j)%nat * n_dx N (n_i1 N k + j)%nat)) by lra.
    unfold g, Rdiv. ring.
  - intros j Hj.
    destruct (node_coeffs_entries _ _ _ _ _ _ _ _ _ _ _ _ _ _ _ _ _ _ _ _ Fn (n_I1 N k + j)%nat ltac:(lia)) as [EE ED].
    rewrite EE, ED, HQ0, (ar_depths _ _ _ _ Hsv k j Hk Hj). field. lra.
Qed.

(** In every wet network with one water level, zero flows and no inflow (prescribed heads at that level, idle
    controls), the system solved by a step has the level as its only solution, and the step returns the state it
    started from: level, zero flows, depths. *)
Theorem C28_water_at_rest_stays_at_rest :
  forall N G w st sv Q0 Q_in dt u CO CW CP H_bc s zI H0,
  well_formed N -> wet N G -> 0 < dt -> ends_mild N G st dt ->
  bed N zI -> level_inside N zI H0 -> at_rest N zI H0 st -> at_rest N zI H0 sv ->
  (forall I, Q0 I = 0) -> (forall j, Q_in j = 0) -> (forall j, (j < n_M N)%nat -> n_bc N j = true -> H_bc j = H0) ->
  controls_ordered CO -> controls_ordered CW -> controls_ordered CP -> idle CO H0 -> idle CW H0 -> idle CP H0 ->
  (forall j, (j < n_M N)%nat -> n_bc N j = false -> 0 < junction_surface N G (h_H st) j) ->
  setup_step N G w st sv Q0 dt = Some u ->
  let K := superlinks_of N G u in
  reachable (n_M N) (n_bc N) K CO CW CP s -> network_ok (n_M N) K CO CW CP ->
  let l := matrix (n_M N) (n_bc N) K CO CW CP (g_Asj G) (h_H sv) H_bc Q_in dt s in
  let b := s_b (assembled (n_M N) (n_bc N) K CO CW CP (g_Asj G) (h_H sv) H_bc Q_in dt s) in
  solves (n_M N) l b (fun _ => H0) /\
  forall H_sol, solves (n_M N) l b H_sol -> at_rest N zI H0 (solve_step N u st H_sol).
Proof.
  intros N G w st sv Q0 Q_in dt u CO CW CP H_bc s zI H0 Hwf Hwet Hdt Hz Hbed (L1 & L2 & L3 & L4) Hst Hsv HQ0 HQin Hbc
         OO OW OP IO IW IP Hsurf Hu K Hr Hn l b.
  pose proof (setup_facts_ok _ _ _ _ _ _ _ _ Hu) as [Fm Fn Ff Fb Fhu Fhd].
  destruct (setup_signs N G w st sv Q0 dt Hwf Hwet Hdt u Hu) as [HW HP].
  pose proof (rest_solution N G w st sv Q0 dt u zI H0 Hwf Hwet Hdt Hbed Hst Hsv HQ0 Hu) as HS.
  assert (Hnk : forall k, (k < n_K N)%nat -> (1 <= n_nk N k)%nat) by apply (wf_layout _ Hwf).
  assert (HF : forall k, (k < n_K N)%nat -> fwd_eqs (ma (u_m u)) (mb (u_m u)) (mc (u_m u)) (mP (u_m u)) (g_A G) (u_E u) (u_D u)
                 (n_i1 N k) (n_I1 N k) (n_nk N k) (u_f u)).
  { intros k Hk. exact (forward_recurrence_ok _ _ _ _ _ _ _ _ _ _ _ _ _ (wf_layout _ Hwf) Ff k Hk). }
  assert (HB : forall k, (k < n_K N)%nat -> bwd_eqs (ma (u_m u)) (mb (u_m u)) (mc (u_m u)) (mP (u_m u)) (g_A G) (u_E u) (u_D u)
                 (n_i1 N k) (n_I1 N k) (n_nk N k) (u_b u)).
  { intros k Hk. eapply backward_recurrence_ok; [apply (wf_layout _ Hwf)| |exact Fb|exact Hk]. intros; cbv beta; lia. }
  assert (Hab : forall k, (k < n_K N)%nat -> above (h_H st (n_Ju N k)) (n_zu N k) = 1 /\ above (h_H st (n_Jd N k)) (n_zd N k) = 1).
  { intros k Hk. destruct (wf_ends _ Hwf k Hk) as [J1 J2]. destruct (L2 k Hk). unfold above.
    rewrite !(ar_heads _ _ _ _ Hst) by auto.
    split; [destruct (Rleb_spec (n_zu N k) H0)|destruct (Rleb_spec (n_zd N k) H0)]; lra. }
  (* end flows and depths at the level *)
  assert (HE : forall k, (k < n_K N)%nat ->
     solve_superlink_flows (flow_coeffs N u k) H0 H0 = (0, 0) /\
     solve_superlink_depths (u_hu u k) (u_hd u k) 0 0 H0 H0 = (H0 - zI (n_I1 N k), H0 - zI (n_I1 N k + n_nk N k)%nat)).
  { intros k Hk. apply boundary_unique.
    - exact (setup_det N G w st sv Q0 dt Hwf Hwet Hdt Hz u Hu k Hk).
    - pose proof (end_meaning _ _ _ _ _ _ _ _ _ _ _ _ (Hnk k Hk) (HF k Hk) (HB k Hk) (fun j Hj => proj1 (HP k j Hk Hj))
                   (fun j Hj => proj1 (proj2 (HP k j Hk Hj))) (n_end_o N) _ _ (HS k Hk)) as EM.
      cbv beta zeta in EM. rewrite Nat.add_0_r in EM. destruct EM as [E1 E2].
      destruct (setup_theta N G w st sv Q0 dt u Hu k Hk) as (T1 & T2 & T3 & T4).
      destruct (Hab k Hk) as [A1 A2]. rewrite A1 in T1, T2. rewrite A2 in T3, T4.
      destruct (Hbed k Hk) as (B1 & B2 & _).
      destruct (ar_ends _ _ _ _ Hsv k Hk) as [V1 V2]. rewrite V1 in T2. rewrite V2 in T4.
      unfold end_equations. rewrite T1, T2, T3, T4, B1, B2. rewrite B1, B2 in E1, E2.
      destruct (n_bcm N); unfold Rdiv;
      destruct (n_end_o N); repeat split; auto; lra. }
  assert (HK0 : forall k, (k < n_K N)%nat ->
     k_au K k * H0 + k_bu K k * H0 + k_cu K k = 0 /\ k_ad K k * H0 + k_bd K k * H0 + k_cd K k = 0).
  { intros k Hk. destruct (HE k Hk) as [E1 _]. unfold solve_superlink_flows in E1. injection E1 as E1 E2. auto. }
  assert (EA : forall j, attached_area (g_Asj G) (k_n K) (k_Ju K) (k_Jd K) (k_dxu K) (k_Bu K) (k_thu K) (k_dxd K) (k_Bd K) (k_thd K) j
                         = junction_surface N G (h_H st) j).
  { intros j. unfold junction_surface, attached_area.
    f_equal; [f_equal|]; apply sum_if_ext; intros k Hk; (split; [reflexivity|]); intros _; simpl; simpl in Hk.
    - destruct (setup_theta N G w st sv Q0 dt u Hu k Hk) as (-> & _). reflexivity.
    - destruct (setup_theta N G w st sv Q0 dt u Hu k Hk) as (_ & _ & -> & _). reflexivity. }
  assert (IC : forall C j, idle C H0 -> net_inflow (control_elements C) (fun _ => H0) j = 0).
  { intros C j HI. unfold net_inflow, sum_if; simpl.
    rewrite !sum_n_0; [lra| |]; intros k Hk; destruct (Nat.eqb _ _); auto. }
  assert (SOL : solves (n_M N) l b (fun _ => H0)).
  { intros j Hj. destruct (n_bc N j) eqn:Ej.
    - unfold l, b. destruct (C23_boundary_row_prescribes_head (n_M N) (n_bc N) K CO CW CP (g_Asj G) (h_H sv) H_bc Q_in dt s j Hr Hn Hj Ej)
        as [_ X]. apply X. symmetry. auto.
    - unfold l, b. apply C22_row_is_water_balance; auto; [lra|].
      rewrite (ar_heads _ _ _ _ Hsv) by auto. rewrite HQin, !IC by auto.
      unfold net_inflow, sum_if; simpl.
      rewrite !sum_n_0.
      + field. lra.
      + intros k Hk. destruct (Nat.eqb _ _); auto. apply HK0; auto.
      + intros k Hk. destruct (Nat.eqb _ _); auto. apply HK0; auto. }
  split; [exact SOL|]. intros H_sol Hsol.
  assert (EH : forall j, (j < n_M N)%nat -> H_sol j = H0).
  { intros j Hj.
    destruct (C27_solved_system_has_exactly_one_solution (n_M N) (n_bc N) K CO CW CP (g_Asj G) (h_H sv) H_bc Q_in dt s Hr Hn Hdt
      (setup_ordered N G w st sv Q0 dt Hwf Hwet Hdt Hz u Hu) OO OW OP) with (b := b) as [_ U].
    - intros j' Hj' Hb'. rewrite EA. auto.
    - exact (U H_sol (fun _ => H0) Hsol SOL j Hj). }
  set (st' := solve_step N u st H_sol).
  assert (XH : forall j, (j < n_M N)%nat -> h_H st' j = H0).
  { intros j Hj. unfold st', solve_step. simpl. rewrite EH by auto. apply limit_head_id. auto. }
  assert (XQ : forall k, (k < n_K N)%nat -> h_Qu st' k = 0 /\ h_Qd st' k = 0).
  { intros k Hk. destruct (wf_ends _ Hwf k Hk) as [J1 J2].
    assert (X : solve_superlink_flows (flow_coeffs N u k) (h_H st' (n_Ju N k)) (h_H st' (n_Jd N k)) = (h_Qu st' k, h_Qd st' k)) by reflexivity.
    rewrite !XH in X by auto. destruct (HE k Hk) as [E1 _]. rewrite E1 in X. split; symmetry; [exact (f_equal fst X)|exact (f_equal snd X)]. }
  assert (XD : forall k, (k < n_K N)%nat -> end_depths N u st' k = (H0 - zI (n_I1 N k), H0 - zI (n_I1 N k + n_nk N k)%nat)).
  { intros k Hk. destruct (wf_ends _ Hwf k Hk) as [J1 J2]. unfold end_depths.
    destruct (XQ k Hk) as [-> ->]. rewrite !XH by auto. apply HE; auto. }
  destruct (numba_solve_internals (h_h st, h_Q st) (fun k => fst (end_depths N u st' k)) (fun k => snd (end_depths N u st' k))
     (u_f u) (u_b u) (n_i1 N) (n_I1 N) (n_nk N) (n_K N) (n_min N) (n_maxk N) (n_back N)) as [h1 Q1] eqn:ES.
  pose proof (solve_internals_correct _ _ _ _ _ _ _ (n_K N) (n_nk N) (n_i1 N) (n_I1 N) (u_f u) (u_b u)
     (fun k => fst (end_depths N u st' k)) (fun k => snd (end_depths N u st' k))
     (fun _ _ => 0) (fun k j => H0 - zI (n_I1 N k + j)%nat) (n_min N) (n_maxk N) (n_back N) (h_h st, h_Q st) h1 Q1
     (wf_layout _ Hwf) HF HB HP) as IC'.
  specialize (IC' ltac:(intros k Hk; split; [exact (HS k Hk)|]; rewrite XD by auto; simpl; rewrite Nat.add_0_r; auto)
                  ltac:(intros k j Hk J1 J2; split; [apply L3; auto; lia|apply L4; auto]) ES).
  assert (SI : solve_internals (n_back N) (h_h st, h_Q st) (fun k => fst (end_depths N u st' k)) (fun k => snd (end_depths N u st' k))
     (u_f u) (u_b u) (n_i1 N) (n_I1 N) (n_nk N) (n_K N) (n_min N) (n_maxk N)
     = (fun I => if Rltb (h1 I) (n_min N) then n_min N else h1 I, Q1)) by (unfold solve_internals; rewrite ES; reflexivity).
  assert (Eh : forall I, h_h st' I = if Rltb (h1 I) (n_min N) then n_min N else h1 I)
    by (intros I; exact (f_equal (fun p => fst p I) SI)).
  assert (EQ : h_Q st' = Q1) by exact (f_equal snd SI).
  constructor; auto.
  - intros k j Hk Hj. rewrite EQ. destruct (IC' k Hk) as [_ X]. rewrite X by auto. reflexivity.
  - intros k j Hk Hj. rewrite Eh. destruct (IC' k Hk) as [X _]. rewrite X by auto.
    destruct (Rltb_spec (H0 - zI (n_I1 N k + j)%nat) (n_min N)); auto.
    specialize (L3 k j Hk Hj). lra.
Qed.

(** ** Witnesses *)

(** C28: two superlinks in a row (3 and 2 links, falling 1 m per link), three junctions, the last one with a
    prescribed head, all under a level of 10 m. *)
Definition rest_net : network :=
  mkNetwork 2 ex_nk ex_i1 ex_I1 (fun k => k) (fun k => S k) 5 7 ex_kI ex_fwdi ex_bwdi ex_isS ex_isE
    (fun i => Nat.eqb i 0 || Nat.eqb i 3) (fun i => Nat.eqb i 2 || Nat.eqb i 4)
    (fun _ => 10) (fun _ => 1/100) (fun i => if Nat.eqb i 1 then 1%nat else 0%nat) (fun _ => 1/10) (fun _ => 1) (fun _ => 1/2)
    (fun i => Nat.eqb i 2) (fun _ => 0) (fun _ => 1) (fun _ => 1) (fun _ => 1/2) (fun _ => 1)
    (fun k => if Nat.eqb k 0 then 3 else 2) (fun _ => 0) (fun _ => 1/100) (fun _ => 1/100) (fun _ => 0%nat) (fun _ => 0%nat)
    (fun _ => 0) (fun _ => 0) 3 (fun j => Nat.eqb j 2) (fun _ => 0) (fun _ => 100) (1/1000) (fun _ => 50) false BCz true true.
Definition rest_bed : arr := fun I => if Nat.leb I 3 then 3 - INR I else 6 - INR I.
Definition rest_geom : geometry :=
  mkGeom (fun _ => 2) (fun _ => 1/2) (fun _ => 1) (fun _ => 2) (fun _ => 1/2) (fun _ => 1) (fun _ => 2) (fun _ => 1/2) (fun _ => 1) (fun _ => 5).
Definition rest_state : hstate := mkHState (fun _ => 10) (fun _ => 0) (fun _ => 0) (fun I => 10 - rest_bed I) (fun _ => 0).

Lemma rest_net_ok : well_formed rest_net /\ wet rest_net rest_geom.
Proof.
  split.
  - constructor.
    + exact ex_layout.
    + exact ex_chain.
    + intros [|[|k]] Hk; simpl in Hk; [| |lia]; unfold rest_net, ex_i1, ex_I1, ex_nk; simpl; lia.
    + intros k Hk; simpl in *; lia.
  - constructor; simpl; intros; repeat split; try lra. destruct (Nat.eqb i 1); lia.
Qed.

Example C28_example :
  bed rest_net rest_bed /\ level_inside rest_net rest_bed 10 /\ at_rest rest_net rest_bed 10 rest_state /\
  (forall j, (j < 3)%nat -> n_bc rest_net j = false -> 0 < junction_surface rest_net rest_geom (h_H rest_state) j) /\
  exists u, setup_step rest_net rest_geom
      (mkWork zeros zeros zeros (mkFwd zeros zeros zeros zeros) (mkBwd zeros zeros zeros zeros) (fun _ => mkHead 0 0 0) (fun _ => mkHead 0 0 0))
      rest_state rest_state zeros 60 = Some u /\
    network_ok 3 (superlinks_of rest_net rest_geom u) no_controls no_controls no_controls.
Proof.
  split; [|split; [|split; [|split]]].
  - intros [|[|k]] Hk; simpl in Hk; [| |lia]; unfold rest_bed; cbn -[INR]; (split; [simpl; lra|split; [simpl; lra|]]); intros j Hj;
      do 3 (destruct j as [|j]; [simpl; lra|]); lia.
  - split; [|split; [|split]].
    + simpl; intros; lra.
    + intros [|[|k]] Hk; simpl; lra.
    + intros [|[|k]] j Hk Hj; simpl in Hk; [| |lia]; unfold rest_bed; cbn -[INR]; cbn in Hj;
        do 4 (destruct j as [|j]; [simpl; lra|]); lia.
    + intros [|[|k]] j Hk Hj1 Hj; simpl in Hk; [| |lia]; unfold rest_bed; cbn -[INR]; cbn in Hj;
        do 4 (destruct j as [|j]; [simpl; lra|]); lia.
  - constructor; simpl; intros; auto.
  - intros [|[|[|j]]] Hj Hb; try lia; try discriminate; unfold junction_surface, attached_area, sum_if, above; simpl;
      repeat match goal with |- context [Rleb ?a ?b] => destruct (Rleb_spec a b) end; lra.
  - destruct rest_net_ok as [H1 H2].
    destruct (setup_total rest_net rest_geom
      (mkWork zeros zeros zeros (mkFwd zeros zeros zeros zeros) (mkBwd zeros zeros zeros zeros) (fun _ => mkHead 0 0 0) (fun _ => mkHead 0 0 0))
      rest_state rest_state zeros 60 H1 H2 ltac:(lra) (or_introl eq_refl)) as [u Hu].
    exists u. split; [exact Hu|].
    split; [|unfold ends_in; simpl; repeat split; intros; lia]. intros k Hk. simpl in *. lia.
Qed.

(** C26: a flat channel of one link between two junctions, filled evenly: with 11/60 m3/s into each junction the level
    rises from 2 m to 3 m in 60 s; water flows into the superlink from both ends. *)
Definition fill_net : network :=
  mkNetwork 1 (fun _ => 1%nat) (fun _ => 0%nat) (fun _ => 0%nat) (fun _ => 0%nat) (fun _ => 1%nat) 1 2 (fun _ => 0%nat) (fun _ => 0%nat) (fun _ => 0%nat)
    (fun I => Nat.eqb I 0) (fun I => Nat.eqb I 1) (fun _ => true) (fun _ => true)
    (fun _ => 10) (fun _ => 1/100) (fun _ => 0%nat) (fun _ => 0) (fun _ => 1) (fun _ => 0) (fun _ => false) (fun _ => 0)
    (fun _ => 1) (fun _ => 1) (fun _ => 1/2) (fun _ => 1) (fun _ => 0) (fun _ => 0) (fun _ => 1/100) (fun _ => 1/100)
    (fun _ => 0%nat) (fun _ => 0%nat) (fun _ => 0) (fun _ => 0) 2 (fun _ => false) (fun _ => 0) (fun _ => 100) (1/1000) (fun _ => 50)
    false BCz false true.
Definition fill_state : hstate := mkHState (fun _ => 2) (fun _ => 0) (fun _ => 0) (fun _ => 2) (fun _ => 0).

Example C26_example :
  let w := mkWork zeros zeros zeros (mkFwd zeros zeros zeros zeros) (mkBwd zeros zeros zeros zeros) (fun _ => mkHead 0 0 0) (fun _ => mkHead 0 0 0) in
  let Q_in := (fun _ => 11 / 60) : arr in
  well_formed fill_net /\ wet fill_net rest_geom /\
  exists u, setup_step fill_net rest_geom w fill_state fill_state zeros 60 = Some u /\
    let K := superlinks_of fill_net rest_geom u in
    network_ok 2 K no_controls no_controls no_controls /\
    solves 2 (matrix 2 (fun _ => false) K no_controls no_controls no_controls (fun _ => 5) (fun _ => 2) zeros Q_in 60 fresh_system)
           (s_b (assembled 2 (fun _ => false) K no_controls no_controls no_controls (fun _ => 5) (fun _ => 2) zeros Q_in 60 fresh_system))
           (fun _ => 3) /\
    heads_inside fill_net (fun _ => 3) /\
    depths_inside fill_net u (solve_step fill_net u fill_state (fun _ => 3)) /\
    h_Qu (solve_step fill_net u fill_state (fun _ => 3)) 0%nat = 11 / 120.
Proof.
  intros w Q_in.
  assert (Hwf : well_formed fill_net).
  { constructor.
    - split; simpl; intros; lia.
    - intros k j Hk Hj. simpl in *. destruct k; [|lia]. destruct j as [|[|j]]; simpl; try lia; repeat split; auto; lia.
    - intros k Hk; simpl; lia.
    - intros k Hk; simpl; lia. }
  assert (Hwet : wet fill_net rest_geom) by (constructor; simpl; intros; repeat split; try lra; try lia; discriminate).
  split; [exact Hwf|]. split; [exact Hwet|].
  destruct (setup_total fill_net rest_geom w fill_state fill_state zeros 60 Hwf Hwet ltac:(lra) (or_introl eq_refl)) as [u Hu].
  exists u. split; [exact Hu|]. intros K.
  pose proof (setup_facts_ok _ _ _ _ _ _ _ _ Hu) as [Fm Fn Ff Fb Fhu Fhd].
  destruct (setup_signs fill_net rest_geom w fill_state fill_state zeros 60 Hwf Hwet ltac:(lra) u Hu) as [HW HP].
  assert (HS : superlink_solution (ma (u_m u)) (mb (u_m u)) (mc (u_m u)) (mP (u_m u)) (g_A rest_geom) (u_E u) (u_D u) 0 0 1
                 (fun j => match j with O => 11 / 120 | S O => 0 | _ => - (11 / 120) end) (fun _ => 3)).
  { destruct (link_coeffs_entries _ _ _ _ _ _ Fm) as (Ea & Ec & EP & _).
    pose proof (node_coeffs_entries _ _ _ _ _ _ _ _ _ _ _ _ _ _ _ _ _ _ _ _ Fn) as En.
    split.
    - intros j Hj. assert (j = 0%nat) by lia. subst j. simpl Nat.add. rewrite Ea, Ec, EP.
      unfold a_ik, c_ik, u_Ik, u_Ip1k, u_ik, P_ik. simpl. destruct (Reqb_spec 2 0); [lra|].
      replace (0 / 2) with 0 by lra. rewrite Ropp_0, Rmax_left by lra. lra.
    - intros j Hj. destruct (En (0 + j)%nat ltac:(simpl; lia)) as [-> ->]. unfold node_width, zeros.
      destruct j as [|[|j]]; [| |lia]; simpl; lra. }
  assert (HE : solve_superlink_flows (flow_coeffs fill_net u 0) 3 3 = (11 / 120, - (11 / 120)) /\
               solve_superlink_depths (u_hu u 0) (u_hd u 0) (11 / 120) (- (11 / 120)) 3 3 = (3, 3)).
  { apply boundary_unique.
    - exact (setup_det fill_net rest_geom w fill_state fill_state zeros 60 Hwf Hwet ltac:(lra) (or_introl eq_refl) u Hu 0%nat ltac:(simpl; lia)).
    - pose proof (end_meaning _ _ _ _ _ _ _ 0 0 1 (u_f u) (u_b u) ltac:(lia)
        (forward_recurrence_ok _ _ _ _ _ _ _ _ _ _ _ _ _ (wf_layout _ Hwf) Ff 0%nat ltac:(simpl; lia))
        (backward_recurrence_ok _ _ _ _ _ _ _ _ _ _ _ _ _ _ _ (wf_layout _ Hwf) (fun k _ => conj eq_refl eq_refl) Fb 0%nat ltac:(simpl; lia))
        (fun j Hj => proj1 (HP 0%nat j (le_n 1) Hj))
                   (fun j Hj => proj1 (proj2 (HP 0%nat j (le_n 1) Hj))) false _ _ HS) as EM.
      cbv beta zeta in EM. simpl Nat.add in EM. destruct EM as [E1 E2].
      destruct (setup_theta fill_net rest_geom w fill_state fill_state zeros 60 u Hu 0%nat ltac:(simpl; lia)) as (T1 & T2 & T3 & T4).
      assert (G0 : hk (u_hu u 0%nat) = 0 /\ hk (u_hd u 0%nat) = 0).
      { pose proof (Fhu 0%nat (le_n 1)) as Z1. pose proof (Fhd 0%nat (le_n 1)) as Z2. injection Z1 as <-. injection Z2 as <-. simpl.
        unfold gamma_uk, gamma_dk. rewrite Rabs_R0. unfold safe_divide. dR; split; lra. }
      destruct G0 as [G1 G2].
      unfold above in T1, T2, T3, T4. simpl in T1, T2, T3, T4. destruct (Rleb_spec 0 2); [|lra].
      unfold end_equations. rewrite T1, T2, T3, T4, G1, G2. simpl n_end_o. simpl n_I1. simpl n_nk. simpl Nat.add. repeat split; auto; lra. }
  destruct HE as [HE1 HE2].
  assert (HN : network_ok 2 K no_controls no_controls no_controls).
  { split; [|unfold ends_in; simpl; repeat split; intros; lia]. intros k Hk. simpl in *. lia. }
  split; [exact HN|]. split; [|split; [|split]].
  - intros j Hj. apply C22_row_is_water_balance; auto; try lra; [constructor|].
    destruct (setup_theta fill_net rest_geom w fill_state fill_state zeros 60 u Hu 0%nat (le_n 1)) as (T1 & _ & T3 & _).
    unfold above in T1, T3. simpl in T1, T3. destruct (Rleb_spec 0 2); [|lra].
    assert (FK : k_n K = 1%nat /\ k_Ju K 0%nat = 0%nat /\ k_Jd K 0%nat = 1%nat /\ k_dxu K 0%nat = 1 /\ k_Bu K 0%nat = 1 /\
                 k_dxd K 0%nat = 1 /\ k_Bd K 0%nat = 1 /\ k_thu K 0%nat = 1 /\ k_thd K 0%nat = 1 /\
                 k_au K 0%nat * 3 + k_bu K 0%nat * 3 + k_cu K 0%nat = 11 / 120 /\
                 k_ad K 0%nat * 3 + k_bd K 0%nat * 3 + k_cd K 0%nat = - (11 / 120)).
    { repeat (split; [first [reflexivity | exact T1 | exact T3 | exact (f_equal fst HE1)]|]). exact (f_equal snd HE1). }
    clearbody K. destruct FK as (K1 & K2 & K3 & K4 & K5 & K6 & K7 & K8 & K9 & K10 & K11).
    unfold net_inflow, attached_area, sum_if, superlink_elements, control_elements, no_controls; cbn [e_n e_Ju e_Jd e_in e_out c_n c_Ju c_Jd sum_n].
    rewrite K1. cbn [sum_n]. rewrite K2, K3, K4, K5, K6, K7, K8, K9, K10, K11. unfold Q_in.
    destruct j as [|[|j]]; [| |lia]; simpl; lra.
  - intros j Hj. simpl. lra.
  - intros k Hk. simpl in Hk. destruct k; [|lia].
    assert (ED : end_depths fill_net u (solve_step fill_net u fill_state (fun _ => 3)) 0 = (3, 3)).
    { set (f := solve_superlink_flows (flow_coeffs fill_net u 0) (limit_head 0 100 3) (limit_head 0 100 3)).
      change (solve_superlink_depths (u_hu u 0) (u_hd u 0) (fst f) (snd f) (limit_head 0 100 3) (limit_head 0 100 3) = (3, 3)).
      unfold f. rewrite limit_head_id by lra. rewrite HE1. exact HE2. }
    rewrite ED. simpl. repeat split; try lra; lia.
  - change (fst (solve_superlink_flows (flow_coeffs fill_net u 0) (limit_head 0 100 3) (limit_head 0 100 3)) = 11 / 120).
    rewrite limit_head_id by lra. exact (f_equal fst HE1).
Qed.
