(** Cases for C48-C52 and C57: a concrete network meeting the hypotheses, and where C49 stops (no diffusion). *)
From Verif Require Import Prelude M_Coeffs M_Recurrence M_Assembly M_Step M_Quality S_Superlink S_Network S_Step S_Quality
  L_Forward L_Assembly L_Step L_Sweep L_Quality L_QualityStep L_QualityNet L_QualityMax L_Square L_QualitySolve P_Superlink P_Step
  P_Quality P_QualityMass.

(** ** C49 without diffusion *)

(** The first junction of a superlink reports concentration 0 after every step in which water leaves the upstream end
    piece forwards and that piece has no diffusion -- whatever the concentrations are. *)
Theorem C49_zero_diffusion_refuted N P CO CW CP i o o' k :
  well_formed N -> (k < n_K N)%nat -> p_min P <= 0 <= p_max P ->
  q_step N P CO CW CP i o o' -> p_Du P k = 0 -> 0 < f_Qud (i_F i) k ->
  c_I (ob_c o') (n_I1 N k) = 0.
Proof.
  intros HW Hk Hl [u sol Hu HS] HD HQ. unfold q_prepare in Hu.
  destruct (setup_parts _ _ _ _ _ _ _ _ _ _ _ _ _ _ _ Hu) as (EL & _).
  assert (Ech : l_chu (su_L u) k = 0).
  { rewrite EL. cbn [l_chu q_link_coeffs]. unfold q_chi, q_omega. rewrite HD. destruct (Rltb_spec 0 (f_Qud (i_F i) k)); [|lra].
    unfold Rdiv. ring. }
  assert (E1 : forall cj, q_node_1 N u cj k = 0).
  { intros cj. unfold q_node_1, q_end_coef. cbn [e_thu e_siu e_xiu]. rewrite Ech. unfold safe_divide, Reqb.
    destruct (Req_EM_T 0 0); [ring|congruence]. }
  assert (C0 : q_clip P 0 = 0).
  { unfold q_clip. rewrite Rmax_left, Rmin_left; lra. }
  assert (L0 : q_limit P 0 = 0).
  { unfold q_limit. destruct (Rltb_spec 0 (p_min P)); [lra|]. destruct (Rltb_spec (p_max P) 0); [lra|reflexivity]. }
  cbn [ob_c q_complete]. unfold q_finish. set (cj := fun j => q_clip P (sol j)).
  destruct (q_solve_internals _ _ _ _ _ _ _) as [cI ci] eqn:ES. cbn [c_I].
  destruct (wf_layout N HW) as [Hn Hlay].
  assert (V : cI (n_I1 N k) = 0).
  { unfold q_solve_internals in ES.
    pose (Inv := fun m (s : arr * arr) => (m <= n_K N)%nat -> (k < m)%nat -> fst s (n_I1 N k) = 0).
    match type of ES with for_n ?m ?f ?x = _ => assert (HV : Inv (n_K N) (for_n m f x)) end.
    { apply (for_n_inv Inv); [intros _ Hlt; lia|].
      intros m [cIm cim] Hm IH _ Hkm.
      destruct (q_internals_superlink P _ _ _ _ (n_i1 N m) (n_I1 N m) (n_nk N m) (cIm, cim)) as [cI2 ci2] eqn:E2.
      cbn [fst]. destruct (Nat.eq_dec k m) as [<-|].
      - rewrite E1, C0 in E2. unfold q_internals_superlink in E2. specialize (Hn k Hk).
        pose (Inv2 := fun q (s : arr * arr) => (q <= n_nk N k - 1)%nat -> fst s (n_I1 N k) = 0).
        match type of E2 with context [for_n ?m ?f ?x] => assert (HV : Inv2 (n_nk N k - 1)%nat (for_n m f x)) end.
        { apply (for_n_inv Inv2); [intros _; cbn [fst]; rewrite upd_neq, upd_eq by lia; reflexivity|].
          intros q [a b] Hq IHq _. unfold q_internal_step. cbn [fst]. specialize (IHq ltac:(lia)). cbn [fst] in IHq.
          rewrite !upd_neq by lia. exact IHq. }
        destruct (for_n (n_nk N k - 1) _ _) as [x y]. injection E2 as <- <-. apply HV. lia.
      - specialize (IH ltac:(lia) ltac:(lia)). cbn [fst] in IH.
        destruct (internals_frame _ _ _ _ _ _ _ _ _ _ _ _ (Hn m Hm) E2) as [F1 _].
        destruct (Hlay k m ltac:(lia) Hm) as [_ L2]. rewrite F1; auto. specialize (Hn k Hk). lia. }
    rewrite ES in HV. apply HV; auto. }
  rewrite V. exact L0.
Qed.

(** ** A network *)

(** The two superlinks of [rest_net] (3 and 2 links), 1 m3/s through everything, reaction rate K, diffusion D; an
    orifice from junction 0 to 2, a weir from 1 to 0 with backward flow and a pump from 1 to 2.  Junction 2 fills. *)
Definition wq_par_ex (K D : R) (bc : nat -> bool) : wq_par :=
  mkPar (fun _ => K) (fun _ => K) (fun _ => K) (fun _ => D) (fun _ => D) (fun _ => D) bc 0 100.
Definition wq_flow_ex : wq_flow :=
  mkFlowIn (fun _ => 1) (fun _ => 1) (fun _ => 2) (fun _ => 2)
           (fun _ => 1) (fun _ => 1) (fun _ => 2) (fun _ => 2)
           (fun _ => 1) (fun _ => 1) (fun _ => 2) (fun _ => 2)
           (fun _ => 1) (fun _ => 1)
           (fun j => if Nat.eqb j 2 then 12 else 5) (fun _ => 5)
           (fun _ => 1/2) (fun _ => - (1/4)) (fun _ => 1/4).
Definition wq_ori : wq_ctl := mkCtl 1 (fun _ => 0%nat) (fun _ => 2%nat).
Definition wq_weir : wq_ctl := mkCtl 1 (fun _ => 1%nat) (fun _ => 0%nat).
Definition wq_pump : wq_ctl := mkCtl 1 (fun _ => 1%nat) (fun _ => 2%nat).
(** Inflow of 7/4 m3/s at concentration c into junction 0; prescribed concentration c; step 4 s. *)
Definition wq_in_ex (c : R) : wq_in :=
  mkWqIn wq_flow_ex (fun _ => c) (fun _ => c) (fun j => if Nat.eqb j 0 then 7/4 else 0) (fun _ => c) zeros 4.
(** Initially c upstream, clean elsewhere. *)
Definition wq_front (c : R) : wq_state := mkWq (fun j => if Nat.eqb j 0 then c else 0) zeros zeros (fun k => if Nat.eqb k 0 then c else 0) zeros.

Lemma along_cases (Q : R -> Prop) n i1 u x d k j : Q (u k) -> (forall i, Q (x i)) -> Q (d k) -> Q (along n i1 u x d k j).
Proof. intros. unfold along. destruct (Nat.eqb j 0), (Nat.leb j n); auto. Qed.

Lemma wq_covered : covered rest_net.
Proof.
  intros I HI. cbn [rest_net n_J] in HI. destruct (Nat.leb_spec I 3).
  - exists 0%nat, I. cbn. unfold ex_nk, ex_I1. cbn. lia.
  - exists 1%nat, (I - 4)%nat. cbn. unfold ex_nk, ex_I1. cbn. lia.
Qed.
Lemma wq_ends : q_ends_in rest_net wq_ori wq_weir wq_pump.
Proof.
  unfold q_ends_in, ends_in. cbn. split; [intros; lia|]. split; [intros; lia|]. split; intros; lia.
Qed.
Lemma wq_wet K D bc : 0 <= K -> 0 < D -> network_wet rest_net (wq_par_ex K D bc) wq_flow_ex (fun j => if Nat.eqb j 0 then 7/4 else 0) zeros.
Proof.
  intros HK HD. constructor.
  - intros k Hk c c_0I. assert (HD' : forall j, 0 < ch_D (superlink_chain rest_net (wq_par_ex K D bc) wq_flow_ex c c_0I zeros k) j).
    { intros j. cbn [ch_D superlink_chain]. apply along_cases; intros; cbn; lra. }
    split; [|intros j _; auto]. split; [|split].
    + intros j Hj. cbn [ch_D ch_A ch_dx ch_K superlink_chain].
      repeat split; apply along_cases; intros; cbn; lra.
    + intros j Hj. cbn. unfold zeros. lra.
    + intros j Hj. left. auto.
  - intros j Hj Hb. cbn. destruct (Nat.eqb j 2), (Nat.eqb j 0); lra.
Qed.
Lemma wq_conserves K D bc c : network_conserves rest_net (wq_par_ex K D bc) wq_ori wq_weir wq_pump wq_flow_ex (i_Q0j (wq_in_ex c)) (i_Q0I (wq_in_ex c)) (i_dt (wq_in_ex c)).
Proof.
  constructor.
  - intros k Hk c' c_0I. split; intros j Hj.
    + cbn [ch_Qup ch_Qdn ch_A ch_Ap ch_dx superlink_chain].
      replace (along (n_nk rest_net k) (n_i1 rest_net k) (f_A wq_flow_ex) (f_A wq_flow_ex) (f_A wq_flow_ex) k j) with 2 by (symmetry; exact (along_const _ _ _ _ _)).
      cbn [wq_flow_ex f_Quu f_Qup f_Qdu f_Qud f_Qdn f_Qdd f_Au f_A f_Ad f_Aup f_Ap f_Adp]. rewrite !along_const.
      unfold Rdiv. ring.
    + cbn [ch_Qup ch_Qdn ch_AS ch_h ch_hp ch_Q0 superlink_chain].
      cbn [wq_flow_ex f_Quu f_Qup f_Qdu f_Qud f_Qdn f_Qdd f_h f_hp]. rewrite !along_const. cbn. unfold zeros. field.
  - intros j Hj Hb. unfold superjunction_conserves, controls_flow, sum_if. cbn in Hj.
    destruct j as [|[|[|j]]]; [| | |lia]; cbn; lra.
Qed.
Lemma wq_good K D bc c : 0 <= K -> 0 < D -> good_input rest_net (wq_par_ex K D bc) wq_ori wq_weir wq_pump (wq_in_ex c).
Proof.
  intros. constructor; [cbn; lra|now apply wq_wet|apply wq_conserves].
Qed.
Lemma wq_inputs K D bc c lo hi : lo <= c <= hi -> inputs_within rest_net (wq_par_ex K D bc) lo hi (i_bc (wq_in_ex c)) (i_0j (wq_in_ex c)) (i_0I (wq_in_ex c)).
Proof. intros. constructor; cbn; intros; lra. Qed.

(** C48, C50, C51: a front of concentration 10 entering the network, with first-order decay and a junction of
    prescribed concentration.  Ten steps can be taken and keep everything within [0, 10]. *)
Example C50_example :
  let P := wq_par_ex (1/100) 1 (fun j => Nat.eqb j 2) in
  let run := List.repeat (wq_in_ex 10) 10 in
  (exists o', q_steps rest_net P wq_ori wq_weir wq_pump run (wq_fresh (wq_front 10)) o') /\
  (forall o', q_steps rest_net P wq_ori wq_weir wq_pump run (wq_fresh (wq_front 10)) o' -> within rest_net 0 10 (ob_c o')).
Proof.
  intros P run. apply C50_step_bounds.
  - apply rest_net_ok.
  - apply wq_covered.
  - apply wq_ends.
  - cbn; lra.
  - cbn; lra.
  - lra.
  - constructor; intros; cbn; unfold zeros; try destruct (Nat.eqb _ _); lra.
  - apply List.Forall_forall. intros i Hi. apply List.repeat_spec in Hi. subst i. split; [apply wq_good; lra|apply wq_inputs; lra].
Qed.
(** C48: there is such a setup and a solution of every superlink's equations. *)
Example C48_example :
  let P := wq_par_ex (1/100) 1 (fun j => Nat.eqb j 2) in
  (exists u, q_prepare rest_net P wq_ori wq_weir wq_pump (wq_in_ex 10) (wq_fresh (wq_front 10)) = Some u) /\
  forall k, (k < 2)%nat ->
    let C := superlink_chain rest_net P wq_flow_ex (wq_front 10) (fun _ => 10) zeros k in
    chain_wet C /\ chain_conserves C 4 /\ chain_diffuses C /\ exists L Nd, chain_transport C 4 10 0 L Nd.
Proof.
  intros P. split.
  - apply setup_defined; [apply rest_net_ok|apply wq_covered|apply wq_good; lra].
  - intros k Hk C.
    destruct (nw_chain _ _ _ _ _ (wq_wet (1/100) 1 (fun j => Nat.eqb j 2) ltac:(lra) ltac:(lra)) k Hk (wq_front 10) (fun _ => 10)) as [W D].
    pose proof (nc_chain _ _ _ _ _ _ _ _ _ (wq_conserves (1/100) 1 (fun j => Nat.eqb j 2) 10) k Hk (wq_front 10) (fun _ => 10)) as V.
    split; [exact W|split; [exact V|split; [exact D|]]].
    destruct (C50_superlink_solution C 4 10 0 ltac:(lra) W V) as (L & Nd & H & _). eauto.
Qed.
(** C49: uniform concentration 3 stays, in filling water with diffusion and controls. *)
Example C49_example :
  let P := wq_par_ex 0 1 (fun _ => false) in
  let run := List.repeat (wq_in_ex 3) 10 in
  (exists o', q_steps rest_net P wq_ori wq_weir wq_pump run (wq_fresh (constant_state 3)) o') /\
  (forall o', q_steps rest_net P wq_ori wq_weir wq_pump run (wq_fresh (constant_state 3)) o' -> within rest_net 3 3 (ob_c o')).
Proof.
  intros P run. apply C49_constant_kept.
  - apply rest_net_ok.
  - apply wq_covered.
  - apply wq_ends.
  - cbn; lra.
  - constructor; intros; cbn; lra.
  - constructor; intros; reflexivity.
  - apply List.Forall_forall. intros i Hi. apply List.repeat_spec in Hi. subst i. split; [apply wq_good; lra|apply wq_inputs; lra].
Qed.
(** C51 and C52: the step they speak of exists, and the object before it is clean. *)
Example C52_example :
  let P := wq_par_ex (1/100) 1 (fun _ => false) in
  obj_clean rest_net P wq_ori wq_weir wq_pump (wq_fresh (wq_front 10)) /\
  (exists o', q_step rest_net P wq_ori wq_weir wq_pump (wq_in_ex 10) (wq_fresh (wq_front 10)) o') /\
  ctl_clean 3 (fun _ => false) wq_weir zeros2 /\ ends_in 3 (t_n wq_weir) (t_Ju wq_weir) (t_Jd wq_weir).
Proof.
  intros P. split; [apply fresh_clean_obj|]. split; [|split].
  - apply step_exists; [apply rest_net_ok|apply wq_covered|apply wq_ends|apply wq_good; lra|apply fresh_clean_obj].
  - exact (proj1 (proj2 (proj2 (fresh_q_clean rest_net P wq_ori wq_weir wq_pump)))).
  - apply wq_ends.
Qed.

(** C57 applies to every step of the solver on such networks; here junction 2 fills, so the cross term counts. *)
Example C57_example :
  let P := wq_par_ex (1/100) 1 (fun _ => false) in
  exists o', q_step rest_net P wq_ori wq_weir wq_pump (wq_in_ex 10) (wq_fresh (wq_front 10)) o' /\
    mass rest_net wq_flow_ex true (ob_c o') - mass rest_net wq_flow_ex false (wq_front 10)
    = 4 * (70/4 - reaction rest_net P wq_flow_ex (ob_c o')) - 7 * c_j (ob_c o') 2%nat.
Proof.
  intros P.
  destruct (step_exists rest_net P wq_ori wq_weir wq_pump (wq_in_ex 10) (wq_fresh (wq_front 10))) as [o' Ho];
    [apply rest_net_ok|apply wq_covered|apply wq_ends|apply wq_good; lra|apply fresh_clean_obj|].
  exists o'. split; auto.
  destruct (step_main rest_net P wq_ori wq_weir wq_pump (wq_in_ex 10) (wq_fresh (wq_front 10)) o' 0 10) as [T _]; auto.
  - apply rest_net_ok.
  - apply wq_ends.
  - apply wq_good; lra.
  - apply fresh_clean_obj.
  - cbn; lra.
  - cbn; lra.
  - left; lra.
  - apply wq_inputs; lra.
  - constructor; intros; cbn; unfold zeros; try destruct (Nat.eqb _ _); lra.
  - unfold transported in T. pose proof (fun H => C57_mass_balance rest_net P wq_ori wq_weir wq_pump _ _ _ _ _ _ _ _ _ H wq_ends (fun _ _ => eq_refl) T) as B.
    specialize (B ltac:(cbn; lra)).
    change (i_F (wq_in_ex 10)) with wq_flow_ex in B. change (i_dt (wq_in_ex 10)) with 4 in B.
    change (ob_c (wq_fresh (wq_front 10))) with (wq_front 10) in B. etransitivity; [exact B|].
    assert (E1 : inflow rest_net (i_0j (wq_in_ex 10)) (i_Q0j (wq_in_ex 10)) (i_0I (wq_in_ex 10)) (i_Q0I (wq_in_ex 10)) = 70/4).
    { unfold inflow, total. cbn. unfold zeros. lra. }
    assert (E2 : cross rest_net wq_flow_ex (wq_front 10) (ob_c o') = 7 * c_j (ob_c o') 2%nat).
    { unfold cross. rewrite (total_ext _ _ _ _ (fun j => if Nat.eqb j 2 then 7 * c_j (ob_c o') 2%nat else 0) (fun _ _ => 0) (fun _ _ => 0)).
      - unfold total. cbn. lra.
      - intros j Hj. cbn in Hj. destruct j as [|[|[|j]]]; [| | |lia]; cbn; lra.
      - intros k j Hk Hj. replace (vol_p rest_net wq_flow_ex true k j) with (vol_p rest_net wq_flow_ex false k j) by reflexivity. ring.
      - intros k j Hk Hj. replace (vol_n rest_net wq_flow_ex true k j) with (vol_n rest_net wq_flow_ex false k j) by reflexivity. ring. }
    rewrite E1, E2. reflexivity.
Qed.

(** C49_zero_diffusion_refuted: concentration 1 everywhere, in all inflows and at all (prescribed) superjunctions is a
    solution of the transport equations without diffusion; the step exists, and reports 0 at a junction. *)
Example C49_zero_diffusion_example :
  let P := wq_par_ex 0 0 (fun _ => true) in
  network_transport rest_net P wq_ori wq_weir wq_pump wq_flow_ex (constant_state 1) (fun _ => 1) (fun _ => 1)
    (i_Q0j (wq_in_ex 1)) (fun _ => 1) zeros 4 (constant_state 1) /\
  exists o', q_step rest_net P wq_ori wq_weir wq_pump (wq_in_ex 1) (wq_fresh (constant_state 1)) o' /\
    c_I (ob_c o') 0%nat = 0 /\ c_I (ob_c o') 4%nat = 0.
Proof.
  intros P. split.
  - apply C49_constant_solves.
    + exact (wq_conserves 0 0 (fun _ => true) 1).
    + constructor; intros; reflexivity.
    + constructor; intros; lra.
    + constructor; intros; cbn; lra.
  - assert (Hu : exists u, q_prepare rest_net P wq_ori wq_weir wq_pump (wq_in_ex 1) (wq_fresh (constant_state 1)) = Some u).
    { unfold q_prepare, q_setup, q_node_coeffs.
      match goal with |- context [all_entries ?n ?o ?f] => destruct (all_entries_total n o f) as [nd Hnd] end.
      - intros I _. unfold q_node_coeff, q_kappa, q_lambda, q_mu, q_eta. cbn [rest_net n_dx n_dxu n_dxd wq_in_ex i_dt].
        rewrite !div_nz by lra. cbn [bind]. destruct (n_isS _ I); [eauto|]. destruct (n_isE _ I); eauto.
      - rewrite Hnd. cbn [bind]. eauto. }
    destruct Hu as [u Hu].
    assert (HS : q_step rest_net P wq_ori wq_weir wq_pump (wq_in_ex 1) (wq_fresh (constant_state 1)) (q_complete rest_net P u (wq_fresh (constant_state 1)) (fun _ => 1))).
    { apply q_step_intro; auto. intros j Hj.
      apply (proj2 (C52_system_is_balance rest_net P wq_ori wq_weir wq_pump (wq_in_ex 1) (wq_fresh (constant_state 1)) u (fun _ => 1) j Hu
        (fresh_clean_obj _ _ _ _ _ _) wq_ends ltac:(cbn; lra) Hj ltac:(intros; cbn; lra))). reflexivity. }
    eexists. split; [exact HS|]. split.
    + apply (C49_zero_diffusion_refuted rest_net P wq_ori wq_weir wq_pump (wq_in_ex 1) _ _ 0%nat (proj1 rest_net_ok)) in HS; cbn; try lra; auto; cbn; lra || lia.
    + apply (C49_zero_diffusion_refuted rest_net P wq_ori wq_weir wq_pump (wq_in_ex 1) _ _ 1%nat (proj1 rest_net_ok)) in HS; cbn; try lra; auto; cbn; lra || lia.
Qed.
