(** Property C89: limits on heads lose water at junctions that overflow and create water at junctions that would run dry, and
    nowhere else. *)
From Coq Require Import ZArith.
From Verif Require Import Prelude M_Numerics M_Coeffs M_Recurrence M_Assembly M_Step M_Geometry M_Storage M_Controls M_Simulation M_Model
  S_Numerics S_Superlink S_Network S_Step S_Model S_Object L_Assembly L_Forward L_Backward L_Coeffs L_Boundary L_Step L_Model L_Gauss
  P_Assembly P_Wellposed P_Superlink P_Limits P_Step P_Simulation P_Model P_Replay P_Object.

(** What one metre of head at junction j holds: the water surface at the junction, and what the superlinks there take up during
    the step (what they draw in at one end beyond what they pass on at the other). *)
Definition uptake (N : network) (G : geometry) (u : setup) (H : arr) (dt : R) (j : nat) : R :=
  junction_surface N G H j
  + dt * (sum_if (fun k => Nat.eqb (n_Ju N k) j) (fun k => au (flow_coeffs N u k) - ad (flow_coeffs N u k)) (n_K N)
          + sum_if (fun k => Nat.eqb (n_Jd N k) j) (fun k => bu (flow_coeffs N u k) - bd (flow_coeffs N u k)) (n_K N)).

Lemma sum_if_nonneg p f n : (forall k, (k < n)%nat -> 0 <= f k) -> 0 <= sum_if p f n.
Proof.
  unfold sum_if. induction n as [|n IH]; intros H; cbn [sum_n]; [lra|]. specialize (IH ltac:(intros; apply H; lia)). specialize (H n ltac:(lia)). destruct (p n); lra.
Qed.
Lemma sum_if_scal_r p f n c : sum_if p (fun k => f k * c) n = sum_if p f n * c.
Proof. unfold sum_if. induction n as [|n IH]; cbn [sum_n]; [ring|]. rewrite IH. destruct (p n); ring. Qed.
Lemma by_ends M n (J : nat -> nat) (f d : arr) : (forall k, (k < n)%nat -> (J k < M)%nat) ->
  sum_n (fun k => f k * d (J k)) n = sum_n (fun j => sum_if (fun k => Nat.eqb (J k) j) f n * d j) M.
Proof.
  intros H. rewrite <- (sum_if_total M J (fun k => f k * d (J k)) n H). apply sum_n_ext. intros j _. rewrite <- sum_if_scal_r.
  apply sum_if_ext. intros k _. split; [reflexivity|]. intros E. apply Nat.eqb_eq in E. rewrite E. reflexivity.
Qed.

(** The balance of a step whose heads were limited: [H_sol] are the heads before they are limited. *)
Lemma limited_balance :
  forall N G w st sv Q0 Q_in dt u CO CW CP H_bc s H_sol,
  well_formed N -> wet N G -> 0 < dt -> ends_mild N G st dt -> n_end_o N = false ->
  (forall j, (j < n_M N)%nat -> n_bc N j = false) ->
  setup_step N G w st sv Q0 dt = Some u ->
  let K := superlinks_of N G u in
  reachable (n_M N) (n_bc N) K CO CW CP s -> network_ok (n_M N) K CO CW CP ->
  solves (n_M N) (matrix (n_M N) (n_bc N) K CO CW CP (g_Asj G) (h_H sv) H_bc Q_in dt s)
         (s_b (assembled (n_M N) (n_bc N) K CO CW CP (g_Asj G) (h_H sv) H_bc Q_in dt s)) H_sol ->
  let st' := M_Step.solve_step N u st H_sol in
  depths_inside N u st' ->
  stored_volume_change N G (h_H st) sv st'
  = dt * total_inflow N Q_in Q0 + sum_n (fun j => uptake N G u (h_H st) dt j * (h_H st' j - H_sol j)) (n_M N).
Proof.
  intros N G w st sv Q0 Q_in dt u CO CW CP H_bc s H_sol Hwf Hwet Hdt Hz Hend Hbc Hu K Hr Hn Hsol st' Hd.
  pose proof (setup_facts_ok _ _ _ _ _ _ _ _ Hu) as [Fm Fn Ff Fb Fhu Fhd].
  set (Hn' := fun j => limit_head (n_zj N j) (n_maxj N j) (H_sol j)).
  assert (EH' : h_H st' = Hn') by reflexivity.
  assert (EQu : forall k, h_Qu st' k = au (flow_coeffs N u k) * Hn' (n_Ju N k) + bu (flow_coeffs N u k) * Hn' (n_Jd N k) + cu (flow_coeffs N u k)) by reflexivity.
  assert (EQd : forall k, h_Qd st' k = ad (flow_coeffs N u k) * Hn' (n_Ju N k) + bd (flow_coeffs N u k) * Hn' (n_Jd N k) + cd (flow_coeffs N u k)) by reflexivity.
  assert (SL : forall k, (k < n_K N)%nat ->
     sum_n (fun j => internal_surface N G (n_I1 N k + j)%nat * (h_h st' (n_I1 N k + j)%nat - h_h sv (n_I1 N k + j)%nat)) (n_nk N k + 1)
     = dt * (h_Qu st' k - h_Qd st' k + sum_n (fun j => Q0 (n_I1 N k + j)%nat) (n_nk N k + 1))).
  { intros k Hk.
    pose proof (proj1 (reported_solution N G w st sv Q0 dt u H_sol Hwf Hwet Hdt Hz Hend Hu Hd k Hk)) as SS.
    cbv zeta in SS. fold st' in SS.
    pose proof (C21_superlink_conserves_volume dt _ _ Q0 _ _ _ _ _ _ _ _ _ _ _ _ _ _ _ _ _ _ _ _ _ (n_i1 N k) (n_I1 N k) (n_nk N k) _ _
       Hdt Fn (proj2 (wf_range _ Hwf k Hk)) SS) as V. cbv zeta in V. unfold internal_surface. rewrite V.
    unfold local_flows. simpl Nat.eqb.
    destruct (Nat.eqb_spec (n_nk N k + 1) 0); [lia|]. destruct (Nat.leb_spec (n_nk N k + 1) (n_nk N k)); [lia|]. reflexivity. }
  assert (JL : sum_n (fun j => junction_surface N G (h_H st) j * (H_sol j - h_H sv j)) (n_M N)
     = dt * (sum_n Q_in (n_M N)
             - sum_n (fun k => (au (flow_coeffs N u k) - ad (flow_coeffs N u k)) * H_sol (n_Ju N k)
                               + (bu (flow_coeffs N u k) - bd (flow_coeffs N u k)) * H_sol (n_Jd N k)
                               + (cu (flow_coeffs N u k) - cd (flow_coeffs N u k))) (n_K N))).
  { assert (RW : forall j, (j < n_M N)%nat ->
       junction_surface N G (h_H st) j * (H_sol j - h_H sv j)
       = dt * (Q_in j + net_inflow (superlink_elements K) H_sol j + net_inflow (control_elements CO) H_sol j
                 + net_inflow (control_elements CW) H_sol j + net_inflow (control_elements CP) H_sol j)).
    { intros j Hj.
      pose proof (proj1 (C22_row_is_water_balance (n_M N) (n_bc N) K CO CW CP (g_Asj G) (h_H sv) H_bc Q_in dt s H_sol j
        Hr Hn ltac:(lra) Hj (Hbc j Hj)) (Hsol j Hj)) as B.
      rewrite <- B.
      assert (EA : junction_surface N G (h_H st) j
        = attached_area (g_Asj G) (k_n K) (k_Ju K) (k_Jd K) (k_dxu K) (k_Bu K) (k_thu K) (k_dxd K) (k_Bd K) (k_thd K) j).
      { unfold junction_surface, attached_area. f_equal; [f_equal|]; apply sum_if_ext; intros k Hk; (split; [reflexivity|]); intros _; simpl.
        - destruct (setup_theta N G w st sv Q0 dt u Hu k Hk) as (-> & _). reflexivity.
        - destruct (setup_theta N G w st sv Q0 dt u Hu k Hk) as (_ & _ & -> & _). reflexivity. }
      rewrite EA. field. lra. }
    rewrite (sum_n_ext _ _ _ RW). rewrite sum_n_scal. f_equal.
    match goal with |- _ = _ - sum_n ?g _ => set (T := g) end.
    rewrite !sum_n_plus. destruct Hn as (N1 & N2 & N3 & N4). rewrite !net_controls_total by auto.
    unfold net_inflow. rewrite sum_n_minus. rewrite !sum_if_total by (intros; now apply N1).
    cbn [superlink_elements e_n e_in e_out e_Ju e_Jd]. rewrite <- sum_n_minus.
    match goal with |- sum_n Q_in _ + sum_n ?f _ + 0 + 0 + 0 = _ => assert (X : sum_n f (k_n K) = - sum_n T (n_K N)) end.
    { rewrite <- sum_n_opp. apply sum_n_ext. intros k Hk. unfold T. cbn [K superlinks_of k_n k_Ju k_Jd k_au k_bu k_cu k_ad k_bd k_cd]. ring. }
    rewrite X. lra. }
  assert (UP : sum_n (fun j => uptake N G u (h_H st) dt j * (h_H st' j - H_sol j)) (n_M N)
    = sum_n (fun j => junction_surface N G (h_H st) j * (h_H st' j - H_sol j)) (n_M N)
      + dt * sum_n (fun k => (au (flow_coeffs N u k) - ad (flow_coeffs N u k)) * (h_H st' (n_Ju N k) - H_sol (n_Ju N k))
                             + (bu (flow_coeffs N u k) - bd (flow_coeffs N u k)) * (h_H st' (n_Jd N k) - H_sol (n_Jd N k))) (n_K N)).
  { rewrite sum_n_plus.
    rewrite (by_ends (n_M N) (n_K N) (n_Ju N) (fun k => au (flow_coeffs N u k) - ad (flow_coeffs N u k)) (fun j => h_H st' j - H_sol j)) by (intros; now apply (wf_ends _ Hwf)).
    rewrite (by_ends (n_M N) (n_K N) (n_Jd N) (fun k => bu (flow_coeffs N u k) - bd (flow_coeffs N u k)) (fun j => h_H st' j - H_sol j)) by (intros; now apply (wf_ends _ Hwf)).
    rewrite <- sum_n_plus, <- sum_n_scal, <- sum_n_plus. apply sum_n_ext. intros j _. unfold uptake. ring. }
  set (T1 := fun k => (au (flow_coeffs N u k) - ad (flow_coeffs N u k)) * H_sol (n_Ju N k)
                               + (bu (flow_coeffs N u k) - bd (flow_coeffs N u k)) * H_sol (n_Jd N k)
                               + (cu (flow_coeffs N u k) - cd (flow_coeffs N u k))) in *.
  set (T2 := fun k => (au (flow_coeffs N u k) - ad (flow_coeffs N u k)) * (h_H st' (n_Ju N k) - H_sol (n_Ju N k))
                             + (bu (flow_coeffs N u k) - bd (flow_coeffs N u k)) * (h_H st' (n_Jd N k) - H_sol (n_Jd N k))) in *.
  unfold stored_volume_change, total_inflow. rewrite UP, (sum_n_ext _ _ _ SL), sum_n_scal, sum_n_plus.
  rewrite (sum_n_ext (fun j => junction_surface N G (h_H st) j * (h_H st' j - h_H sv j))
    (fun j => junction_surface N G (h_H st) j * (H_sol j - h_H sv j) + junction_surface N G (h_H st) j * (h_H st' j - H_sol j))) by (intros; ring).
  rewrite sum_n_plus, JL.
  rewrite (sum_n_ext (fun k => h_Qu st' k - h_Qd st' k) (fun k => T1 k + T2 k)) by (intros k _; unfold T1, T2; rewrite EQu, EQd, EH'; ring).
  rewrite (sum_n_plus T1 T2). ring.
Qed.

(** The same model with other maximum depths of its junctions. *)
Definition with_depths (mx : arr) (N : network) : network :=
  mkNetwork (n_K N) (n_nk N) (n_i1 N) (n_I1 N) (n_Ju N) (n_Jd N) (n_L N) (n_J N) (n_kI N) (n_fwdi N) (n_bwdi N) (n_isS N) (n_isE N)
    (n_lstart N) (n_lend N) (n_dx N) (n_n N) (n_sf N) (n_So N) (n_Ac N) (n_C N) (n_ctrl N) (n_ASI N) (n_dxu N) (n_dxd N) (n_Cu N) (n_Cd N)
    (n_zu N) (n_zd N) (n_nu N) (n_nd N) (n_sfu N) (n_sfd N) (n_Su N) (n_Sd N) (n_M N) (n_bc N) (n_zj N) mx (n_min N) (n_maxk N)
    (n_end_o N) (n_bcm N) (n_damp N) (n_back N).
Definition other_depths (mx : arr) (D : design) : design :=
  mkDesign (with_depths mx (d_net D)) (d_Ik D) (d_sec D) (d_ell D) (d_store D) (d_or D) (d_ocode D) (d_o1 D) (d_o2 D) (d_o3 D) (d_we D) (d_pu D).
Lemma setup_other mx D i dt sv b : setup_body (other_depths mx D) i dt sv b = setup_body D i dt sv b.
Proof. destruct D as [[]]. reflexivity. Qed.

Section Object.
Variable D : design.
Variable slv : mat -> arr -> option arr.
Local Notation N := (d_net D).
Hypothesis HD : sound D.
Hypothesis Hslv : solver (n_M N) slv.


(** [pass_facts] with the heads the linear solver returned. *)
Lemma pass_solved i dt sv b b1 b2 : admissible D i dt -> watered D (b_st b) -> reached D (b_sys b) ->
  setup_body D i dt sv b = Some b1 -> solve_body D slv i dt b1 = Some b2 ->
  exists bg Ao u H, geometries D b = Some bg /\ wet N (geometry_of bg) /\ (forall j, (j < n_M N)%nat -> 0 < b_As bg j) /\
    setup_step N (geometry_of bg) (work_of (b_cf b)) (b_st b) sv (i_Q0 i) dt = Some u /\
    let '(CO, CW, CP) := controls_of D i (b_st b) Ao (b_Qo b) (b_Qw b) (b_Qp b) in
    let K := superlinks_of N (geometry_of bg) u in
    reachable (n_M N) (n_bc N) K CO CW CP (b_sys b) /\ network_ok (n_M N) K CO CW CP /\
    solves (n_M N) (matrix (n_M N) (n_bc N) K CO CW CP (b_As bg) (h_H sv) (i_Hbc i) (i_Qin i) dt (b_sys b))
      (s_b (assembled (n_M N) (n_bc N) K CO CW CP (b_As bg) (h_H sv) (i_Hbc i) (i_Qin i) dt (b_sys b))) H /\
    b_st b2 = M_Step.solve_step N u (b_st b) H /\ b_cf b2 = u /\
    slv (system_matrix (o_n (d_or D)) (w_n (d_we D)) (p_n (d_pu D)) (b_sys b1)) (s_b (b_sys b1)) = Some H.
Proof.
  intros Ha W Rc E1 E2.
  destruct (setup_body_total D HD i dt sv b Ha W Rc) as (b1' & E1' & _ & R1 & [Ex Un]). rewrite E1 in E1'. injection E1' as <-.
  unfold solve_body in E2. destruct (Hslv _ _ Ex Un) as (H & EH & SH). rewrite EH in E2. cbn [bind] in E2. injection E2 as <-.
  destruct (setup_body_inv _ _ _ _ _ _ E1) as (bg & Vs & Ao & u & Eg & EV & EO & Eu & Eb).
  destruct (geometries_total D HD b W) as (bg' & Eg' & Wt & PA & _). rewrite Eg in Eg'. injection Eg' as <-.
  unfold controls_of in *. subst b1. cbn [b_cf b_st b_thu b_thd b_sys b_Ao b_Vs] in *.
  exists bg, Ao, u, H. repeat (split; [solve [auto]|]).
  set (CO := orifice_controls _ _ _ _ _) in *. set (CW := weir_controls _ _ _ _ _) in *. set (CP := pump_controls _ _ _ _ _) in *.
  set (K := superlinks_of N (geometry_of bg) u) in *.
  assert (SN : same_network (blank_links D) K [blank_or D; blank_we D; blank_pu D] [CO; CW; CP]) by (repeat split; reflexivity).
  split; [apply (reachable_transfer _ _ _ _ _ _ _ _ _ _ _ SN Rc)|].
  split; [|split; [exact SH|auto]].
  destruct HD as [Wf Z Mn Ln Nd En St Or We Pu]. split; [apply Wf|]. split; [apply Or|]. split; [exact We|apply Pu].
Qed.

(** Balance of a step with whatever limits on heads were active.  [Hs]: the heads before they are limited. *)
Lemma limited_step : forall m history m1 i dt n tol m2 p,
  constructed D m -> (forall a, In a history -> allowed D a) -> perform_all D slv history m = Some m1 ->
  admissible D i dt -> object_step D slv i dt n tol m1 = Some (m2, p) ->
  n_end_o N = false -> (forall j, (j < n_M N)%nat -> n_bc N j = false) -> depths_inside N (b_cf (m_body m2)) (b_st (m_body m2)) ->
  exists mb G Hs c b1, let b := m_body mb in before_last D slv i dt tol m1 p mb /\ geometry_at D (b_st b) (b_thu b) (b_thd b) G /\
    setup_body D i dt (b_st (m_body m1)) b = Some b1 /\
    slv (system_matrix (o_n (d_or D)) (w_n (d_we D)) (p_n (d_pu D)) (b_sys b1)) (s_b (b_sys b1)) = Some Hs /\
    (forall j, h_H (b_st (m_body m2)) j = limit_head (n_zj N j) (n_maxj N j) (Hs j)) /\
    (forall j, (j < n_M N)%nat -> 0 < junction_surface N G (h_H (b_st b)) j <= c j) /\
    stored_volume_change N G (h_H (b_st b)) (b_st (m_body m1)) (b_st (m_body m2))
    = dt * total_inflow N (i_Qin i) (i_Q0 i) + sum_n (fun j => c j * (h_H (b_st (m_body m2)) j - Hs j)) (n_M N).
Proof.
  intros m history m1 i dt n tol m2 p Hc Hall Eh Ha E He Hb Hd.
  pose proof (healthy_history D slv HD Hslv _ _ _ Hc Hall Eh) as Hm.
  destruct (step_last D slv HD Hslv (fun _ => True) i dt n tol m1 m2 p Ha Hm I) as (mb & Bl & b1 & _ & W & Rc & E1 & E2 & _); auto.
  destruct (pass_solved _ _ _ _ _ _ Ha W Rc E1 E2) as (bg & Ao & u & Hs & Eg & Wt & PA & Eu & F). unfold controls_of in F.
  destruct F as (Hr & Hn & Sol & Est & Ecf & EHs).
  set (b := m_body mb) in *. exists mb, (geometry_of bg), Hs, (uptake N (geometry_of bg) u (h_H (b_st b)) dt), b1.
  cbv zeta. fold b. split; [exact Bl|]. split; [now apply geometries_at|]. split; [exact E1|]. split; [exact EHs|].
  pose proof HD as [Wf Z Mn Ln Nd En St Or We Pu]. pose proof (proj1 Ha) as Hdt.
  split; [intros j; rewrite Est; reflexivity|]. split.
  - intros j Hj. split; [apply surface_positive; auto; apply PA; auto|].
    pose proof (setup_ordered N (geometry_of bg) (work_of (b_cf b)) (b_st b) (b_st (m_body m1)) (i_Q0 i) dt Wf Wt Hdt (or_introl Z) u Eu) as HK.
    unfold uptake. match goal with |- ?x <= ?x + dt * (?y + ?z) => assert (0 <= y /\ 0 <= z) as [Y1 Y2] end.
    { split; apply sum_if_nonneg; intros k Hk; destruct (HK k Hk) as [X1 X2]; cbn [superlinks_of k_ad k_au k_bd k_bu] in X1, X2; lra. }
    assert (0 <= dt * (sum_if (fun k => Nat.eqb (n_Ju N k) j) (fun k => au (flow_coeffs N u k) - ad (flow_coeffs N u k)) (n_K N) + sum_if (fun k => Nat.eqb (n_Jd N k) j) (fun k => bu (flow_coeffs N u k) - bd (flow_coeffs N u k)) (n_K N))) by (apply Rmult_le_pos; lra).
    lra.
  - rewrite Ecf in Hd. rewrite Est in Hd |- *.
    exact (limited_balance N (geometry_of bg) _ (b_st b) (b_st (m_body m1)) (i_Q0 i) (i_Qin i) dt u _ _ _ (i_Hbc i) (b_sys b) Hs
            Wf Wt Hdt (or_introl Z) He Hb Eu Hr Hn Sol Hd).
Qed.

(** C89: on a network without prescribed heads (default end method, depths inside the superlinks within their limits), after any
    history: a step that leaves every junction above its bottom creates no water, and a step that leaves every junction below its
    maximum depth loses none. *)
Theorem C89_limits_do_not_create_or_lose_elsewhere : forall m history m1 i dt n tol m2 p,
  constructed D m -> (forall a, In a history -> allowed D a) -> perform_all D slv history m = Some m1 ->
  admissible D i dt -> object_step D slv i dt n tol m1 = Some (m2, p) ->
  n_end_o N = false -> (forall j, (j < n_M N)%nat -> n_bc N j = false) -> depths_inside N (b_cf (m_body m2)) (b_st (m_body m2)) ->
  (forall j, (j < n_M N)%nat -> 0 <= n_maxj N j) ->
  let H := h_H (b_st (m_body m2)) in
  exists mb G, let b := m_body mb in before_last D slv i dt tol m1 p mb /\ geometry_at D (b_st b) (b_thu b) (b_thd b) G /\
    let gain := stored_volume_change N G (h_H (b_st b)) (b_st (m_body m1)) (b_st (m_body m2)) - dt * total_inflow N (i_Qin i) (i_Q0 i) in
    ((forall j, (j < n_M N)%nat -> n_zj N j < H j) -> gain <= 0) /\
    ((forall j, (j < n_M N)%nat -> H j < n_zj N j + n_maxj N j) -> 0 <= gain).
Proof.
  intros m history m1 i dt n tol m2 p Hc Hall Eh Ha E He Hb Hd Hmx H.
  destruct (limited_step _ _ _ _ _ _ _ _ _ Hc Hall Eh Ha E He Hb Hd) as (mb & G & Hs & c & b1 & Bl & Ge & _ & _ & EH & Hc' & B). fold H in EH, B.
  exists mb, G. cbv zeta. split; [exact Bl|]. split; [exact Ge|]. rewrite B. split; intros X.
  - assert (sum_n (fun j => c j * (H j - Hs j)) (n_M N) <= 0); [|lra]. rewrite <- (sum_n_zero (n_M N)). apply sum_n_le. intros j Hj.
    specialize (X j Hj). specialize (EH j). destruct (Hc' j Hj). destruct (limit_head_cases (n_zj N j) (n_maxj N j) (Hs j) (Hmx j Hj)) as (A2 & A1 & A3).
    assert (H j <= Hs j). { destruct (Rlt_dec (Hs j) (n_zj N j)) as [L|L]; [rewrite EH, A2 in X by auto; lra|].
      destruct (Rlt_dec (n_zj N j + n_maxj N j) (Hs j)) as [L'|L']; [rewrite EH, A3 by auto; lra|rewrite EH, A1 by lra; lra]. }
    nra.
  - assert (0 <= sum_n (fun j => c j * (H j - Hs j)) (n_M N)); [|lra]. rewrite <- (sum_n_zero (n_M N)). apply sum_n_le. intros j Hj.
    specialize (X j Hj). specialize (EH j). destruct (Hc' j Hj). destruct (limit_head_cases (n_zj N j) (n_maxj N j) (Hs j) (Hmx j Hj)) as (A2 & A1 & A3).
    assert (Hs j <= H j). { destruct (Rlt_dec (n_zj N j + n_maxj N j) (Hs j)) as [L|L]; [rewrite EH, A3 in X by auto; lra|].
      destruct (Rlt_dec (Hs j) (n_zj N j)) as [L'|L']; [rewrite EH, A2 by auto; lra|rewrite EH, A1 by lra; lra]. }
    nra.
Qed.

(** Where no limit is reached, deeper junctions show the heads before they are limited. *)
Lemma other_heads i dt tol' mx m1 m2' p' b1 Hs : setup_body D i dt (b_st (m_body m1)) (m_body m1) = Some b1 ->
  slv (system_matrix (o_n (d_or D)) (w_n (d_we D)) (p_n (d_pu D)) (b_sys b1)) (s_b (b_sys b1)) = Some Hs ->
  object_step (other_depths mx D) slv i dt 1 tol' m1 = Some (m2', p') -> heads_free (d_net (other_depths mx D)) (b_st (m_body m2')) ->
  forall j, (j < n_M N)%nat -> h_H (b_st (m_body m2')) j = Hs j.
Proof.
  intros Es Ev E' Hf j Hj. revert E'. unfold object_step, step, setup_step', solve_step'. cbn [Nat.sub Nat.ltb Nat.leb save_state m_saved m_body snd].
  change (v_st (save_body (m_body m1))) with (b_st (m_body m1)). rewrite setup_other. rewrite Es. cbn [bind m_body]. unfold solve_body at 1.
  change (d_or (other_depths mx D)) with (d_or D). change (d_we (other_depths mx D)) with (d_we D). change (d_pu (other_depths mx D)) with (d_pu D).
  rewrite Ev. cbn [bind m_t m_ic m_saved]. intros [= X _]. specialize (Hf j Hj). cbn [other_depths d_net with_depths n_zj n_maxj] in Hf.
  rewrite <- X in Hf |- *. cbn [m_body b_st] in Hf |- *. unfold M_Step.solve_step in Hf |- *. cbn [h_H] in Hf |- *.
  cbn [with_depths n_zj n_maxj] in Hf |- *. revert Hf. unfold limit_head, Rmin, Rmax.
  repeat match goal with |- context [Rle_dec ?x ?y] => destruct (Rle_dec x y) end; lra.
Qed.

(** C89: what is lost.  Take the step also with junctions so deep that no head reaches a limit: at each junction the step loses at least
    the water surface times the height by which the junction overflows (steps of one pass). *)
Theorem C89_overflow_is_lost : forall m history m1 i dt tol tol' m2 p mx m2' p',
  constructed D m -> (forall a, In a history -> allowed D a) -> perform_all D slv history m = Some m1 ->
  admissible D i dt -> object_step D slv i dt 1 tol m1 = Some (m2, p) -> object_step (other_depths mx D) slv i dt 1 tol' m1 = Some (m2', p') ->
  n_end_o N = false -> (forall j, (j < n_M N)%nat -> n_bc N j = false) -> depths_inside N (b_cf (m_body m2)) (b_st (m_body m2)) ->
  heads_free (d_net (other_depths mx D)) (b_st (m_body m2')) ->
  let H := h_H (b_st (m_body m2)) in let H' := h_H (b_st (m_body m2')) in let b := m_body m1 in
  (forall j, (j < n_M N)%nat -> 0 <= n_maxj N j -> H j = Rmin (H' j) (n_zj N j + n_maxj N j)) /\
  exists G c, geometry_at D (b_st b) (b_thu b) (b_thd b) G /\ (forall j, (j < n_M N)%nat -> 0 < junction_surface N G (h_H (b_st b)) j <= c j) /\
    stored_volume_change N G (h_H (b_st b)) (b_st b) (b_st (m_body m2))
    = dt * total_inflow N (i_Qin i) (i_Q0 i) - sum_n (fun j => c j * (H' j - H j)) (n_M N).
Proof.
  intros m history m1 i dt tol tol' m2 p mx m2' p' Hc Hall Eh Ha E E' He Hb Hd Hf H H' b.
  destruct (limited_step _ _ _ _ _ _ _ _ _ Hc Hall Eh Ha E He Hb Hd) as (mb & G & Hs & c & b1 & Bl & Ge & Es & Ev & EH & Hc' & B).
  assert (Q : mb = m1).
  { destruct Bl as [[_ ->]|(q' & -> & Hq' & _)]; [reflexivity|]. exfalso. revert E. unfold object_step, step. cbn [Nat.sub Nat.ltb Nat.leb].
    destruct (setup_step' _ _ _ _ _ _ _ _ _); [|discriminate]. cbn [bind]. destruct (solve_step' _ _ _ _ _ _ _); [|discriminate]. cbn [bind].
    intros [= _ Eq]. lia. }
  subst mb. fold b H in Ge, Es, EH, Hc', B |- *.
  assert (EH' : forall j, (j < n_M N)%nat -> H' j = Hs j).
  { exact (other_heads _ _ _ _ _ _ _ _ _ Es Ev E' Hf). }
  split.
  - intros j Hj Hm. specialize (Hf j Hj). cbn [other_depths d_net with_depths n_zj n_maxj] in Hf. fold H' in Hf. rewrite EH, <- (EH' j Hj).
    destruct (limit_head_cases (n_zj N j) (n_maxj N j) (H' j) Hm) as (A2 & A1 & A3).
    unfold Rmin. destruct (Rle_dec (H' j) (n_zj N j + n_maxj N j)); [apply A1; lra|apply A3; lra].
  - exists G, c. split; [exact Ge|]. split; [exact Hc'|]. rewrite B.
    rewrite (sum_n_ext (fun j => c j * (H j - Hs j)) (fun j => - (c j * (H' j - H j)))) by (intros j Hj; rewrite (EH' j Hj); ring).
    rewrite sum_n_opp. ring.
Qed.
End Object.

(** The filling channel of C26, its two junctions only 2.5 m deep: they would fill to 3 m (C26_object_example), so at least 2.5 m3 are lost at each
    of the two storages of 5 m2. *)
Definition shallow : design := other_depths (fun _ => 5/2) fill.
Lemma shallow_sound : sound shallow.
Proof.
  destruct fill_sound as [Wf Z Mn Ln Nd En St Or We Pu]. constructor; auto.
  destruct Wf. constructor; auto.
Qed.
Example C89_example :
  exists m2, object_step shallow (gauss 2) fill_inputs 60 1 0 fill_object = Some (m2, 1%nat) /\
    (forall j, (j < 2)%nat -> h_H (b_st (m_body m2)) j = 5/2) /\
    exists G, geometry_at shallow fill_state (b_thu (m_body fill_object)) (b_thd (m_body fill_object)) G /\
      stored_volume_change (d_net shallow) G (h_H fill_state) fill_state (b_st (m_body m2))
      <= 60 * total_inflow (d_net shallow) (i_Qin fill_inputs) (i_Q0 fill_inputs) - 5.
Proof.
  pose proof (gauss_solver 2) as Hs. pose proof shallow_sound as HD.
  destruct C26_object_example as (_ & C0 & A0 & mt & Et & Hf & _ & Ht & _).
  assert (C : constructed shallow fill_object) by exact C0.
  assert (A : admissible shallow fill_inputs 60) by exact A0.
  assert (Hm : healthy shallow fill_object) by (apply (healthy_history shallow (gauss 2) HD Hs fill_object []); auto; intros a []).
  destruct (setup_body_total shallow HD fill_inputs 60 fill_state (m_body fill_object) A (proj1 Hm) (proj1 (proj2 Hm))) as (b1 & E1 & _ & R1 & Sv).
  destruct (solve_body_total shallow HD (gauss 2) Hs fill_inputs 60 b1 Sv R1) as (b2 & E2 & _).
  set (m2 := mkModel 60 1%Z b2 (0, save_body (m_body fill_object)) : object).
  assert (E : object_step shallow (gauss 2) fill_inputs 60 1 0 fill_object = Some (m2, 1%nat)).
  { unfold object_step, step, setup_step'. cbn [save_state m_saved snd v_st save_body m_body fill_object b_st].
    change (v_st (save_body (body0 fill_state))) with fill_state. change (b_st (body0 fill_state)) with fill_state.
    change (m_body fill_object) with (body0 fill_state) in E1. rewrite E1. cbn [bind]. unfold solve_step'. cbn [m_body m_saved]. rewrite E2.
    cbn [bind]. unfold m2. cbn. repeat f_equal; lra. }
  destruct (pass_solved shallow (gauss 2) HD Hs _ _ _ _ _ _ A (proj1 Hm) (proj1 (proj2 Hm)) E1 E2) as (bg & Ao & u & H & Eg & Wt & _ & Eu & F).
  unfold controls_of in F. destruct F as (_ & _ & _ & Est & Ecf & Ev).
  assert (EH : forall j, (j < 2)%nat -> H j = 3).
  { intros j Hj. rewrite <- (other_heads shallow (gauss 2) fill_inputs 60 0 (fun _ => 100) fill_object mt 1%nat b1 H E1 Ev Et Hf j Hj). apply Ht; auto. }
  assert (EL : forall j, (j < 2)%nat -> limit_head 0 (5/2) (H j) = 5/2).
  { intros j Hj. rewrite EH by auto. destruct (limit_head_cases 0 (5/2) 3 ltac:(lra)) as (_ & _ & X). rewrite X by lra. lra. }
  assert (H2 : forall j, (j < 2)%nat -> h_H (b_st b2) j = 5/2) by (intros j Hj; rewrite Est; exact (EL j Hj)).
  assert (Hd : depths_inside (d_net shallow) (b_cf b2) (b_st b2)).
  { intros k Hk. simpl in Hk. assert (k = 0%nat) by lia. subst k. rewrite Ecf.
    pose proof (setup_facts_ok _ _ _ _ _ _ _ _ Eu) as [_ _ _ _ Fhu Fhd].
    destruct (setup_theta (d_net shallow) _ _ _ _ _ 60 u Eu 0%nat ltac:(simpl; lia)) as (T1 & T2 & T3 & T4).
    assert (G0 : hk (u_hu u 0%nat) = 0 /\ hk (u_hd u 0%nat) = 0).
    { pose proof (Fhu 0%nat (le_n 1)) as Z1. pose proof (Fhd 0%nat (le_n 1)) as Z2. injection Z1 as <-. injection Z2 as <-. simpl.
      unfold gamma_uk, gamma_dk. rewrite Rabs_R0. unfold safe_divide.
      split; match goal with |- context [Reqb ?x ?y] => destruct (Reqb_spec x y) end; try lra; unfold Rdiv; ring. }
    destruct G0 as [G1 G2]. unfold above in T1, T2, T3, T4. simpl in T1, T2, T3, T4. destruct (Rleb_spec 0 2); [|lra].
    unfold end_depths, solve_superlink_depths. cbn [fst snd]. change (n_Ju (d_net shallow) 0%nat) with 0%nat. change (n_Jd (d_net shallow) 0%nat) with 1%nat.
    rewrite !H2 by lia. rewrite G1, G2, T1, T2, T3, T4. change (n_min (d_net shallow)) with (1/1000). change (n_nk (d_net shallow) 0%nat) with 1%nat.
    repeat split; try lra; intros; lia. }
  exists m2. split; [exact E|]. split; [exact H2|].
  destruct (C89_overflow_is_lost shallow (gauss 2) HD Hs fill_object [] fill_object fill_inputs 60 0 0 m2 1%nat (fun _ => 100) mt 1%nat
    C ltac:(intros a []) eq_refl A E Et eq_refl ltac:(reflexivity) Hd Hf) as (_ & G & c & Ge & Hc & B).
  exists G. split; [exact Ge|].
  change (h_H (b_st (m_body fill_object))) with (h_H fill_state) in B, Hc. change (b_st (m_body fill_object)) with fill_state in B.
  rewrite B. change (n_M (d_net shallow)) with 2%nat. cbn [sum_n].
  assert (S5 : forall j, (j < 2)%nat -> 5 <= c j).
  { intros j Hj. destruct (Hc j Hj) as [_ X]. eapply Rle_trans; [|exact X]. destruct Ge as [GL GU GD GS].
    pose proof (GS j Hj) as Y. revert Y. unfold storage_area. simpl. intros [= Y].
    assert (YA : g_Asj G j = 5).
    { rewrite <- Y. unfold functional_area.
      match goal with |- context [Rltb (Rmax ?x ?y) 0] => pose proof (Rmax_r x y); destruct (Rltb_spec (Rmax x y) 0) end; [lra|ring]. }
    destruct (GU 0%nat ltac:(simpl; lia)) as (o & gm & X1 & _ & _ & B1). simpl in X1. injection X1 as <-. simpl in B1.
    destruct (GD 0%nat ltac:(simpl; lia)) as (o' & gm' & X2 & _ & _ & B2). simpl in X2. injection X2 as <-. simpl in B2.
    unfold junction_surface, attached_area. rewrite YA. unfold sum_if. cbn. rewrite B1, B2. unfold above. cbn. destruct (Rleb_spec 0 2); [|lra].
    destruct j as [|[|j]]; [| |lia]; cbn; unfold Rect_Open_B_ik; lra. }
  pose proof (S5 0%nat ltac:(lia)). pose proof (S5 1%nat ltac:(lia)).
  rewrite !Ht by lia. change (m_body m2) with b2. rewrite !H2 by lia. lra.
Qed.
