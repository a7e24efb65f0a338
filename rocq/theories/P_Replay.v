(** Property C41: what happens when a saved state is loaded and the step is repeated. *)
From Coq Require Import ZArith.
From Verif Require Import Prelude M_Numerics M_Coeffs M_Recurrence M_Assembly M_Step M_Geometry M_Storage M_Controls M_Simulation M_Model
  S_Numerics S_Geometry S_Superlink S_Network S_Step S_Simulation S_Model L_Forward L_Backward L_Coeffs L_Step P_Assembly P_Superlink P_Step P_Limits
  P_Controls P_Simulation L_Model L_Gauss P_Model.

(** ** What one pass did *)
Section Invert.
Variable D : design.
Variable slv : mat -> arr -> option arr.
Local Notation N := (d_net D).

Lemma geometries_inv b b1 : geometries D b = Some b1 ->
  link_geometry D (b_st b) (b_gl b) = Some (b_gl b1) /\ upstream_geometry D (b_st b) (b_thu b) (b_gu b) = Some (b_gu b1) /\
  downstream_geometry D (b_st b) (b_thd b) (b_gd b) = Some (b_gd b1) /\ storage_areas D (b_st b) (b_As b) = Some (b_As b1) /\
  b_st b1 = b_st b /\ b_Qo b1 = b_Qo b /\ b_Qw b1 = b_Qw b /\ b_Qp b1 = b_Qp b /\ b_Vs b1 = b_Vs b /\ b_Ao b1 = b_Ao b /\
  b_thu b1 = b_thu b /\ b_thd b1 = b_thd b /\ b_cf b1 = b_cf b /\ b_sys b1 = b_sys b.
Proof.
  unfold geometries. intros E.
  destruct (link_geometry _ _ _) as [gl|]; [|discriminate]. cbn [bind] in E.
  destruct (upstream_geometry _ _ _ _) as [gu|]; [|discriminate]. cbn [bind] in E.
  destruct (downstream_geometry _ _ _ _) as [gd|]; [|discriminate]. cbn [bind] in E.
  destruct (storage_areas _ _ _) as [As|]; [|discriminate]. cbn [bind] in E.
  injection E as <-. cbn. auto 20.
Qed.

Lemma setup_body_inv i dt sv b b' : setup_body D i dt sv b = Some b' ->
  exists b1 Vs Ao u, geometries D b = Some b1 /\ storage_volumes D (b_st b) (b_Vs b) = Some Vs /\
    orifice_areas D (b_st b) (i_uo i) (b_Ao b) = Some Ao /\
    setup_step N (geometry_of b1) (work_of (b_cf b)) (b_st b) sv (i_Q0 i) dt = Some u /\
    let '(CO, CW, CP) := controls_of D i (b_st b) Ao (b_Qo b) (b_Qw b) (b_Qp b) in
    b' = mkBody (b_st b) (b_Qo b) (b_Qw b) (b_Qp b) (b_gl b1) (b_gu b1) (b_gd b1) (b_As b1) Vs Ao
           (fun k => theta_k (h_H (b_st b) (n_Ju N k)) (n_zu N k)) (fun k => theta_k (h_H (b_st b) (n_Jd N k)) (n_zd N k)) u
           (sparse_matrix_equations (n_M N) (n_bc N) (superlinks_of N (geometry_of b1) u) CO CW CP (b_As b1) (h_H sv) (i_Hbc i)
              (i_Qin i) dt (b_sys b)).
Proof.
  unfold setup_body. intros E. destruct (geometries D b) as [b1|] eqn:EG; [|discriminate]. cbn [bind] in E.
  destruct (geometries_inv b b1 EG) as (_ & _ & _ & _ & E1 & E2 & E3 & E4 & E5 & E6 & _ & _ & E7 & E8).
  rewrite E1, E2, E3, E4, E5, E6, E7, E8 in E.
  destruct (storage_volumes _ _ _) as [Vs|] eqn:EV; [|discriminate]. cbn [bind] in E.
  destruct (orifice_areas _ _ _ _) as [Ao|] eqn:EO; [|discriminate]. cbn [bind] in E.
  destruct (setup_step _ _ _ _ _ _ _) as [u|] eqn:Eu; [|discriminate]. cbn [bind] in E.
  exists b1, Vs, Ao, u. split; auto. split; auto. split; auto. split; auto.
  unfold controls_of in *. injection E as <-. reflexivity.
Qed.

(** What a pass returns. *)
Lemma pass_inv i dt b b1 b2 : sound D -> solver (n_M N) slv -> admissible D i dt -> watered D (b_st b) -> reached D (b_sys b) ->
  setup_body D i dt (b_st b) b = Some b1 -> solve_body D slv i dt b1 = Some b2 ->
  exists bg H, geometries D b = Some bg /\
    setup_step N (geometry_of bg) (work_of (b_cf b)) (b_st b) (b_st b) (i_Q0 i) dt = Some (b_cf b1) /\
    b_st b2 = M_Step.solve_step N (b_cf b1) (b_st b) H /\
    (forall j, (j < n_M N)%nat -> n_bc N j = true -> H j = i_Hbc i j) /\
    b_thu b2 = (fun k => theta_k (h_H (b_st b) (n_Ju N k)) (n_zu N k)) /\
    b_thd b2 = (fun k => theta_k (h_H (b_st b) (n_Jd N k)) (n_zd N k)).
Proof.
  intros HD Hs Ha W Rc E1 E2.
  destruct (setup_body_total D HD i dt (b_st b) b Ha W Rc) as (b1' & E1' & _ & R1 & [Ex Un]).
  rewrite E1 in E1'. injection E1' as <-.
  unfold solve_body in E2. destruct (Hs _ _ Ex Un) as (H & EH & SH). rewrite EH in E2. cbn [bind] in E2. injection E2 as <-.
  destruct (setup_body_inv _ _ _ _ _ E1) as (bg & Vs & Ao & u & Eg & EV & EO & Eu & Eb).
  unfold controls_of in Eb. subst b1. cbn [b_cf b_st b_thu b_thd b_sys] in *.
  exists bg, H. split; auto. split; auto. split; auto. split; auto.
  intros j Hj Hb. specialize (SH j Hj).
  set (CO := orifice_controls _ _ _ _ _) in *. set (CW := weir_controls _ _ _ _ _) in *. set (CP := pump_controls _ _ _ _ _) in *.
  set (K := superlinks_of N (geometry_of bg) u) in *.
  assert (SN : same_network (blank_links D) K [blank_or D; blank_we D; blank_pu D] [CO; CW; CP]) by (repeat split; reflexivity).
  refine (proj1 (proj2 (C23_boundary_row_prescribes_head (n_M N) (n_bc N) K CO CW CP (b_As bg) (h_H (b_st b)) (i_Hbc i) (i_Qin i) dt (b_sys b) j
            _ _ Hj Hb) H) SH).
  - apply (reachable_transfer _ _ _ _ _ _ _ _ _ _ _ SN Rc).
  - destruct HD as [Wf Z Mn Ln Nd En St Or We Pu]. split; [apply Wf|]. split; [apply Or|]. split; [exact We|apply Pu].
Qed.

(** A step of one pass. *)
Lemma one_pass i dt tol (m m' : object) p : object_step D slv i dt 1 tol m = Some (m', p) ->
  exists b1, setup_body D i dt (b_st (m_body m)) (m_body m) = Some b1 /\ solve_body D slv i dt b1 = Some (m_body m') /\
    m_t m' = m_t m + dt /\ m_saved m' = (m_t m, save_body (m_body m)).
Proof.
  unfold object_step, step, setup_step'. cbn [save_state m_saved m_body m_t m_ic snd]. cbv beta. cbn [save_body v_st]. intros E.
  destruct (setup_body _ _ _ _ _) as [b1|]; [|discriminate]. cbn [bind] in E. unfold solve_step' in E. cbn [m_body m_saved m_t] in E.
  destruct (solve_body _ _ _ _ _) as [b2|] eqn:E2; [|discriminate]. cbn [bind] in E. cbn [Nat.sub Nat.ltb Nat.leb] in E.
  injection E as <- <-. exists b1. cbn [m_body m_t m_saved]. auto.
Qed.
End Invert.

(** ** The indicators of submerged ends are not part of the saved state *)

(** One triangular channel between two junctions with prescribed heads; its upstream end lies 1 above the bottom of the
    first junction. *)
Definition drop_net : network :=
  mkNetwork 1 (fun _ => 1%nat) (fun _ => 0%nat) (fun _ => 0%nat) (fun _ => 0%nat) (fun _ => 1%nat) 1 2 (fun _ => 0%nat) (fun _ => 0%nat) (fun _ => 0%nat)
    (fun I => Nat.eqb I 0) (fun I => Nat.eqb I 1) (fun _ => true) (fun _ => true)
    (fun _ => 10) (fun _ => 1/100) (fun _ => 0%nat) (fun _ => 1/10) (fun _ => 1) (fun _ => 0) (fun _ => false) (fun _ => 0)
    (fun _ => 1) (fun _ => 0) (fun _ => 0) (fun _ => 0) (fun _ => 1) (fun _ => 0) (fun _ => 1/100) (fun _ => 1/100)
    (fun _ => 0%nat) (fun _ => 0%nat) (fun _ => 0) (fun _ => 0) 2 (fun _ => true) (fun _ => 0) (fun _ => 100) (1/1000) (fun _ => 50)
    false BCz false true.
Definition drop_section : section := {| shape := 4%nat; g1 := 10; g2 := 1; g3 := 0; g4 := 0; g5 := 0; g6 := 0; g7 := 0 |}.
Definition drop : design :=
  mkDesign drop_net (fun i => i) (fun _ => Regular drop_section) (fun _ _ _ _ => 0) (fun _ => Functional 0 0 5)
    (mkOrifices 0 (fun _ => 0%nat) (fun _ => 1%nat) zeros zeros zeros zeros zeros (fun _ => false))
    (fun _ => 1%nat) zeros zeros zeros
    (mkWeirs 0 (fun _ => 0%nat) (fun _ => 1%nat) zeros zeros zeros zeros zeros zeros)
    (mkPumps 0 (fun _ => 0%nat) (fun _ => 1%nat) zeros zeros zeros zeros zeros zeros).
Definition drop_state : hstate := mkHState (fun _ => 3) zeros zeros (fun _ => 2) zeros.
Definition drop_object : object := mkModel 0 0%Z (body0 drop_state) (0, save_body (body0 drop_state)).
Definition drop_inputs : inputs := mkInputs (fun j => match j with O => 1/2 | _ => 2 end) zeros zeros zeros zeros zeros.

Lemma drop_sound : sound drop.
Proof.
  constructor.
  - constructor.
    + split; simpl; intros; lia.
    + intros k j Hk Hj. simpl in *. destruct k; [|lia]. destruct j as [|[|j]]; simpl; try lia; repeat split; auto; lia.
    + intros k Hk; simpl; lia.
    + intros k Hk; simpl; lia.
  - reflexivity.
  - simpl. lra.
  - simpl. intros i Hi. repeat split; try lra; try lia; discriminate.
  - simpl; intros; lra.
  - simpl; intros; lra.
  - simpl; intros; lra.
  - split; intros k Hk; simpl in Hk; lia.
  - intros k Hk; simpl in Hk; lia.
  - split; intros k Hk; simpl in Hk; lia.
Qed.

(** What one pass of this model computes while the upstream head is below the channel: the upstream flow as a function
    of the start state and of the width W of the upstream end piece. *)
Definition drop_area (st : hstate) : R := Triangular_A_ik (h_h st 0%nat) (h_h st 1%nat) 10 1.
Definition drop_radius (st : hstate) : R := R_ik (drop_area st) (Triangular_Pe_ik (h_h st 0%nat) (h_h st 1%nat) 10 1).
Definition drop_width (st : hstate) : R := Triangular_B_ik (h_h st 0%nat) (h_h st 1%nat) 10 1.
Definition drop_flow (st : hstate) (dt W Q : R) : Prop :=
  let A := drop_area st in
  let v := u_ik (h_Q st 0%nat) A in
  let a := a_ik v 1 in
  let c := c_ik v 1 in
  let D0 := (drop_width st * 10 / 2 + W * 1 / 2 + 0) * (h_h st 0%nat / dt) in
  let S1 := drop_width st * 10 / 2 in
  exists q, b_ik 10 dt (1/100) (h_Q st 0%nat) A (drop_radius st) 1 0 a c false 1 0 = Some q /\
    a <= 0 /\ 0 < a + q + c /\
    Q = (P_ik (h_Q st 0%nat) 10 dt A (1/10) 1 + D0 * a - S1 * (h_h st 1%nat / dt) * c) / (a + q + c) - D0
        + (S1 / dt * c - g * A) / (a + q + c) * 2.

(** The flow depends strictly on that width. *)
Lemma drop_flow_differs st dt W W' Q Q' : 0 < dt -> 0 < h_h st 0%nat -> W < W' ->
  drop_flow st dt W Q -> drop_flow st dt W' Q' -> Q' < Q.
Proof.
  intros Hdt Hh HW (q & Eq & Ha & Ho & E) (q' & Eq' & _ & _ & E'). rewrite Eq in Eq'. injection Eq' as <-.
  set (a := a_ik _ _) in *. set (c := c_ik _ _) in *. set (S1 := drop_width st * 10 / 2) in *.
  set (P := P_ik _ _ _ _ _ _) in *. set (x := h_h st 0%nat / dt) in *.
  assert (Hx : 0 < x) by (apply Rmult_lt_0_compat; [auto|now apply Rinv_0_lt_compat]).
  assert (Df : Q - Q' = (W' - W) / 2 * x * (1 - a / (a + q + c))) by (rewrite E, E'; field; lra).
  assert (a / (a + q + c) <= 0).
  { apply Rmult_le_reg_r with (a + q + c); auto. unfold Rdiv. rewrite Rmult_assoc, Rinv_l by lra. lra. }
  assert (0 < (W' - W) / 2 * x * (1 - a / (a + q + c))).
  { apply Rmult_lt_0_compat; [apply Rmult_lt_0_compat; lra|lra]. }
  lra.
Qed.

Lemma drop_pass slv dt b b1 b2 : solver 2 slv -> 0 < dt -> watered drop (b_st b) -> reached drop (b_sys b) -> 0 <= h_H (b_st b) 1%nat ->
  setup_body drop drop_inputs dt (b_st b) b = Some b1 -> solve_body drop slv drop_inputs dt b1 = Some b2 ->
  h_H (b_st b2) 0%nat = 1/2 /\ h_H (b_st b2) 1%nat = 2 /\ h_h (b_st b2) 0%nat = 1/1000 /\ h_h (b_st b2) 1%nat = 2 /\
  b_thu b2 0%nat = above (h_H (b_st b) 0%nat) 1 /\ b_thd b2 0%nat = 1 /\
  (h_H (b_st b) 0%nat < 1 ->
   drop_flow (b_st b) dt (Triangular_B_ik (h_h (b_st b) 0%nat) (b_thu b 0%nat * (h_H (b_st b) 0%nat - 1)) 10 1) (h_Qu (b_st b2) 0%nat)).
Proof.
  intros Hs Hdt W Rc H1 E1 E2.
  assert (Ad : admissible drop drop_inputs dt) by (split; auto; split; simpl; intros; lia).
  destruct (pass_inv drop slv drop_inputs dt b b1 b2 drop_sound Hs Ad) as (bg & H & Eg & Eu & Es & Hb & Tu & Td); auto.
  assert (H0 : H 0%nat = 1/2) by (apply Hb; simpl; auto).
  assert (H2 : H 1%nat = 2) by (apply Hb; simpl; auto).
  destruct (setup_theta drop_net _ _ _ _ _ _ _ Eu 0%nat (le_n 1)) as (T1 & T2 & T3 & T4).
  cbn [n_bcm n_zd n_zu n_Ju n_Jd drop_net] in T1, T2, T3, T4.
  pose proof (setup_facts_ok _ _ _ _ _ _ _ _ Eu) as [Fm Fn Ff Fb Fhu Fhd].
  assert (G0 : hk (u_hu (b_cf b1) 0%nat) = 0 /\ hk (u_hd (b_cf b1) 0%nat) = 0).
  { pose proof (Fhu 0%nat (le_n 1)) as Z1. pose proof (Fhd 0%nat (le_n 1)) as Z2. injection Z1 as <-. injection Z2 as <-. simpl.
    unfold gamma_uk, gamma_dk. rewrite !Rmult_0_r. unfold safe_divide. dR; split; lra. }
  destruct G0 as [G1 G2].
  assert (A1 : above (h_H (b_st b) 1%nat) 0 = 1) by (unfold above; destruct (Rleb_spec 0 (h_H (b_st b) 1%nat)); lra).
  rewrite A1 in T3, T4.
  assert (L0 : limit_head 0 100 (H 0%nat) = 1/2) by (rewrite H0; apply limit_head_id; lra).
  assert (L1 : limit_head 0 100 (H 1%nat) = 2) by (rewrite H2; apply limit_head_id; lra).
  rewrite Es. set (u := b_cf b1) in *.
  assert (Dp : solve_superlink_depths (u_hu u 0) (u_hd u 0) (fst (solve_superlink_flows (flow_coeffs drop_net u 0) (1/2) 2))
       (snd (solve_superlink_flows (flow_coeffs drop_net u 0) (1/2) 2)) (1/2) 2 = (above (h_H (b_st b) 0%nat) 1 * (1/2 - 1), 2)).
  { unfold solve_superlink_depths. rewrite G1, G2, T1, T2, T3, T4. f_equal; ring. }
  split; [exact L0|]. split; [exact L1|].
  assert (Dh : forall I, (I <= 1)%nat -> h_h (solve_step drop_net u (b_st b) H) I = if Nat.eqb I 0 then 1/1000 else 2).
  { intros I HI. set (l0 := limit_head 0 100 (H 0%nat)) in *. set (l1 := limit_head 0 100 (H 1%nat)) in *.
    set (fl := solve_superlink_flows (flow_coeffs drop_net u 0) l0 l1).
    set (d := solve_superlink_depths (u_hu u 0) (u_hd u 0) (fst fl) (snd fl) l0 l1).
    assert (Ed : d = (above (h_H (b_st b) 0%nat) 1 * (1/2 - 1), 2)) by (unfold d, fl; rewrite L0, L1; exact Dp).
    change ((if Rltb (upd (upd (h_h (b_st b)) 0%nat (fst d)) 1%nat (snd d) I) (1/1000) then 1/1000
             else upd (upd (h_h (b_st b)) 0%nat (fst d)) 1%nat (snd d) I) = if Nat.eqb I 0 then 1/1000 else 2).
    rewrite Ed. cbn [fst snd].
    destruct I as [|[|I]]; [| |lia]; cbn [Nat.eqb].
    - rewrite upd_neq, upd_eq by lia. unfold above. dR; lra.
    - rewrite upd_eq. destruct (Rltb_spec 2 (1/1000)); lra. }
  split; [apply (Dh 0%nat); lia|]. split; [apply (Dh 1%nat); lia|].
  split; [rewrite Tu; reflexivity|]. split.
  { rewrite Td. exact A1. }
  intros Hlt.
  assert (A0 : above (h_H (b_st b) 0%nat) 1 = 0) by (unfold above; destruct (Rleb_spec 1 (h_H (b_st b) 0%nat)); lra).
  rewrite A0 in T1, T2.
  destruct (geometries_total drop drop_sound b W) as (bg' & Eg' & Wt & _). rewrite Eg in Eg'. injection Eg' as <-.
  destruct (geometries_inv _ _ _ Eg) as (El & Eup & _).
  pose proof (all_entries_spec _ _ _ _ El 0%nat (le_n 1)) as Gl. pose proof (all_entries_spec _ _ _ _ Eup 0%nat (le_n 1)) as Gu.
  cbv beta zeta in Gl, Gu. cbn [d_sec d_net drop section_geometry with_perimeter] in Gl, Gu. unfold hydraulic_geometry in Gl, Gu.
  cbn [shape drop_section g1 g2 d_Ik n_I1 n_Ju n_zu drop_net Nat.add Nat.eqb] in Gl, Gu.
  injection Gl as Gl. injection Gu as Gu. cbn [n_I1 n_Ju n_zu drop_net] in Gu.
  destruct (setup_signs drop_net _ _ _ _ _ _ (sd_wf _ drop_sound) Wt Hdt _ Eu) as [HW _].
  destruct (HW 0%nat (le_n 1)) as [HWl _]. specialize (HWl 0%nat (le_n 1)). cbn [n_i1 drop_net Nat.add] in HWl.
  destruct (link_coeffs_entries _ _ _ _ _ _ Fm) as (Ea & Ec & EP & Eb). specialize (Eb 0%nat (le_n 1)).
  pose proof (node_coeffs_entries _ _ _ _ _ _ _ _ _ _ _ _ _ _ _ _ _ _ _ _ Fn) as En.
  destruct (En 0%nat ltac:(simpl; lia)) as [EE0 ED0]. destruct (En 1%nat ltac:(simpl; lia)) as [EE1 ED1].
  pose proof (backward_recurrence_ok _ _ _ _ _ _ _ _ _ _ _ _ _ _ _ (wf_layout _ (sd_wf _ drop_sound)) (fun k _ => conj eq_refl eq_refl) Fb 0%nat (le_n 1)) as BW.
  destruct BW as [O0 X0 Y0 Z0 _ _ _ _]. cbn [n_i1 n_I1 n_nk drop_net Nat.add Nat.sub d_net drop] in O0, X0, Y0, Z0.
  fold u in Ea, Ec, EP, Eb, EE0, ED0, EE1, ED1, HWl, O0, Y0, Z0.
  assert (EQ : h_Qu (M_Step.solve_step (d_net drop) u (b_st b) H) 0%nat
               = fst (solve_superlink_flows (flow_coeffs drop_net u 0) (1/2) 2)) by (rewrite <- L0, <- L1; reflexivity).
  rewrite EQ. clear EQ Dh Dp.
  unfold solve_superlink_flows, flow_coeffs, superlink_flow_coefficients, end_coeffs. cbn [fst au bu cu n_end_o drop_net eX eY eZ eU eV eW n_I1 n_nk Nat.add Nat.sub].
  unfold alpha_uk, beta_uk, chi_uk, D_k_star. rewrite T1, T2, T3, T4, G1, G2.
  assert (One : forall x y z t, ((x * 0 - 1) * (y * 0 - 1) - z * 0 * (t * 0)) = 1) by (intros; ring).
  rewrite !One. assert (S1 : forall x, safe_divide x 1 = x) by (intros; rewrite safe_divide_nz by lra; field).
  rewrite !S1.
  assert (GA : g_A (geometry_of bg) 0%nat = drop_area (b_st b)) by (change (gm_A (b_gl bg 0) = drop_area (b_st b)); rewrite <- Gl; reflexivity).
  assert (GR : g_R (geometry_of bg) 0%nat = drop_radius (b_st b)) by (change (gm_R (b_gl bg 0) = drop_radius (b_st b)); rewrite <- Gl; reflexivity).
  assert (GB : g_B (geometry_of bg) 0%nat = drop_width (b_st b)) by (change (gm_B (b_gl bg 0) = drop_width (b_st b)); rewrite <- Gl; reflexivity).
  assert (GU : g_Bu (geometry_of bg) 0%nat = Triangular_B_ik (h_h (b_st b) 0%nat) (b_thu b 0%nat * (h_H (b_st b) 0%nat - 1)) 10 1)
    by (change (gm_B (b_gu bg 0) = Triangular_B_ik (h_h (b_st b) 0%nat) (b_thu b 0%nat * (h_H (b_st b) 0%nat - 1)) 10 1); rewrite <- Gu; reflexivity).
  specialize (Ea 0%nat). specialize (Ec 0%nat). specialize (EP 0%nat).
  cbn [links_of l_dx l_n l_Q l_Qp l_A l_R l_B l_So l_Ac l_C l_ctrl l_start l_end l_sf d_net drop drop_net n_damp n_dx n_n n_So n_Ac n_C n_ctrl
       n_lstart n_lend n_sf] in Ea, Ec, EP, Eb.
  unfold u_Ik, u_Ip1k, damping in Ea, Ec, EP, Eb. rewrite ?GA, ?GR, ?GB in Ea, Ec, EP, Eb, HWl, Z0.
  unfold node_width in EE0, ED0, EE1, ED1.
  cbn [d_net drop drop_net n_isS n_isE n_dx n_fwdi n_bwdi n_kI n_dxu n_dxd n_ASI Nat.eqb i_Q0 drop_inputs] in EE0, ED0, EE1, ED1.
  rewrite GB in EE0, ED0, EE1, ED1. rewrite GU in EE0, ED0. unfold zeros in ED0, ED1.
  rewrite Ea, Ec in Eb, HWl. rewrite Ea, Ec in O0.
  unfold drop_flow. cbv zeta. exists (mb (u_m u) 0%nat).
  destruct HWl as (_ & Ha & _ & Ho).
  rewrite GR in Eb. split; [exact Eb|]. split; [exact Ha|]. split; [exact Ho|].
  unfold Y_Nk in Y0. unfold Z_Nk in Z0. rewrite O0 in Y0, Z0. unfold O_nk in Y0, Z0.
  rewrite safe_divide_nz in Y0, Z0 by lra. rewrite Y0, Z0, EP, Ea, Ec, ED0, ED1, EE1.
  set (a := a_ik _ _) in *. set (c := c_ik _ _) in *. set (P := P_ik _ _ _ _ _ _). field. lra.
Qed.

Lemma drop_watered st : (h_h st 0%nat = 1/1000 /\ h_h st 1%nat = 2) -> watered drop st.
Proof. intros [E0 E1] i Hi. simpl in Hi. assert (i = 0%nat) by lia. subst i. cbn [d_Ik drop Nat.add]. rewrite E0, E1. lra. Qed.

(** C41, refuted: on a sound design, an admissible step, then another one, is not what one gets after rolling the second
    one back and repeating it: the upstream flow differs, for every linear solver and every time step.  (The indicators
    of submerged ends are attributes of the object, read by the geometry of the ends, but not part of the saved state.) *)
Theorem C41_replay_refuted : forall slv dt, solver 2 slv -> 0 < dt ->
  sound drop /\ admissible drop drop_inputs dt /\ constructed drop drop_object /\
  exists m m',
    perform_all drop slv [Step drop_inputs dt 1 0; Step drop_inputs dt 1 0] drop_object = Some m /\
    perform_all drop slv [Step drop_inputs dt 1 0; Step drop_inputs dt 1 0; Restore; Step drop_inputs dt 1 0] drop_object = Some m' /\
    m_t m = m_t m' /\ h_Qu (b_st (m_body m')) 0%nat < h_Qu (b_st (m_body m)) 0%nat.
Proof.
  intros slv dt Hs Hdt. split; [exact drop_sound|].
  assert (Ad : admissible drop drop_inputs dt) by (split; auto; split; simpl; intros; lia).
  assert (W0 : watered drop drop_state) by (intros i Hi; simpl; lra).
  split; [exact Ad|]. split; [split; [reflexivity|split; exact W0]|].
  assert (H0 : healthy drop drop_object) by (split; [exact W0|split; [constructor|exact W0]]).
  destruct (object_step_total drop slv drop_sound Hs drop_inputs dt 1 0 drop_object Ad H0) as ([m1 p1] & E1 & H1 & _).
  cbn [fst] in H1.
  destruct (object_step_total drop slv drop_sound Hs drop_inputs dt 1 0 m1 Ad H1) as ([m2 p2] & E2 & H2 & _). cbn [fst] in H2.
  destruct (object_load_total drop drop_sound (m_saved m2) m2) as (m3 & E3 & H3); [apply H2|auto|].
  destruct (object_step_total drop slv drop_sound Hs drop_inputs dt 1 0 m3 Ad H3) as ([m4 p4] & E4 & H4 & _). cbn [fst] in H4.
  exists m2, m4. cbn [perform_all perform]. rewrite E1. cbn [bind fst]. rewrite E2. cbn [bind fst]. rewrite E3. cbn [bind]. rewrite E4. cbn [bind fst].
  split; auto. split; auto.
  destruct (one_pass _ _ _ _ _ _ _ _ E1) as (b1 & S1 & V1 & _ & _).
  destruct (one_pass _ _ _ _ _ _ _ _ E2) as (b2 & S2 & V2 & T2 & Sv2).
  destruct (one_pass _ _ _ _ _ _ _ _ E4) as (b4 & S4 & V4 & T4 & _).
  destruct H1 as (W1 & R1 & _). destruct H2 as (W2 & R2 & _). destruct H3 as (W3 & R3 & _).
  destruct (drop_pass slv dt (m_body drop_object) _ _ Hs Hdt W0 (proj1 (proj2 H0)) ltac:(simpl; lra) S1 V1) as (P1 & P2 & P3 & P4 & P5 & P6 & _).
  destruct (drop_pass slv dt _ _ _ Hs Hdt W1 R1 ltac:(lra) S2 V2) as (Q1 & Q2 & Q3 & Q4 & Q5 & Q6 & F2).
  unfold object_load, load_state in E3. rewrite Sv2 in E3. cbn [fst snd] in E3. unfold load_body in E3.
  destruct (geometries drop (restore drop (save_body (m_body m1)) (m_body m2))) as [b3|] eqn:E3'; [|discriminate]. cbn [bind] in E3.
  injection E3 as <-. destruct (geometries_inv _ _ _ E3') as (_ & _ & _ & _ & Es & _ & _ & _ & _ & _ & Et & _). cbn [m_body m_t] in *.
  cbn [restore b_st b_thu save_body v_st] in Es, Et.
  split; [lra|].
  destruct (drop_pass slv dt _ _ _ Hs Hdt W3 R3 ltac:(rewrite Es; lra) S4 V4) as (_ & _ & _ & _ & _ & _ & F4).
  rewrite Es, Et in F4. specialize (F2 ltac:(lra)). specialize (F4 ltac:(lra)).
  refine (drop_flow_differs (b_st (m_body m1)) dt _ _ _ _ Hdt ltac:(lra) _ F2 F4).
  rewrite P3, P1, P5, Q5, P1. unfold above. cbn [drop_object body0 m_body b_st drop_state h_H].
  destruct (Rleb_spec 1 3); [|lra]. destruct (Rleb_spec 1 (1/2)); [lra|].
  assert (Fa : floor0 (mid (1/1000) (1 * (1/2 - 1))) = 0) by (unfold floor0, mid; dR; lra).
  assert (Fb : floor0 (mid (1/1000) (0 * (1/2 - 1))) = 1/2000) by (unfold floor0, mid; dR; lra).
  unfold Triangular_B_ik. rewrite Fa, Fb. dR; lra.
Qed.
