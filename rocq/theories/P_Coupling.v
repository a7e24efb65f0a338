(** Property C61: what the water-quality model reads from the hydraulic model, and coupled runs. *)
From Coq Require Import ZArith.
From Verif Require Import Prelude M_Numerics M_Coeffs M_Recurrence M_Assembly M_Step M_Geometry M_Storage M_Controls M_Simulation M_Model M_Quality M_Coupling
  S_Numerics S_Geometry S_Superlink S_Network S_Step S_Controls S_Simulation S_Model S_Object S_Quality S_Coupling
  L_Assembly L_Forward L_Backward L_Coeffs L_Boundary L_Step P_Assembly P_Superlink P_Step
  P_Limits P_Wellposed P_Controls P_Simulation L_Model L_Gauss P_Model P_Replay P_Object L_QualityNet P_Quality.

Section Coupling.
Variable D : design.
Variable slv : mat -> arr -> option arr.
Local Notation N := (d_net D).
Hypothesis HD : sound D.
Hypothesis Hslv : solver (n_M N) slv.

Lemma import_inv dt m F : import_flow D dt m = Some F ->
  let b := m_body m in let st := b_st b in let sv := v_st (snd (m_saved m)) in
  (0 < n_L N)%nat /\ exists a e,
  (forall i, (i < n_L N)%nat -> link_area (code_of (d_sec D 0)) (dim_of (d_sec D i)) (gm_B (b_gl b i)) (h_h st (d_Ik D i)) (h_h st (d_Ik D i + 1)%nat) = Some (a i)) /\
  (forall k, (k < n_K N)%nat -> end_import D b sv dt k = Some (e k)) /\
  F = mkFlowIn (face_up D b sv dt) (face_dn D b sv dt) a (fun i => gm_A (b_gl b i))
                 (fun k => ei_Quu (e k)) (fun k => ei_Qud (e k)) (fun k => ei_Au (e k)) (fun k => ei_Aup (e k))
                 (fun k => ei_Qdu (e k)) (fun k => ei_Qdd (e k)) (fun k => ei_Ad (e k)) (fun k => ei_Adp (e k))
                 (h_h st) (h_h sv)
                 (fun j => b_As b j * (h_H st j - n_zj N j)) (fun j => b_As b j * (h_H sv j - n_zj N j))
                 (b_Qo b) (b_Qw b) (b_Qp b).
Proof.
  unfold import_flow. intros E. destruct (Nat.eqb_spec (n_L N) 0); [discriminate|]. split; [lia|].
  destruct (all_entries (n_L N) _ _) as [a|] eqn:Ea; [|discriminate]. cbn [bind] in E.
  destruct (all_entries (n_K N) _ _) as [e|] eqn:Ee; [|discriminate]. cbn [bind] in E. injection E as <-.
  exists a, e. split; [exact (all_entries_spec _ _ _ _ Ea)|]. split; [exact (all_entries_spec _ _ _ _ Ee)|]. reflexivity.
Qed.

(** Flows at the two sides of the end pieces. *)
Lemma end_import_flows b sv dt k e : end_import D b sv dt k = Some e -> dt <> 0 /\ let st := b_st b in
  ei_Quu e = h_Qu st k + / 2 * gm_B (b_gu b k) * n_dxu N k * (h_H st (n_Ju N k) - h_H sv (n_Ju N k)) / dt /\
  ei_Qud e = h_Qu st k - / 2 * gm_B (b_gu b k) * n_dxu N k * (h_h st (n_I1 N k) - h_h sv (n_I1 N k)) / dt /\
  ei_Qdu e = h_Qd st k + / 2 * gm_B (b_gd b k) * n_dxd N k * (h_h st (n_I1 N k + n_nk N k)%nat - h_h sv (n_I1 N k + n_nk N k)%nat) / dt /\
  ei_Qdd e = h_Qd st k - / 2 * gm_B (b_gd b k) * n_dxd N k * (h_H st (n_Jd N k) - h_H sv (n_Jd N k)) / dt.
Proof.
  unfold end_import, div. intros E. destruct (Reqb_spec dt 0); [discriminate|]. split; [assumption|]. cbn [bind] in E.
  destruct (end_area _ _ _ _); [|discriminate]. cbn [bind] in E. destruct (end_area _ _ _ _); [|discriminate]. cbn [bind] in E.
  destruct (end_area _ _ _ _); [|discriminate]. cbn [bind] in E. destruct (end_area _ _ _ _); [|discriminate]. cbn [bind] in E.
  injection E as <-. cbn. auto.
Qed.
(** Areas of the end pieces of open channels. *)
Lemma end_import_areas b sv dt k e : end_import D b sv dt k = Some e -> code_of (d_sec D 0) = 3%nat -> let st := b_st b in
  ei_Au e = gm_B (b_gu b k) * / 2 * (h_H st (n_Ju N k) - n_zj N (n_Ju N k) + h_h st (n_I1 N k)) /\
  ei_Aup e = gm_B (b_gu b k) * / 2 * (h_H sv (n_Ju N k) - n_zj N (n_Ju N k) + h_h sv (n_I1 N k)) /\
  ei_Ad e = gm_B (b_gd b k) * / 2 * (h_H st (n_Jd N k) - n_zj N (n_Jd N k) + h_h st (n_I1 N k + n_nk N k)%nat) /\
  ei_Adp e = gm_B (b_gd b k) * / 2 * (h_H sv (n_Jd N k) - n_zj N (n_Jd N k) + h_h sv (n_I1 N k + n_nk N k)%nat).
Proof.
  unfold end_import, div. intros E C. rewrite C in E. unfold end_area in E. destruct (Reqb_spec dt 0); [discriminate|]. cbn [bind] in E.
  injection E as <-. cbn. auto.
Qed.

(** The geometry the object holds after a pass is the one the pass computed. *)
Lemma pass_geometry i dt sv b b1 b2 bg : setup_body D i dt sv b = Some b1 -> solve_body D slv i dt b1 = Some b2 -> geometries D b = Some bg ->
  b_gl b2 = b_gl bg /\ b_gu b2 = b_gu bg /\ b_gd b2 = b_gd bg /\ b_As b2 = b_As bg.
Proof.
  intros E1 E2 Eg. destruct (setup_body_inv _ _ _ _ _ _ E1) as (bg' & Vs & Ao & u & Eg' & _ & _ & _ & Eb).
  rewrite Eg in Eg'. injection Eg' as <-. unfold controls_of in Eb. subst b1. unfold solve_body in E2.
  destruct (slv _ _); [|discriminate]. cbn [bind] in E2. injection E2 as <-. cbn. auto.
Qed.

(** Continuity of every internal junction, in terms of the imported face flows. *)
Lemma junction_faces i dt sv b b1 b2 : admissible D i dt -> watered D (b_st b) -> reached D (b_sys b) ->
  setup_body D i dt sv b = Some b1 -> solve_body D slv i dt b1 = Some b2 ->
  n_end_o N = false -> links_join D -> depths_inside N (b_cf b2) (b_st b2) ->
  forall e, (forall k, (k < n_K N)%nat -> end_import D b2 sv dt k = Some (e k)) ->
  forall k j, (k < n_K N)%nat -> (j <= n_nk N k)%nat ->
  let I := (n_I1 N k + j)%nat in
  (n_ASI N I * h_h (b_st b2) I - n_ASI N I * h_h sv I) / dt
  = i_Q0 i I + along (n_nk N k) (n_i1 N k) (fun k => ei_Qud (e k)) (face_dn D b2 sv dt) (fun k => ei_Qdd (e k)) k j
    - along (n_nk N k) (n_i1 N k) (fun k => ei_Quu (e k)) (face_up D b2 sv dt) (fun k => ei_Qdu (e k)) k (j + 1).
Proof.
  intros Ha W Rc E1 E2 He Hl Hd e Ee k j Hk Hj I.
  destruct (pass_facts D slv HD Hslv _ _ _ _ _ _ Ha W Rc E1 E2) as (bg & Vs & Ao & u & Hs & Eg & Wt & _ & _ & EO & Eu & F). unfold controls_of in F.
  destruct F as (_ & _ & _ & _ & Est & Ecf & _).
  destruct (pass_geometry _ _ _ _ _ _ _ E1 E2 Eg) as (Gl & Gu & Gd & _).
  rewrite Ecf in Hd. pose proof Hd as Hd'. rewrite Est in Hd'.
  pose proof (proj1 (reported_solution N (geometry_of bg) _ (b_st b) sv (i_Q0 i) dt u Hs (sd_wf _ HD) Wt (proj1 Ha) (or_introl (sd_z _ HD)) He Eu Hd' k Hk)) as SS.
  cbv zeta in SS. rewrite <- Est in SS. destruct SS as [_ HC]. specialize (HC j Hj).
  pose proof (setup_facts_ok _ _ _ _ _ _ _ _ Eu) as [_ Fn _ _ _ _].
  destruct (wf_range _ (sd_wf _ HD) k Hk) as [R1 R2].
  destruct (node_coeffs_entries _ _ _ _ _ _ _ _ _ _ _ _ _ _ _ _ _ _ _ _ Fn I ltac:(unfold I; lia)) as [EE ED].
  fold I in HC. rewrite EE, ED in HC.
  destruct (wf_chain _ (sd_wf _ HD) k j Hk Hj) as (CkI & CS & CE & Cf & Cb). fold I in CkI, CS, CE, Cf, Cb.
  pose proof (proj1 (wf_layout _ (sd_wf _ HD)) k Hk) as Hn.
  destruct (end_import_flows _ _ _ _ _ (Ee k Hk)) as (Hdt & Q1 & Q2 & Q3 & Q4).
  unfold node_width in HC. rewrite CS, CE, CkI in HC. cbn [geometry_of g_B g_Bu g_Bd] in HC. rewrite <- Gl, <- Gu, <- Gd in HC.
  unfold local_flows in HC. unfold along. revert HC. destruct (Nat.eqb_spec (j + 1) 0); [lia|].
  replace (n_i1 N k + (j + 1) - 1)%nat with (n_i1 N k + j)%nat in * by lia.
  destruct (Nat.eqb_spec j 0) as [J0|J0]; intros HC.
  - revert HC. subst j. replace (n_I1 N k + 0)%nat with (n_I1 N k) in I by lia. fold I in Q2. rewrite Q2.
    destruct (Nat.leb_spec (0 + 1) (n_nk N k)); [|lia]. intros HC. rewrite Cf in HC by lia.
    unfold face_up. rewrite (Hl k 0%nat Hk ltac:(lia)). replace (n_I1 N k + 0)%nat with I in * by (unfold I; lia).
    replace (n_i1 N k + 0)%nat with (n_i1 N k) in * by lia. replace (n_I1 N k) with I by (unfold I; lia). clear - HC. unfold Rdiv in *. lra.
  - revert HC. destruct (Nat.leb_spec j (n_nk N k)); [|lia]. unfold face_dn.
    pose proof (Hl k (j - 1)%nat Hk ltac:(lia)) as Hj1. replace (n_i1 N k + (j - 1))%nat with (n_i1 N k + j - 1)%nat in Hj1 by lia.
    rewrite Hj1. replace (n_I1 N k + (j - 1) + 1)%nat with I by (unfold I; lia).
    destruct (Nat.eqb_spec j (n_nk N k)) as [Jn|Jn].
    + destruct (Nat.leb_spec (j + 1) (n_nk N k)); [lia|]. intros HC. fold I in HC. rewrite Cb in HC by lia. rewrite Q3. rewrite <- Jn. fold I.
      clear - HC. unfold Rdiv in *. lra.
    + destruct (Nat.leb_spec (j + 1) (n_nk N k)); [|lia]. intros HC. fold I in HC. rewrite Cf in HC by lia. unfold face_up. rewrite (Hl k j Hk ltac:(lia)). fold I.
      clear - HC. unfold Rdiv in *. lra.
Qed.

(** Balance of a superjunction, in terms of the imported face flows. *)
Lemma superjunction_faces i dt sv b b1 b2 : admissible D i dt -> watered D (b_st b) -> reached D (b_sys b) ->
  setup_body D i dt sv b = Some b1 -> solve_body D slv i dt b1 = Some b2 -> heads_free N (b_st b2) -> ends_covered N (b_st b) ->
  forall e, (forall k, (k < n_K N)%nat -> end_import D b2 sv dt k = Some (e k)) ->
  exists Ao, forall j, (j < n_M N)%nat -> n_bc N j = false ->
  let H := h_H (b_st b2) in
  (b_As b2 j * (H j - n_zj N j) - b_As b2 j * (h_H sv j - n_zj N j)) / dt
  = i_Qin i j + sum_if (fun k => Nat.eqb (n_Jd N k) j) (fun k => ei_Qdd (e k)) (n_K N)
    - sum_if (fun k => Nat.eqb (n_Ju N k) j) (fun k => ei_Quu (e k)) (n_K N)
    + net_inflow (control_elements (orifice_controls (with_areas D Ao) (b_Qo b) (i_uo i) (h_H (b_st b)) (n_zj N))) H j
    + net_inflow (control_elements (weir_controls (d_we D) (b_Qw b) (i_uw i) (h_H (b_st b)) (n_zj N))) H j
    + net_inflow (control_elements (pump_controls (d_pu D) (b_Qp b) (i_up i) (h_H (b_st b)) (n_zj N))) H j.
Proof.
  intros Ha W Rc E1 E2 Hf Hc e Ee.
  destruct (pass_balance D slv HD Hslv _ _ _ _ _ _ Ha W Rc E1 E2 Hf) as (bg & Ao & Eg & _ & B).
  destruct (pass_geometry _ _ _ _ _ _ _ E1 E2 Eg) as (_ & Gu & Gd & GA).
  exists Ao. intros j Hj Hb H. specialize (B j Hj Hb). cbv zeta in B. fold H in B.
  set (no := net_inflow _ H j) in *. set (nw := net_inflow _ H j) in *. set (np := net_inflow _ H j) in *.
  set (x := (H j - h_H sv j) / dt).
  assert (Ed : sum_if (fun k => Nat.eqb (n_Jd N k) j) (fun k => ei_Qdd (e k)) (n_K N)
               = sum_if (fun k => Nat.eqb (n_Jd N k) j) (h_Qd (b_st b2)) (n_K N)
                 - sum_if (fun k => Nat.eqb (n_Jd N k) j) (fun k => n_dxd N k * gm_B (b_gd b2 k) / 2) (n_K N) * x).
  { rewrite <- sum_if_scal_r. unfold Rminus. rewrite <- sum_if_opp, <- sum_if_plus. apply sum_if_ext. intros k Hk. split; [reflexivity|].
    intros Ej. apply Nat.eqb_eq in Ej. destruct (end_import_flows _ _ _ _ _ (Ee k Hk)) as (_ & _ & _ & _ & ->). rewrite Ej. fold H.
    unfold x, Rdiv. ring. }
  assert (Eu : sum_if (fun k => Nat.eqb (n_Ju N k) j) (fun k => ei_Quu (e k)) (n_K N)
               = sum_if (fun k => Nat.eqb (n_Ju N k) j) (h_Qu (b_st b2)) (n_K N)
                 + sum_if (fun k => Nat.eqb (n_Ju N k) j) (fun k => n_dxu N k * gm_B (b_gu b2 k) / 2) (n_K N) * x).
  { rewrite <- sum_if_scal_r. rewrite <- sum_if_plus. apply sum_if_ext. intros k Hk. split; [reflexivity|].
    intros Ej. apply Nat.eqb_eq in Ej. destruct (end_import_flows _ _ _ _ _ (Ee k Hk)) as (_ & -> & _). rewrite Ej. fold H.
    unfold x, Rdiv. ring. }
  assert (ES : junction_surface N (geometry_of bg) (h_H (b_st b)) j
               = b_As b2 j + sum_if (fun k => Nat.eqb (n_Ju N k) j) (fun k => n_dxu N k * gm_B (b_gu b2 k) / 2) (n_K N)
                 + sum_if (fun k => Nat.eqb (n_Jd N k) j) (fun k => n_dxd N k * gm_B (b_gd b2 k) / 2) (n_K N)).
  { unfold junction_surface, attached_area. cbn [geometry_of g_Asj g_Bu g_Bd]. rewrite GA, Gu, Gd.
    f_equal; [f_equal|]; apply sum_if_ext; intros k Hk; (split; [reflexivity|]); intros _; destruct (Hc k Hk) as [C1 C2]; unfold above.
    - destruct (Rleb_spec (n_zu N k) (h_H (b_st b) (n_Ju N k))); [|lra]. unfold Rdiv. ring.
    - destruct (Rleb_spec (n_zd N k) (h_H (b_st b) (n_Jd N k))); [|lra]. unfold Rdiv. ring. }
  rewrite ES in B. rewrite Ed, Eu. clear - B. unfold x, Rdiv in *. lra.
Qed.

(** Open rectangular channels: width constant, area proportional to the depth below the top of the walls. *)
Lemma open_width c h0 h1 old gm s : c = Regular s -> shape s = 3%nat -> section_geometry c h0 h1 old = Some gm -> gm_B gm = g2 s.
Proof. intros -> Sh. unfold section_geometry, hydraulic_geometry. rewrite Sh. intros [= <-]. reflexivity. Qed.
Lemma open_area c h0 h1 old gm s : c = Regular s -> shape s = 3%nat -> section_geometry c h0 h1 old = Some gm ->
  0 <= h0 + h1 -> (h0 + h1) / 2 <= g1 s -> gm_A gm = g2 s * (h0 + h1) / 2.
Proof.
  intros -> Sh. unfold section_geometry, hydraulic_geometry. rewrite Sh. intros [= <-] H1 H2. cbn.
  unfold Rect_Open_A_ik, cap, floor0, mid.
  destruct (Rltb_spec ((h0 + h1) / 2) 0); [lra|]. destruct (Rltb_spec (g1 s) ((h0 + h1) / 2)); lra.
Qed.

(** A step that took one pass. *)
Lemma one_pass i dt n tol (m m' : object) : admissible D i dt -> healthy D m -> object_step D slv i dt n tol m = Some (m', 1%nat) ->
  exists b1, setup_body D i dt (b_st (m_body m)) (m_body m) = Some b1 /\ solve_body D slv i dt b1 = Some (m_body m') /\
    m_saved m' = (m_t m, save_body (m_body m)) /\ watered D (b_st (m_body m')).
Proof.
  intros Ha Hm E.
  destruct (step_last D slv HD Hslv (fun _ => True) i dt n tol m m' 1 Ha Hm I) as (mb & Bl & b1 & _ & _ & _ & E1 & E2 & _ & W & _ & Sv); auto.
  destruct Bl as [[_ ->]|(q & Q1 & Q2 & _)]; [|lia]. exists b1. auto.
Qed.

Lemma head_of_open : open_channels D -> (0 < n_L N)%nat -> code_of (d_sec D 0) = 3%nat.
Proof. intros Ho HL. destruct (Ho 0%nat HL) as (s & -> & Sh). exact Sh. Qed.


(** Data imported after a one-pass step on open channels in which no limit is active: volume is conserved. *)
Lemma import_conserves i dt n tol (m m' : object) F P : admissible D i dt -> healthy D m ->
  object_step D slv i dt n tol m = Some (m', 1%nat) -> import_flow D dt m' = Some F ->
  n_end_o N = false -> open_channels D -> links_join D -> uncontrolled D -> undisturbed D m m' ->
  (forall j, (j < n_M N)%nat -> n_bc N j = true -> p_bc P j = true) ->
  network_conserves N P (orifices_of D) (weirs_of D) (pumps_of D) F (i_Qin i) (i_Q0 i) dt.
Proof.
  intros Ha Hm E EF He Ho Hl (C1 & C2 & C3) [Uw Ue Uh Ud] Hbc.
  destruct (one_pass _ _ _ _ _ _ Ha Hm E) as (b1 & E1 & E2 & Sv & W').
  destruct (import_inv _ _ _ EF) as (HL & a & e & Ea & Ee & ->). rewrite Sv in Ee |- *. cbn [snd v_st save_body] in Ea, Ee |- *.
  destruct Hm as (W & Rc & _). pose proof (head_of_open Ho HL) as Code.
  destruct (pass_facts D slv HD Hslv _ _ _ _ _ _ Ha W Rc E1 E2) as (bg & _ & _ & _ & _ & Eg & _).
  destruct (pass_geometry _ _ _ _ _ _ _ E1 E2 Eg) as (Gl & _). pose proof (geometries_at D _ _ Eg) as [GL _ _ _].
  cbn [geometry_of g_A g_B] in GL. rewrite <- Gl in GL.
  assert (Hdt : dt <> 0) by (destruct Ha; lra).
  constructor.
  - intros k Hk c c_0I. pose proof (junction_faces i dt _ _ _ _ Ha W Rc E1 E2 He Hl Ud e Ee) as JF.
    destruct (wf_range _ (sd_wf _ HD) k Hk) as [R1 R2].
    split; cbn; [|intros j Hj; exact (JF k j Hk Hj)].
    intros j Hj. unfold along. destruct (Nat.eqb_spec j 0) as [J0|J0].
    + destruct (end_import_flows _ _ _ _ _ (Ee k Hk)) as (_ & -> & -> & _).
      destruct (end_import_areas _ _ _ _ _ (Ee k Hk) Code) as (-> & -> & _). unfold Rdiv. ring.
    + destruct (Nat.leb_spec j (n_nk N k)).
      * set (l := (n_i1 N k + j - 1)%nat). assert (Hll : (l < n_L N)%nat) by (unfold l; lia).
        destruct (Ho l Hll) as (s & Es & Sh). destruct (GL l Hll) as (old & gm & Egm & EA & _ & EB).
        specialize (Ea l Hll). rewrite Code in Ea. cbn in Ea. injection Ea as <-.
        unfold face_up, face_dn. rewrite EA, EB.
        rewrite (open_width _ _ _ _ _ _ Es Sh Egm).
        rewrite (open_area _ _ _ _ _ _ Es Sh Egm); [|specialize (W l Hll); lra|exact (Uw l s Hll Es)].
        unfold Rdiv. field. exact Hdt.
      * destruct (end_import_flows _ _ _ _ _ (Ee k Hk)) as (_ & _ & _ & -> & ->).
        destruct (end_import_areas _ _ _ _ _ (Ee k Hk) Code) as (_ & _ & -> & ->). unfold Rdiv. ring.
  - intros j Hj Hb.
    assert (Nb : n_bc N j = false) by (destruct (n_bc N j) eqn:B; [rewrite (Hbc j Hj B) in Hb; discriminate|reflexivity]).
    destruct (superjunction_faces i dt _ _ _ _ Ha W Rc E1 E2 Uh Ue e Ee) as (Ao & B). specialize (B j Hj Nb).
    unfold superjunction_conserves. cbn [f_V f_Vp f_Qdd f_Quu f_Qo f_Qw f_Qp].
    refine (eq_trans B _). unfold net_inflow, controls_flow.
    cbn [control_elements e_n e_Ju e_Jd e_in e_out orifice_controls weir_controls pump_controls from_coeffs c_n c_Ju c_Jd with_areas o_n o_Ju o_Jd
         orifices_of weirs_of pumps_of t_n t_Ju t_Jd].
    rewrite C1, C2, C3, !sum_if_O. reflexivity.
Qed.

(** ... and the network is wet. *)
Lemma import_wet i dt n tol (m m' : object) F P : admissible D i dt -> healthy D m ->
  object_step D slv i dt n tol m = Some (m', 1%nat) -> import_flow D dt m' = Some F ->
  open_channels D -> undisturbed D m m' -> mixing N P ->
  (forall j, (j < n_M N)%nat -> 0 <= i_Qin i j) -> (forall I, (I < n_J N)%nat -> 0 <= i_Q0 i I) ->
  network_wet N P F (i_Qin i) (i_Q0 i).
Proof.
  intros Ha Hm E EF Ho [_ _ Uh _] [Mu Mi MI Mj _] Q1 Q2.
  destruct (one_pass _ _ _ _ _ _ Ha Hm E) as (b1 & E1 & E2 & Sv & W').
  destruct (import_inv _ _ _ EF) as (HL & a & e & Ea & Ee & ->). rewrite Sv in Ee |- *. cbn [snd v_st save_body] in Ea, Ee |- *.
  destruct Hm as (W & Rc & _). pose proof (head_of_open Ho HL) as Code.
  destruct (pass_facts D slv HD Hslv _ _ _ _ _ _ Ha W Rc E1 E2) as (bg & Vs & Ao & u & Hs & Eg & Wt & PA & _ & _ & Eu & F). unfold controls_of in F.
  destruct F as (_ & _ & _ & _ & Est & _).
  destruct (pass_geometry _ _ _ _ _ _ _ E1 E2 Eg) as (Gl & Gu & Gd & GA). pose proof (geometries_at D _ _ Eg) as [GL GU GD _].
  cbn [geometry_of g_A g_B g_Bu g_Bd] in GL, GU, GD. rewrite <- Gl in GL. rewrite <- Gu in GU. rewrite <- Gd in GD.
  assert (Dp : forall I, 0 < h_h (b_st (m_body m')) I).
  { intros I. rewrite Est. pose proof (wl_depths _ _ (solve_step_within N u (b_st (m_body m)) Hs (wf_layout _ (sd_wf _ HD))) I).
    pose proof (sd_min _ HD). lra. }
  assert (Wd : forall l s, (l < n_L N)%nat -> d_sec D l = Regular s -> shape s = 3%nat -> 0 < g2 s).
  { intros l s Hll Es Sh. destruct (sd_links _ HD l Hll) as (Cv & _). rewrite Es in Cv. cbn in Cv. rewrite Sh in Cv. tauto. }
  constructor.
  - intros k Hk c c_0I. destruct (wf_range _ (sd_wf _ HD) k Hk) as [R1 R2].
    pose proof (proj1 (wf_layout _ (sd_wf _ HD)) k Hk) as Hn. destruct (Mu k Hk) as (D1 & D2 & X1 & X2).
    destruct (wf_ends _ (sd_wf _ HD) k Hk) as [J1 J2].
    assert (Diff : chain_diffuses (superlink_chain N P (mkFlowIn (face_up D (m_body m') (b_st (m_body m)) dt) (face_dn D (m_body m') (b_st (m_body m)) dt) a (fun i => gm_A (b_gl (m_body m') i))
                 (fun k => ei_Quu (e k)) (fun k => ei_Qud (e k)) (fun k => ei_Au (e k)) (fun k => ei_Aup (e k))
                 (fun k => ei_Qdu (e k)) (fun k => ei_Qdd (e k)) (fun k => ei_Ad (e k)) (fun k => ei_Adp (e k))
                 (h_h (b_st (m_body m'))) (h_h (b_st (m_body m)))
                 (fun j => b_As (m_body m') j * (h_H (b_st (m_body m')) j - n_zj N j)) (fun j => b_As (m_body m') j * (h_H (b_st (m_body m)) j - n_zj N j))
                 (b_Qo (m_body m')) (b_Qw (m_body m')) (b_Qp (m_body m'))) c c_0I (i_Q0 i) k)).
    { intros j Hj. cbn in Hj |- *. unfold along. destruct (Nat.eqb_spec j 0); [exact D1|]. destruct (Nat.leb_spec j (n_nk N k)); [|exact D2].
      apply Mi. lia. }
    split; [|exact Diff]. split; [|split].
    + intros j Hj. pose proof (Diff j Hj) as Dj. cbn in Hj, Dj |- *. unfold along in Dj |- *. destruct (Nat.eqb_spec j 0).
      * destruct (end_import_areas _ _ _ _ _ (Ee k Hk) Code) as (-> & _).
        destruct (GU k Hk) as (old & gm & Egm & _ & _ & EB). rewrite EB.
        destruct (Ho (n_i1 N k) ltac:(lia)) as (s & Es & Sh). rewrite (open_width _ _ _ _ _ _ Es Sh Egm).
        pose proof (Wd (n_i1 N k) s ltac:(lia) Es Sh). pose proof (Uh _ J1). pose proof (Dp (n_I1 N k)).
        repeat split; try lra. apply Rmult_lt_0_compat; lra.
      * destruct (Nat.leb_spec j (n_nk N k)).
        -- set (l := (n_i1 N k + j - 1)%nat) in *. assert (Hll : (l < n_L N)%nat) by (unfold l; lia).
           destruct (Ho l Hll) as (s & Es & Sh). destruct (GL l Hll) as (old & gm & Egm & _ & _ & EB).
           specialize (Ea l Hll). rewrite Code in Ea. cbn in Ea. injection Ea as <-. rewrite EB, (open_width _ _ _ _ _ _ Es Sh Egm).
           pose proof (Wd _ _ Hll Es Sh). destruct (sd_links _ HD l Hll) as (_ & Px & _). destruct (Mi l Hll).
           pose proof (Dp (d_Ik D l)). pose proof (Dp (d_Ik D l + 1)%nat). repeat split; try lra. apply Rmult_lt_0_compat; lra.
        -- destruct (end_import_areas _ _ _ _ _ (Ee k Hk) Code) as (_ & _ & -> & _).
           destruct (GD k Hk) as (old & gm & Egm & _ & _ & EB). rewrite EB.
           destruct (Ho (n_i1 N k + n_nk N k - 1)%nat ltac:(lia)) as (s & Es & Sh). rewrite (open_width _ _ _ _ _ _ Es Sh Egm).
           pose proof (Wd (n_i1 N k + n_nk N k - 1)%nat s ltac:(lia) Es Sh). pose proof (Uh _ J2). pose proof (Dp (n_I1 N k + n_nk N k)%nat).
           repeat split; try lra. apply Rmult_lt_0_compat; lra.
    + intros j Hj. cbn in Hj |- *. pose proof (Dp (n_I1 N k + j)%nat). pose proof (sd_nodes _ HD (n_I1 N k + j)%nat ltac:(lia)).
      pose proof (MI (n_I1 N k + j)%nat ltac:(lia)). pose proof (Q2 (n_I1 N k + j)%nat ltac:(lia)). repeat split; lra.
    + intros j Hj. left. apply Diff. cbn in Hj |- *. lia.
  - intros j Hj Hb. cbn [f_V]. rewrite GA. pose proof (PA j Hj). pose proof (Uh j Hj). split; [apply Rmult_lt_0_compat; lra|]. split; [now apply Mj|now apply Q1].
Qed.

(** C61: after any history and a step with any number of passes, for all cross-sections: if the step leaves heads and
    internal depths between their limits, the flows at the faces that the water-quality model derives balance at every
    internal junction; without controls, and with all superlink ends under water before the last pass (object [mb]), they
    also balance at every superjunction without prescribed head. *)
Theorem C61_imported_flows_balance_at_junctions : forall m history m1 i dt n tol m2 p F,
  constructed D m -> (forall a, In a history -> allowed D a) -> perform_all D slv history m = Some m1 ->
  admissible D i dt -> object_step D slv i dt n tol m1 = Some (m2, p) -> import_flow D dt m2 = Some F ->
  n_end_o N = false -> links_join D ->
  heads_free N (b_st (m_body m2)) -> depths_inside N (b_cf (m_body m2)) (b_st (m_body m2)) ->
  (forall P c c_0I k j, (k < n_K N)%nat -> (j <= n_nk N k)%nat ->
     let C := superlink_chain N P F c c_0I (i_Q0 i) k in
     (ch_AS C j * ch_h C j - ch_AS C j * ch_hp C j) / dt = i_Q0 i (n_I1 N k + j)%nat + ch_Qdn C j - ch_Qup C (j + 1)%nat) /\
  exists mb, before_last D slv i dt tol m1 p mb /\
  (uncontrolled D -> ends_covered N (b_st (m_body mb)) -> forall j, (j < n_M N)%nat -> n_bc N j = false ->
     superjunction_conserves N (orifices_of D) (weirs_of D) (pumps_of D) F (i_Qin i) dt j).
Proof.
  intros m history m1 i dt n tol m2 p F Hc Hall Eh Ha E EF He Hl Hf Hd.
  pose proof (healthy_history D slv HD Hslv _ _ _ Hc Hall Eh) as Hm.
  destruct (step_last D slv HD Hslv (fun _ => True) i dt n tol m1 m2 p Ha Hm I) as (mb & Bl & b1 & _ & W & Rc & E1 & E2 & _ & _ & _ & Sv); auto.
  destruct (import_inv _ _ _ EF) as (HL & a & e & Ea & Ee & ->). rewrite Sv in Ee |- *. cbn [snd] in E1, Ee |- *.
  split.
  - intros P c c_0I k j Hk Hj. exact (junction_faces i dt _ _ _ _ Ha W Rc E1 E2 He Hl Hd e Ee k j Hk Hj).
  - exists mb. split; [exact Bl|]. intros (C1 & C2 & C3) Hcv j Hj Hb.
    destruct (superjunction_faces i dt _ _ _ _ Ha W Rc E1 E2 Hf Hcv e Ee) as (Ao & B). specialize (B j Hj Hb).
    unfold superjunction_conserves. cbn [f_V f_Vp f_Qdd f_Quu f_Qo f_Qw f_Qp].
    refine (eq_trans B _). unfold net_inflow, controls_flow.
    cbn [control_elements e_n e_Ju e_Jd e_in e_out orifice_controls weir_controls pump_controls from_coeffs c_n c_Ju c_Jd with_areas o_n o_Ju o_Jd
         orifices_of weirs_of pumps_of t_n t_Ju t_Jd].
    rewrite C1, C2, C3, !sum_if_O. reflexivity.
Qed.

(** C61: on networks of open rectangular channels without controls, after any history, a step of one pass in which no
    limit is active hands the water-quality model data that conserve volume everywhere: along every link and end piece and
    at every junction. *)
Theorem C61_open_channels_conserve_volume : forall m history m1 i dt n tol m2 F P,
  constructed D m -> (forall a, In a history -> allowed D a) -> perform_all D slv history m = Some m1 ->
  admissible D i dt -> object_step D slv i dt n tol m1 = Some (m2, 1%nat) -> import_flow D dt m2 = Some F ->
  n_end_o N = false -> open_channels D -> links_join D -> uncontrolled D -> undisturbed D m1 m2 ->
  (forall j, (j < n_M N)%nat -> n_bc N j = true -> p_bc P j = true) ->
  network_conserves N P (orifices_of D) (weirs_of D) (pumps_of D) F (i_Qin i) (i_Q0 i) dt.
Proof.
  intros m history m1 i dt n tol m2 F P Hc Hall Eh Ha E EF He Ho Hl Hu Ud Hbc.
  exact (import_conserves i dt n tol m1 m2 F P Ha (healthy_history D slv HD Hslv _ _ _ Hc Hall Eh) E EF He Ho Hl Hu Ud Hbc).
Qed.

Lemma import_total dt m : (0 < n_L N)%nat -> open_channels D -> dt <> 0 -> exists F, import_flow D dt m = Some F.
Proof.
  intros HL Ho Hdt. pose proof (head_of_open Ho HL) as Code. unfold import_flow. destruct (Nat.eqb_spec (n_L N) 0); [lia|].
  destruct (all_entries_total (n_L N) zeros (fun i =>
            link_area (code_of (d_sec D 0)) (dim_of (d_sec D i)) (gm_B (b_gl (m_body m) i))
                      (h_h (b_st (m_body m)) (d_Ik D i)) (h_h (b_st (m_body m)) (d_Ik D i + 1)%nat))) as [a ->].
  { intros i Hi. rewrite Code. eexists. reflexivity. }
  cbn [bind].
  destruct (all_entries_total (n_K N) (fun _ => mkEndIn 0 0 0 0 0 0 0 0) (end_import D (m_body m) (v_st (snd (m_saved m))) dt)) as [e ->].
  { intros k Hk. unfold end_import, div. rewrite Code. destruct (Reqb_spec dt 0); [contradiction|]. eexists. reflexivity. }
  cbn [bind]. eexists. reflexivity.
Qed.

Lemma import_total_round dt m : (0 < n_L N)%nat -> code_of (d_sec D 0) = 1%nat -> (forall k, (k < n_K N)%nat -> dim_of (d_sec D k) <> 0) -> dt <> 0 ->
  exists F, import_flow D dt m = Some F.
Proof.
  intros HL Code Hd Hdt. unfold import_flow. destruct (Nat.eqb_spec (n_L N) 0); [lia|].
  destruct (all_entries_total (n_L N) zeros (fun i =>
            link_area (code_of (d_sec D 0)) (dim_of (d_sec D i)) (gm_B (b_gl (m_body m) i))
                      (h_h (b_st (m_body m)) (d_Ik D i)) (h_h (b_st (m_body m)) (d_Ik D i + 1)%nat))) as [a ->].
  { intros i Hi. rewrite Code. eexists. reflexivity. }
  cbn [bind].
  destruct (all_entries_total (n_K N) (fun _ => mkEndIn 0 0 0 0 0 0 0 0) (end_import D (m_body m) (v_st (snd (m_saved m))) dt)) as [e ->].
  { intros k Hk. specialize (Hd k Hk). unfold end_import. rewrite Code. unfold end_area, circle_area_scalar, div.
    destruct (Reqb_spec dt 0); [contradiction|]. destruct (Reqb_spec (dim_of (d_sec D k) / 2) 0); [lra|]. eexists. reflexivity. }
  cbn [bind]. eexists. reflexivity.
Qed.

Lemma single_pass i dt tol (m m' : object) p : object_step D slv i dt 1 tol m = Some (m', p) -> p = 1%nat.
Proof.
  unfold object_step, step. destruct (setup_step' _ _ _ _ _ _ _ _ _) as [m1|]; [|discriminate]. cbn [bind].
  destruct (solve_step' _ _ _ _ _ _ m1) as [m2|]; [|discriminate]. cbn. intros [= _ <-]. reflexivity.
Qed.

Lemma coupled_good i x dt tol m o m' o' P lo hi : admissible D i dt -> healthy D m ->
  n_end_o N = false -> open_channels D -> links_join D -> uncontrolled D -> mixing N P -> supply N P lo hi i x ->
  coupled_step D slv P i x dt 1 tol m o m' o' -> undisturbed D m m' ->
  healthy D m' /\ exists F, let q := quality_input i x dt F in
    good_input N P (orifices_of D) (weirs_of D) (pumps_of D) q /\ inputs_within N P lo hi (i_bc q) (i_0j q) (i_0I q) /\
    q_step N P (orifices_of D) (weirs_of D) (pumps_of D) q o o'.
Proof.
  intros Ha Hm He Ho Hl Hu Mx (S1 & S2 & S3) Hs Ud. destruct Hs as [m' p F o' E EF Q].
  pose proof (single_pass _ _ _ _ _ _ E). subst p.
  destruct (object_step_total D slv HD Hslv i dt 1 tol m Ha Hm) as ([r q] & E' & Hr & _). rewrite E in E'. injection E' as <- <-.
  split; [exact Hr|]. exists F. cbv zeta. split; [|split; [exact S3|exact Q]]. constructor.
  - apply Ha.
  - exact (import_wet i dt 1 tol m m' F P Ha Hm E EF Ho Ud Mx S1 S2).
  - exact (import_conserves i dt 1 tol m m' F P Ha Hm E EF He Ho Hl Hu Ud (mx_bc _ _ Mx)).
Qed.

Lemma ends_of_design : q_ends_in N (orifices_of D) (weirs_of D) (pumps_of D).
Proof. split; [apply (wf_ends _ (sd_wf _ HD))|]. split; [apply (sd_or _ HD)|]. split; [exact (sd_we _ HD)|apply (sd_pu _ HD)]. Qed.

(** C61: coupled runs on networks of open channels, any number of steps.  As long as no hydraulic limit is active, every
    concentration stays between the bounds of the initial, inflow and boundary concentrations, and the run can go on:
    the hydraulic step succeeds, and if it activates no limit, the water-quality step does.  With [lo = hi] and no
    reaction this says that a uniform concentration stays uniform. *)
Theorem C61_coupled_runs_keep_bounds : forall m c P l m1 o1 lo hi,
  constructed D m -> n_end_o N = false -> (0 < n_L N)%nat -> open_channels D -> links_join D -> uncontrolled D -> covered N -> mixing N P ->
  p_min P <= lo -> hi <= p_max P -> (lo <= 0 <= hi \/ no_reaction N P) -> within N lo hi c ->
  List.Forall (fun e => admissible D (fst (fst e)) (snd e) /\ supply N P lo hi (fst (fst e)) (snd (fst e))) l ->
  coupled_run D slv P (undisturbed D) l m (wq_fresh c) m1 o1 ->
  within N lo hi (ob_c o1) /\
  forall i x dt tol, admissible D i dt -> supply N P lo hi i x ->
  exists m2, object_step D slv i dt 1 tol m1 = Some (m2, 1%nat) /\
    (undisturbed D m1 m2 -> exists o2, coupled_step D slv P i x dt 1 tol m1 o1 m2 o2).
Proof.
  intros m c P l m1 o1 lo hi Hc He HL Ho Hl Hu HC Mx B1 B2 B3 Hw HF HR.
  pose proof ends_of_design as HE.
  assert (Hm : healthy D m) by (apply (healthy_history D slv HD Hslv m []); auto; intros a []).
  pose proof (fresh_clean_obj N P (orifices_of D) (weirs_of D) (pumps_of D) c) as Hcl.
  assert (Hw' : within N lo hi (ob_c (wq_fresh c))) by exact Hw.
  assert (G : healthy D m1 /\ obj_clean N P (orifices_of D) (weirs_of D) (pumps_of D) o1 /\ within N lo hi (ob_c o1)).
  { clear Hw Hc. induction HR as [m o|i x dt l tol m o m' o' m2 o2 Hs Ok HR IH]; auto.
    inversion HF as [|? ? [A1 A2] HF']; subst. cbn [fst snd] in A1, A2.
    destruct (coupled_good _ _ _ _ _ _ _ _ _ _ _ A1 Hm He Ho Hl Hu Mx A2 Hs Ok) as (Hm' & F & G1 & G2 & G3).
    apply IH; auto.
    - eapply step_clean; eauto.
    - destruct (step_main N P _ _ _ _ o o' lo hi (sd_wf _ HD) HE G1 Hcl G3 B1 B2 B3 G2 Hw') as [_ W]. exact W. }
  destruct G as (Hm1 & Hcl1 & Hw1). split; [exact Hw1|].
  intros i x dt tol Ha (S1 & S2 & S3).
  destruct (object_step_total D slv HD Hslv i dt 1 tol m1 Ha Hm1) as ([m2 p] & E & Hr & _).
  pose proof (single_pass _ _ _ _ _ _ E). subst p. exists m2. split; [exact E|]. intros Ok.
  destruct (import_total dt m2 HL Ho ltac:(destruct Ha; lra)) as [F EF].
  assert (Gi : good_input N P (orifices_of D) (weirs_of D) (pumps_of D) (quality_input i x dt F)).
  { constructor.
    - apply Ha.
    - exact (import_wet i dt 1 tol m1 m2 F P Ha Hm1 E EF Ho Ok Mx S1 S2).
    - exact (import_conserves i dt 1 tol m1 m2 F P Ha Hm1 E EF He Ho Hl Hu Ok (mx_bc _ _ Mx)). }
  destruct (step_exists N P _ _ _ _ o1 (sd_wf _ HD) HC HE Gi Hcl1) as [o2 Q].
  exists o2. econstructor; eauto.
Qed.

End Coupling.
