From Coq Require Import ZArith.
From Verif Require Import Prelude M_Numerics M_Coeffs M_Recurrence M_Assembly M_Step M_Geometry M_Storage M_Controls M_Simulation M_Model
  S_Numerics S_Geometry S_Superlink S_Network S_Step S_Simulation S_Model S_Replay S_Mirror L_Forward L_Backward L_Coeffs L_Assembly L_Step
  P_Assembly P_Superlink P_Wellposed P_Step P_Limits P_Controls P_Simulation L_Model P_Model P_Replay L_Relate P_Resume L_Mirror L_MirrorStep.

(** Sections depend on the mean depth only. *)
Lemma section_sym c h0 h1 old old' : conveying c -> section_geometry c h0 h1 old = section_geometry c h1 h0 old'.
Proof.
  intros Hc. rewrite (conveying_no_old c h0 h1 old old' Hc). clear Hc.
  assert (E : mid h0 h1 = mid h1 h0) by (unfold mid; f_equal; ring).
  destruct c as [s|zs As Bs Pes Rs]; unfold section_geometry.
  - unfold hydraulic_geometry, Circular_A_ik, Circular_Pe_ik, Circular_B_ik, Rect_Closed_A_ik, Rect_Closed_Pe_ik, Rect_Closed_B_ik,
      Rect_Open_A_ik, Rect_Open_Pe_ik, Rect_Open_B_ik, Triangular_A_ik, Triangular_Pe_ik, Triangular_B_ik, Trapezoidal_A_ik,
      Trapezoidal_Pe_ik, Trapezoidal_B_ik, Parabolic_A_ik, Parabolic_Pe_ik, Parabolic_B_ik, Elliptical_A_ik, Elliptical_B_ik,
      Wide_A_ik, Wide_Pe_ik, Wide_B_ik, Force_Main_A_ik, Force_Main_Pe_ik, Force_Main_B_ik, Floodplain_A_ik, Floodplain_Pe_ik, Floodplain_B_ik.
    rewrite !E. reflexivity.
  - replace ((h0 + h1) / 2) with ((h1 + h0) / 2) by (f_equal; ring). reflexivity.
Qed.

Section Object.
Variable rv : nat -> bool.
Variables D D' : design.
Local Notation N := (d_net D).
Local Notation N' := (d_net D').
Hypothesis HD : sound D.
Hypothesis HD' : sound D'.
Hypothesis HT : tabled D.
Hypothesis HM : mirrored_design rv D D'.
Let HN := md_net _ _ _ HM.

Record mirrored_body (b b' : body) : Prop := mkMB {
  by_st : mirrored_state rv N (b_st b) (b_st b');
  by_ct : same_controlled D (b_Qo b) (b_Qw b) (b_Qp b) (b_Qo b') (b_Qw b') (b_Qp b');
  by_thu : forall k, (k < n_K N)%nat -> b_thu b' k = pick (rv k) (b_thu b k) (b_thd b k);
  by_thd : forall k, (k < n_K N)%nat -> b_thd b' k = pick (rv k) (b_thd b k) (b_thu b k) }.

Lemma geometries_mirror b b' g g' : mirrored_body b b' -> geometries D b = Some g -> geometries D' b' = Some g' ->
  mirrored_geometry rv N (geometry_of g) (geometry_of g').
Proof.
  intros [Hst _ Hu Hd] E E'. destruct (geometries_inv D _ _ E) as (El & Eu & Ed & EA & _). destruct (geometries_inv D' _ _ E') as (El' & Eu' & Ed' & EA' & _).
  destruct Hst as [SH _ Sh _]. pose proof (sd_wf _ HD) as Wf. unfold mirrored_nodes in Sh.
  pose proof (all_entries_spec _ _ _ _ El) as Sl. pose proof (all_entries_spec _ _ _ _ El') as Sl'.
  pose proof (all_entries_spec _ _ _ _ Eu) as Su. pose proof (all_entries_spec _ _ _ _ Eu') as Su'.
  pose proof (all_entries_spec _ _ _ _ Ed) as Sd. pose proof (all_entries_spec _ _ _ _ Ed') as Sd'.
  pose proof (all_entries_spec _ _ _ _ EA) as SA. pose proof (all_entries_spec _ _ _ _ EA') as SA'. cbv beta zeta in *.
  assert (A1 : forall k j, (k < n_K N)%nat -> (j < n_nk N k)%nat ->
    b_gl g' (n_i1 N k + j)%nat = b_gl g (n_i1 N k + flip_link (rv k) (n_nk N k) j)%nat).
  { intros k j Hk Hj. destruct (wf_range _ Wf k Hk) as [R1 R2].
    assert (Hf : (flip_link (rv k) (n_nk N k) j < n_nk N k)%nat) by (unfold flip_link; destruct (rv k); lia).
    specialize (Sl (n_i1 N k + flip_link (rv k) (n_nk N k) j)%nat ltac:(lia)).
    specialize (Sl' (n_i1 N k + j)%nat ltac:(rewrite (mn_L _ _ _ HN); lia)).
    rewrite (proj2 (md_Ik _ _ _ HM k j Hk Hj)), (md_sec _ _ _ HM k j Hk Hj) in Sl'.
    rewrite (proj1 (md_Ik _ _ _ HM k _ Hk Hf)) in Sl.
    replace (n_I1 N k + j + 1)%nat with (n_I1 N k + (j + 1))%nat in Sl' by lia.
    rewrite (Sh k j Hk), (Sh k (j + 1)%nat Hk) in Sl' by lia.
    pose proof (proj1 (sd_links _ HD (n_i1 N k + flip_link (rv k) (n_nk N k) j)%nat ltac:(lia))) as Cv.
    unfold flip_link, flip_node in *. destruct (rv k).
    - replace (n_nk N k - (j + 1))%nat with (n_nk N k - 1 - j)%nat in Sl' by lia.
      replace (n_I1 N k + (n_nk N k - 1 - j) + 1)%nat with (n_I1 N k + (n_nk N k - j))%nat in Sl by lia.
      pose proof (eq_trans (eq_sym Sl') (eq_trans (section_sym _ _ _ _ _ Cv) Sl)) as Q. now injection Q.
    - replace (n_I1 N k + j + 1)%nat with (n_I1 N k + (j + 1))%nat in Sl by lia.
      pose proof (eq_trans (eq_sym Sl') (eq_trans (conveying_no_old _ _ _ _ _ Cv) Sl)) as Q. now injection Q. }
  assert (A2 : forall k, (k < n_K N)%nat -> b_gu g' k = pick (rv k) (b_gu g k) (b_gd g k) /\ b_gd g' k = pick (rv k) (b_gd g k) (b_gu g k)).
  { intros k Hk. specialize (Su k Hk). specialize (Sd k Hk). specialize (Su' k ltac:(rewrite (mn_K _ _ _ HN); auto)). specialize (Sd' k ltac:(rewrite (mn_K _ _ _ HN); auto)).
    rewrite (mn_i1 _ _ _ HN), (mn_I1 _ _ _ HN) in Su'. rewrite (mn_i1 _ _ _ HN), (mn_I1 _ _ _ HN), (mn_nk _ _ _ HN) in Sd'.
    destruct (wf_range _ Wf k Hk) as [R1 R2]. destruct (wf_ends _ Wf k Hk) as [W1 W2]. pose proof (proj1 (wf_layout _ Wf) k Hk) as Hn.
    pose proof (md_sec _ _ _ HM k 0%nat Hk ltac:(lia)) as C1. pose proof (md_sec _ _ _ HM k (n_nk N k - 1)%nat Hk ltac:(lia)) as C2.
    pose proof (Sh k 0%nat Hk ltac:(lia)) as h1. pose proof (Sh k (n_nk N k) Hk ltac:(lia)) as h2. rewrite Nat.add_0_r in C1, h1.
    replace (n_i1 N k + (n_nk N k - 1))%nat with (n_i1 N k + n_nk N k - 1)%nat in C2 by lia.
    destruct (mn_ends _ _ _ HN k Hk) as (J1 & J2 & Z1 & Z2 & _).
    rewrite C1, h1, J1, Z1, (Hu k Hk) in Su'. rewrite C2, h2, J2, Z2, (Hd k Hk) in Sd'.
    pose proof (proj1 (sd_links _ HD (n_i1 N k) ltac:(lia))) as V1. pose proof (proj1 (sd_links _ HD (n_i1 N k + n_nk N k - 1)%nat ltac:(lia))) as V2.
    unfold flip_link, flip_node, pick in *. destruct (rv k).
    - replace (n_i1 N k + (n_nk N k - 1 - 0))%nat with (n_i1 N k + n_nk N k - 1)%nat in Su' by lia.
      replace (n_i1 N k + (n_nk N k - 1 - (n_nk N k - 1)))%nat with (n_i1 N k) in Sd' by lia.
      rewrite Nat.sub_0_r in Su'. rewrite Nat.sub_diag, Nat.add_0_r in Sd'. rewrite SH in Su', Sd' by auto.
      rewrite (conveying_no_old _ _ _ _ (b_gd b k) V2), Sd in Su'. rewrite (conveying_no_old _ _ _ _ (b_gu b k) V1), Su in Sd'.
      injection Su' as <-. injection Sd' as <-. auto.
    - rewrite !Nat.add_0_r in Su'. replace (n_i1 N k + (n_nk N k - 1))%nat with (n_i1 N k + n_nk N k - 1)%nat in Sd' by lia.
      rewrite SH in Su', Sd' by auto.
      rewrite (conveying_no_old _ _ _ _ (b_gu b k) V1), Su in Su'. rewrite (conveying_no_old _ _ _ _ (b_gd b k) V2), Sd in Sd'.
      injection Su' as <-. injection Sd' as <-. auto. }
  constructor.
  - intros k j Hk Hj. cbv zeta. cbn [g_A g_R g_B geometry_of]. rewrite (A1 k j Hk Hj). auto.
  - intros k Hk. cbn [g_Au g_Ad g_Bu g_Bd geometry_of]. destruct (A2 k Hk) as [-> ->]. destruct (rv k); cbn [pick]; auto.
  - intros j Hj. cbn [g_Asj geometry_of]. specialize (SA j Hj). specialize (SA' j ltac:(rewrite (mn_M _ _ _ HN); auto)).
    rewrite (md_store _ _ _ HM j Hj), (mn_zj _ _ _ HN), (mn_min _ _ _ HN), (SH j Hj), SA in SA'. now injection SA'.
Qed.

(** After [_setup_step]. *)
Record mirrored_prepared (b b' : body) (G G' : geometry) : Prop := mkMP {
  pm_b : mirrored_body b b';
  pm_cf : mirrored_setup rv N G G' (b_cf b) (b_cf b');
  pm_fe : forall k, (k < n_K N)%nat ->
    fwd_eqs (ma (u_m (b_cf b))) (mb (u_m (b_cf b))) (mc (u_m (b_cf b))) (mP (u_m (b_cf b))) (g_A G) (u_E (b_cf b)) (u_D (b_cf b)) (n_i1 N k) (n_I1 N k) (n_nk N k) (u_f (b_cf b)) /\
    bwd_eqs (ma (u_m (b_cf b))) (mb (u_m (b_cf b))) (mc (u_m (b_cf b))) (mP (u_m (b_cf b))) (g_A G) (u_E (b_cf b)) (u_D (b_cf b)) (n_i1 N k) (n_I1 N k) (n_nk N k) (u_b (b_cf b));
  pm_fe' : forall k, (k < n_K N)%nat ->
    fwd_eqs (ma (u_m (b_cf b'))) (mb (u_m (b_cf b'))) (mc (u_m (b_cf b'))) (mP (u_m (b_cf b'))) (g_A G') (u_E (b_cf b')) (u_D (b_cf b')) (n_i1 N k) (n_I1 N k) (n_nk N k) (u_f (b_cf b')) /\
    bwd_eqs (ma (u_m (b_cf b'))) (mb (u_m (b_cf b'))) (mc (u_m (b_cf b'))) (mP (u_m (b_cf b'))) (g_A G') (u_E (b_cf b')) (u_D (b_cf b')) (n_i1 N k) (n_I1 N k) (n_nk N k) (u_b (b_cf b'));
  pm_pv : forall k j, (k < n_K N)%nat -> (j < n_nk N k)%nat ->
    fT (u_f (b_cf b)) (n_i1 N k + j)%nat <> 0 /\ bO (u_b (b_cf b)) (n_i1 N k + j)%nat <> 0 /\ bX (u_b (b_cf b)) (n_I1 N k + j)%nat <> 0;
  pm_pv' : forall k j, (k < n_K N)%nat -> (j < n_nk N k)%nat ->
    fT (u_f (b_cf b')) (n_i1 N k + j)%nat <> 0 /\ bO (u_b (b_cf b')) (n_i1 N k + j)%nat <> 0 /\ bX (u_b (b_cf b')) (n_I1 N k + j)%nat <> 0;
  pm_V : forall j, (j < n_M N)%nat -> b_Vs b' j = b_Vs b j;
  pm_A : forall o, (o < o_n (d_or D))%nat -> b_Ao b' o = b_Ao b o;
  pm_M : forall i j, (i < n_M N)%nat -> (j < n_M N)%nat ->
    system_matrix (o_n (d_or D)) (w_n (d_we D)) (p_n (d_pu D)) (b_sys b') i j
    = system_matrix (o_n (d_or D)) (w_n (d_we D)) (p_n (d_pu D)) (b_sys b) i j;
  pm_r : forall j, (j < n_M N)%nat -> s_b (b_sys b') j = s_b (b_sys b) j }.

Lemma setup_body_mirror i i' dt sv sv' b b' b1 b1' : 0 < dt -> mirrored_inputs rv D i i' -> mirrored_body b b' -> mirrored_state rv N sv sv' ->
  watered D (b_st b) -> watered D' (b_st b') -> reached D (b_sys b) -> reached D' (b_sys b') ->
  setup_body D i dt sv b = Some b1 -> setup_body D' i' dt sv' b' = Some b1' ->
  exists G G', mirrored_prepared b1 b1' G G'.
Proof.
  intros Hdt (IQ & IH & Iq & Io & Iw & Ip) Hb Hsv Wt Wt' Rc Rc' E E'. pose proof (sd_wf _ HD) as Wf. pose proof (sd_wf _ HD') as Wf'.
  destruct (setup_body_inv D _ _ _ _ _ E) as (bg & Vs & Ao & u & Eg & EV & EO & Eu & Eb).
  destruct (setup_body_inv D' _ _ _ _ _ E') as (bg' & Vs' & Ao' & u' & Eg' & EV' & EO' & Eu' & Eb').
  destruct (geometries_total D HD b Wt) as (bw & Ew & Wet & _). rewrite Eg in Ew. injection Ew as <-.
  destruct (geometries_total D' HD' b' Wt') as (bw' & Ew' & Wet' & _). rewrite Eg' in Ew'. injection Ew' as <-.
  pose proof (geometries_mirror _ _ _ _ Hb Eg Eg') as MG. destruct Hb as [Hst Hct Htu Htd].
  pose proof (setup_mirror rv N N' HN Wf Wf' (sd_z _ HD) _ _ _ _ _ _ _ _ _ _ _ _ _ MG Hst Hsv IQ Eu Eu') as MU.
  destruct (setup_signs N _ _ _ _ _ _ Wf Wet Hdt u Eu) as [_ Pv]. destruct (setup_signs N' _ _ _ _ _ _ Wf' Wet' Hdt u' Eu') as [_ Pv'].
  rewrite (mn_K _ _ _ HN), (mn_nk _ _ _ HN), (mn_i1 _ _ _ HN), (mn_I1 _ _ _ HN) in Pv'.
  destruct (setup_facts_ok _ _ _ _ _ _ _ _ Eu) as [_ _ Ff Fb _ _]. destruct (setup_facts_ok _ _ _ _ _ _ _ _ Eu') as [_ _ Ff' Fb' _ _].
  rewrite (mn_K _ _ _ HN), (mn_nk _ _ _ HN), (mn_i1 _ _ _ HN), (mn_I1 _ _ _ HN) in Ff', Fb'.
  pose proof (forward_recurrence_ok _ _ _ _ _ _ _ _ _ _ _ _ _ (wf_layout _ Wf) Ff) as FE.
  pose proof (forward_recurrence_ok _ _ _ _ _ _ _ _ _ _ _ _ _ (wf_layout _ Wf) Ff') as FE'.
  pose proof (backward_recurrence_ok _ _ _ _ _ _ _ _ _ _ _ _ _ _ _ (wf_layout _ Wf) (fun k _ => conj eq_refl eq_refl) Fb) as BE.
  pose proof (backward_recurrence_ok _ _ _ _ _ _ _ _ _ _ _ _ _ _ _ (wf_layout _ Wf) (fun k _ => conj eq_refl eq_refl) Fb') as BE'.
  pose proof (ms_H _ _ _ _ Hst) as SH. pose proof (ms_H _ _ _ _ Hsv) as VH. destruct Hct as [CQo CQw CQp].
  pose proof (mn_M _ _ _ HN) as EM. pose proof (mn_zj _ _ _ HN) as Ezj. pose proof (mn_bc _ _ _ HN) as Ebc.
  assert (SV : forall j, (j < n_M N)%nat -> Vs' j = Vs j).
  { intros j Hj. pose proof (all_entries_spec _ _ _ _ EV j Hj) as S. pose proof (all_entries_spec _ _ _ _ EV' j ltac:(rewrite EM; auto)) as S'. cbv beta in S, S'.
    rewrite (md_store _ _ _ HM j Hj), Ezj, (mn_min _ _ _ HN), (SH j Hj), S in S'. now injection S'. }
  assert (SA : forall o, (o < o_n (d_or D))%nat -> Ao' o = Ao o).
  { intros o Ho. pose proof (all_entries_spec _ _ _ _ EO o Ho) as S. pose proof (all_entries_spec _ _ _ _ EO' o ltac:(rewrite (md_or _ _ _ HM); auto)) as S'.
    cbv beta zeta in S, S'. rewrite (md_or _ _ _ HM), (md_ocode _ _ _ HM), (md_o1 _ _ _ HM), (md_o2 _ _ _ HM), (md_o3 _ _ _ HM), Ezj, Io in S'.
    destruct (proj1 (sd_or _ HD) o Ho) as [J1 J2]. rewrite !SH in S' by auto. pose proof (tb_or _ HT o Ho) as C.
    assert (S2 : orifice_geometry (d_ocode D o) (i_uo i o) (orifice_depth (h_H (b_st b) (o_Ju (d_or D) o)) (h_H (b_st b) (o_Jd (d_or D) o)) (n_zj N (o_Ju (d_or D) o)) (o_z (d_or D) o))
                   (d_o1 D o) (d_o2 D o) (d_o3 D o) (b_Ao b' o) = Some (Ao o)).
    { rewrite <- S. destruct (d_ocode D o) as [|[|[|[|[|[|[|[|[|[|n]]]]]]]]]]; try lia; reflexivity. }
    rewrite S2 in S'. now injection S'. }
  unfold controls_of in Eb, Eb'. unfold with_areas in Eb'. rewrite (md_or _ _ _ HM), (md_we _ _ _ HM), (md_pu _ _ _ HM), Ezj, Io, Iw, Ip in Eb'.
  fold (with_areas D Ao') in Eb'.
  set (CO := orifice_controls (with_areas D Ao) (b_Qo b) (i_uo i) (h_H (b_st b)) (n_zj N)) in *.
  set (CO' := orifice_controls (with_areas D Ao') (b_Qo b') (i_uo i) (h_H (b_st b')) (n_zj N)) in *.
  set (CW := weir_controls (d_we D) (b_Qw b) (i_uw i) (h_H (b_st b)) (n_zj N)) in *.
  set (CW' := weir_controls (d_we D) (b_Qw b') (i_uw i) (h_H (b_st b')) (n_zj N)) in *.
  set (CP := pump_controls (d_pu D) (b_Qp b) (i_up i) (h_H (b_st b)) (n_zj N)) in *.
  set (CP' := pump_controls (d_pu D) (b_Qp b') (i_up i) (h_H (b_st b')) (n_zj N)) in *.
  assert (S1 : same_controls CO CO').
  { split; [reflexivity|]. split; [reflexivity|]. split; [reflexivity|]. intros k Hk. cbn in Hk. destruct (proj1 (sd_or _ HD) k Hk).
    cbn. rewrite !SH, CQo, SA by auto. auto. }
  assert (S2 : same_controls CW CW').
  { split; [reflexivity|]. split; [reflexivity|]. split; [reflexivity|]. intros k Hk. cbn in Hk. destruct (sd_we _ HD k Hk).
    cbn [c_a c_b c_c CW CW' weir_controls from_coeffs]. rewrite !SH, CQw by auto. auto. }
  assert (S3 : same_controls CP CP').
  { split; [reflexivity|]. split; [reflexivity|]. split; [reflexivity|]. intros k Hk. cbn in Hk. destruct (proj1 (sd_pu _ HD) k Hk).
    cbn [c_a c_b c_c CP CP' pump_controls from_coeffs]. rewrite !SH, CQp by auto. auto. }
  assert (Rk : forall D CO CW CP u bg s, c_n CO = o_n (d_or D) -> c_Ju CO = o_Ju (d_or D) -> c_Jd CO = o_Jd (d_or D) ->
     c_n CW = w_n (d_we D) -> c_Ju CW = w_Ju (d_we D) -> c_Jd CW = w_Jd (d_we D) ->
     c_n CP = p_n (d_pu D) -> c_Ju CP = p_Ju (d_pu D) -> c_Jd CP = p_Jd (d_pu D) ->
     reached D s -> clean_system (n_M (d_net D)) (n_bc (d_net D)) (superlinks_of (d_net D) (geometry_of bg) u) CO CW CP s).
  { clear. intros D CO CW CP u bg s o1 o2 o3 w1 w2 w3 p1 p2 p3 Hr. apply reachable_clean.
    refine (reachable_transfer _ _ _ _ _ _ _ _ _ _ _ _ Hr).
    split; [reflexivity|]. split; [reflexivity|]. split; [reflexivity|]. cbn [map]. rewrite o1, o2, o3, w1, w2, w3, p1, p2, p3. split; [|split]; reflexivity. }
  destruct (assembly_ok (n_M N) (n_bc N) (superlinks_of N (geometry_of bg) u) CO CW CP (b_As bg) (h_H sv) (i_Hbc i) (i_Qin i) dt (b_sys b)) as (_ & En & Er);
    [apply (Rk D); auto|].
  destruct (assembly_ok (n_M N') (n_bc N') (superlinks_of N' (geometry_of bg') u') CO' CW' CP' (b_As bg') (h_H sv') (i_Hbc i) (i_Qin i) dt (b_sys b')) as (_ & En' & Er');
    [apply (Rk D'); auto; rewrite ?(md_or _ _ _ HM), ?(md_we _ _ _ HM), ?(md_pu _ _ _ HM); reflexivity|].
  rewrite EM, Ebc, IH, Iq in Eb'. rewrite EM, Ebc in En', Er'.
  pose proof (mg_store _ _ _ _ MG) as GS. cbn [g_Asj geometry_of] in GS.
  exists (geometry_of bg), (geometry_of bg'). subst b1 b1'. constructor; cbn [b_cf b_Vs b_Ao b_sys]; auto.
  - constructor; cbn [b_st b_Qo b_Qw b_Qp b_thu b_thd]; auto; [constructor; auto| |];
      intros k Hk; destruct (wf_ends _ Wf k Hk); destruct (mn_ends _ _ _ HN k Hk) as (J1 & J2 & Z1 & Z2 & _); rewrite ?J1, ?J2, ?Z1, ?Z2;
      unfold pick; destruct (rv k); rewrite SH by auto; reflexivity.
  - intros x y Hx Hy. destruct (En x y Hx) as (P1 & P2 & P3 & P4). destruct (En' x y Hx) as (P1' & P2' & P3' & P4').
    unfold system_matrix. destruct (negb _).
    + rewrite P1, P2, P3, P4, P1', P2', P3', P4'. rewrite (matrix_mirror rv N N' HN Wf _ _ _ _ MU MG dt (b_As bg) (b_As bg') x y (GS x Hx)).
      rewrite (controls_entry D CO CO'), (controls_entry D CW CW'), (controls_entry D CP CP') by auto. reflexivity.
    + rewrite P1, P1'. apply (matrix_mirror rv N N' HN Wf _ _ _ _ MU MG dt (b_As bg) (b_As bg') x y (GS x Hx)).
  - intros j Hj. rewrite Er, Er'. destruct (n_bc N j); [reflexivity|].
    rewrite (rhs_mirror rv N N' HN Wf _ _ _ _ MU MG dt (h_H sv) (h_H sv') j VH).
    rewrite (controls_rhs CO CO'), (controls_rhs CW CW'), (controls_rhs CP CP') by auto. rewrite (GS j Hj), (VH j Hj). reflexivity.
Qed.

Lemma solve_body_mirror slv slv' i i' dt b b' G G' b1 b1' : solver (n_M N) slv -> solver (n_M N) slv' -> mirrored_inputs rv D i i' ->
  mirrored_prepared b b' G G' -> solvable D b -> solvable D' b' ->
  solve_body D slv i dt b = Some b1 -> solve_body D' slv' i' dt b' = Some b1' -> order_free rv N (b_st b1) -> mirrored_body b1 b1'.
Proof.
  intros Hs Hs' (_ & _ & _ & Io & Iw & Ip) [Hb Cf Fe Fe' Pv Pv' V Ao Mx Rb] [Ex Un] [Ex' Un'] E E' OF. unfold solve_body in E, E'.
  rewrite (md_or _ _ _ HM), (md_we _ _ _ HM), (md_pu _ _ _ HM) in *. rewrite (mn_M _ _ _ HN) in Ex', Un'.
  destruct (Hs _ _ Ex Un) as (H & EH & SH). destruct (Hs' _ _ Ex' Un') as (H' & EH' & SH').
  rewrite EH in E. rewrite EH' in E'. cbn [bind] in E, E'. injection E as <-. injection E' as <-. cbn [b_st] in OF.
  assert (HH : forall j, (j < n_M N)%nat -> H' j = H j).
  { apply Un; auto. intros j Hj. unfold row_holds. rewrite <- Rb by auto. etransitivity; [|exact (SH' j Hj)].
    apply sum_n_ext. intros x Hx. rewrite Mx by auto. reflexivity. }
  pose proof (solve_mirror rv N N' HN (sd_wf _ HD) G G' _ _ Cf (fun k Hk => proj1 (Fe k Hk)) (fun k Hk => proj2 (Fe k Hk))
    (fun k Hk => proj1 (Fe' k Hk)) (fun k Hk => proj2 (Fe' k Hk)) Pv Pv' (b_st b) (b_st b') H H' HH OF) as S2.
  destruct Hb as [Hst Hct Htu Htd]. pose proof (mn_zj _ _ _ HN) as Ezj. pose proof (mn_maxj _ _ _ HN) as Emj.
  constructor; cbn [b_st b_Qo b_Qw b_Qp b_thu b_thd]; auto. constructor.
  - intros o Ho. destruct (Nat.eqb_spec (o_n (d_or D)) 0); [lia|]. destruct (proj1 (sd_or _ HD) o Ho) as [J1 J2].
    cbv beta. rewrite Io, Ezj, Emj, (HH _ J1), (HH _ J2), !V, Ao by auto. reflexivity.
  - intros w Hw. destruct (Nat.eqb_spec (w_n (d_we D)) 0); [lia|]. destruct (sd_we _ HD w Hw) as [J1 J2]. cbv beta. rewrite Iw, Ezj, Emj, (HH _ J1), (HH _ J2). reflexivity.
  - intros p Hp. destruct (Nat.eqb_spec (p_n (d_pu D)) 0); [lia|]. destruct (proj1 (sd_pu _ HD) p Hp) as [J1 J2]. cbv beta. rewrite Ip, Ezj, Emj, (HH _ J1), (HH _ J2). reflexivity.
Qed.
End Object.
