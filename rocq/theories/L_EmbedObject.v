From Coq Require Import ZArith.
From Verif Require Import Prelude M_Numerics M_Coeffs M_Recurrence M_Assembly M_Step M_Geometry M_Storage M_Controls M_Simulation M_Model
  S_Numerics S_Geometry S_Superlink S_Network S_Step S_Simulation S_Model S_Replay S_Mirror S_Embed L_Forward L_Backward L_Coeffs L_Assembly L_Step
  P_Assembly P_Superlink P_Wellposed P_Step P_Limits P_Controls P_Simulation L_Model P_Model P_Replay L_Relate P_Resume L_Embed.

(** ** Controls measured from another datum *)
Definition raise_coeffs (c : R) (p : R * R * R) : R * R * R := (fst (fst p), snd (fst p), snd p - (fst (fst p) + snd (fst p)) * c).

Lemma Rltb_diff x y x' y' : y - x = y' - x' -> Rltb x y = Rltb x' y'.
Proof. intros E. destruct (Rltb_spec x y); destruct (Rltb_spec x' y'); auto; exfalso; lra. Qed.
Lemma Rleb_diff x y x' y' : y - x = y' - x' -> Rleb x y = Rleb x' y'.
Proof. intros E. destruct (Rleb_spec x y); destruct (Rleb_spec x' y'); auto; exfalso; lra. Qed.
Lemma omega_raise a b c : omega (a + c) (b + c) = omega a b.
Proof. unfold omega. rewrite (Rleb_diff (b + c) (a + c) b a) by lra. reflexivity. Qed.
Lemma triple_eq (a b c a' b' c' : R) : a = a' -> b = b' -> c = c' -> (a, b, c) = (a', b', c').
Proof. congruence. Qed.

Lemma orifice_raise gam Hu Hd u z zo tau ym ow c :
  orifice_coeffs gam (Hu + c) (Hd + c) u (z + c) zo tau ym ow = raise_coeffs c (orifice_coeffs gam Hu Hd u z zo tau ym ow).
Proof.
  unfold orifice_coeffs. rewrite omega_raise. set (w := omega Hu Hd). cbv zeta.
  rewrite (Rltb_diff (zo + (z + c) + tau * ym * u) _ (zo + z + tau * ym * u) (w * Hu + (1 - w) * Hd)) by ring.
  rewrite (Rltb_diff (zo + (z + c) + tau * ym * u / 2) _ (zo + z + tau * ym * u / 2) ((1 - w) * Hu + w * Hd)) by lra.
  rewrite (Rltb_diff (zo + (z + c)) _ (zo + z) (w * Hu + (1 - w) * Hd)) by ring.
  rewrite (Rleb_diff (Hu + c) (Hd + c) Hu Hd) by ring. unfold raise_coeffs.
  destruct ((negb _ && negb _) || _)%bool; [apply triple_eq; cbn [fst snd]; lra|].
  destruct (negb _ && _)%bool; [apply triple_eq; cbn [fst snd]; try reflexivity; ring|].
  destruct (_ && negb _)%bool; apply triple_eq; cbn [fst snd]; try reflexivity; lra.
Qed.
Lemma orifice_discharge_raise A C Hu Hd u z zo tau ym ow c :
  orifice_discharge A C (Hu + c) (Hd + c) u (z + c) zo tau ym ow = orifice_discharge A C Hu Hd u z zo tau ym ow.
Proof.
  unfold orifice_discharge. rewrite orifice_raise, omega_raise. destruct (orifice_coeffs _ Hu Hd u z zo tau ym ow) as [[a b] x].
  unfold raise_coeffs. cbn [fst snd]. do 3 f_equal. ring.
Qed.
Lemma solve_orifice_raise A C Hu Hd u z zo tau ym ow Vu Vd dt c :
  solve_orifice_flows A C (Hu + c) (Hd + c) u (z + c) zo tau ym ow Vu Vd dt = solve_orifice_flows A C Hu Hd u z zo tau ym ow Vu Vd dt.
Proof.
  unfold solve_orifice_flows, limit_orifice. rewrite orifice_discharge_raise, (Rltb_diff (Hd + c) (Hu + c) Hd Hu) by ring. reflexivity.
Qed.
Lemma orifice_depth_raise Hu Hd z zo c : orifice_depth (Hu + c) (Hd + c) (z + c) zo = orifice_depth Hu Hd z zo.
Proof. unfold orifice_depth, Rmax. repeat destruct (Rle_dec _ _); lra. Qed.
Lemma storage_depth_raise H z mn c : storage_depth (H + c) (z + c) mn = storage_depth H z mn.
Proof. unfold storage_depth. f_equal. ring. Qed.
Lemma weir_conds_raise Hu Hd u z zw ym c : weir_conds (Hu + c) (Hd + c) u (z + c) zw ym = weir_conds Hu Hd u z zw ym.
Proof. unfold weir_conds. rewrite omega_raise. cbv zeta. f_equal; apply Rltb_diff; ring. Qed.
Lemma weir_head_raise Hu Hd u z zw ym c : weir_head (Hu + c) (Hd + c) u (z + c) zw ym = weir_head Hu Hd u z zw ym.
Proof.
  unfold weir_head. rewrite weir_conds_raise, omega_raise. destruct (weir_conds Hu Hd u z zw ym) as [a b]. cbv zeta. f_equal.
  destruct (a && b)%bool; [ring|]. destruct (a && negb b)%bool; ring.
Qed.
Lemma weir_raise Q Hu Hd u z zw ym L s Cr Ct c :
  weir_flow_coefficients Q (Hu + c) (Hd + c) u (z + c) zw ym L s Cr Ct = raise_coeffs c (weir_flow_coefficients Q Hu Hd u z zw ym L s Cr Ct).
Proof.
  unfold weir_flow_coefficients. rewrite weir_head_raise, weir_conds_raise, omega_raise. destruct (weir_conds Hu Hd u z zw ym) as [a b].
  cbv zeta. unfold raise_coeffs. destruct (negb a); [apply triple_eq; cbn [fst snd]; lra|].
  destruct (a && negb b)%bool; apply triple_eq; cbn [fst snd]; try reflexivity; ring.
Qed.
Lemma weir_discharge_raise Hu Hd u z zw ym L s Cr Ct c :
  weir_discharge (Hu + c) (Hd + c) u (z + c) zw ym L s Cr Ct = weir_discharge Hu Hd u z zw ym L s Cr Ct.
Proof. unfold weir_discharge. now rewrite weir_head_raise, omega_raise. Qed.
Lemma pump_head_raise Hu Hd mx mn c : pump_head (Hu + c) (Hd + c) mx mn = pump_head Hu Hd mx mn.
Proof. unfold pump_head. replace (Hd + c - (Hu + c)) with (Hd - Hu) by ring. reflexivity. Qed.
Lemma pump_raise Q Hu Hd u z zp mx mn a b e c :
  pump_flow_coefficients Q (Hu + c) (Hd + c) u (z + c) zp mx mn a b e = raise_coeffs c (pump_flow_coefficients Q Hu Hd u z zp mx mn a b e).
Proof.
  unfold pump_flow_coefficients. rewrite pump_head_raise. replace (Hd + c - (Hu + c)) with (Hd - Hu) by ring.
  rewrite (Rltb_diff (z + c + zp) (Hu + c) (z + zp) Hu) by ring. cbv zeta. unfold raise_coeffs.
  destruct (negb _); [apply triple_eq; cbn [fst snd]; lra|]. destruct (_ && _)%bool; apply triple_eq; cbn [fst snd]; try reflexivity; ring.
Qed.
Lemma pump_discharge_raise Hu Hd u z zp mx mn a b e c :
  pump_discharge (Hu + c) (Hd + c) u (z + c) zp mx mn a b e = pump_discharge Hu Hd u z zp mx mn a b e.
Proof. unfold pump_discharge. rewrite pump_head_raise, (Rltb_diff (z + c + zp) (Hu + c) (z + zp) Hu) by ring. reflexivity. Qed.

(** ** Inflow of one junction in two numberings *)
Record embedded_elements (f fj : nat -> nat) (M : nat) (bc : nat -> bool) (H H' : arr) (el el' : elements) : Prop := mkEE {
  ee_found : found f (e_n el) (e_n el');
  ee_u : closed_at f fj (e_n el) (e_n el') M bc (e_Ju el'); ee_d : closed_at f fj (e_n el) (e_n el') M bc (e_Jd el');
  ee_in : ends_in M (e_n el) (e_Ju el) (e_Jd el);
  ee_k : forall k, (k < e_n el)%nat -> e_Ju el' (f k) = fj (e_Ju el k) /\ e_Jd el' (f k) = fj (e_Jd el k) /\
    e_in el' (f k) H' = e_in el k H /\ e_out el' (f k) H' = e_out el k H }.

Lemma eqb_found fj M M' a b : found fj M M' -> (a < M)%nat -> (b < M)%nat -> Nat.eqb (fj a) (fj b) = Nat.eqb a b.
Proof.
  intros [_ Hi] Ha Hb. destruct (Nat.eqb_spec a b) as [->|Hn]; [apply Nat.eqb_refl|]. apply Nat.eqb_neq. intros E. apply Hn. auto.
Qed.
Lemma net_inflow_found f fj M M' bc H H' el el' j : found fj M M' -> embedded_elements f fj M bc H H' el el' -> (j < M)%nat -> bc j = false ->
  net_inflow el' H' (fj j) = net_inflow el H j.
Proof.
  intros Hj [Hf Hu Hd Hin Hk] Lj Eb. unfold net_inflow. f_equal; apply (sum_if_found f); auto.
  - intros k Lk. destruct (Hk k Lk) as (_ & -> & _). apply (eqb_found fj M M'); auto. apply (Hin k Lk).
  - intros k Lk _. apply (Hk k Lk).
  - intros k' Lk' E. apply Nat.eqb_eq in E. exact (Hd k' j Lk' Lj Eb E).
  - intros k Lk. destruct (Hk k Lk) as (-> & _). apply (eqb_found fj M M'); auto. apply (Hin k Lk).
  - intros k Lk _. apply (Hk k Lk).
  - intros k' Lk' E. apply Nat.eqb_eq in E. exact (Hu k' j Lk' Lj Eb E).
Qed.

Section Object.
Variable F : place.
Variables D D' : design.
Local Notation N := (d_net D).
Local Notation N' := (d_net D').
Local Notation c := (pz F).
Hypothesis HD : sound D.
Hypothesis HD' : sound D'.
Hypothesis HT : tabled D.
Hypothesis HM : embedded_design F D D'.
Let HN := ed_net _ _ _ HM.

Record embedded_body (b b' : body) : Prop := mkEBo {
  eb_st : embedded_state F N N' (b_st b) (b_st b');
  eb_ct : embedded_controlled F D (b_Qo b) (b_Qw b) (b_Qp b) (b_Qo b') (b_Qw b') (b_Qp b');
  eb_thu : forall k, (k < n_K N)%nat -> b_thu b' (pk F k) = b_thu b k;
  eb_thd : forall k, (k < n_K N)%nat -> b_thd b' (pk F k) = b_thd b k }.

Lemma geometries_embed b b' g g' : embedded_body b b' -> geometries D b = Some g -> geometries D' b' = Some g' ->
  embedded_geometry F N N' (geometry_of g) (geometry_of g').
Proof.
  intros [Hst _ Hu Hd] E E'. destruct (geometries_inv D _ _ E) as (El & Eu & Ed & EA & _). destruct (geometries_inv D' _ _ E') as (El' & Eu' & Ed' & EA' & _).
  destruct Hst as [SH _ Sh _]. pose proof (sd_wf _ HD) as Wf. pose proof (sd_wf _ HD') as Wf'. unfold embedded_nodes in Sh.
  pose proof (all_entries_spec _ _ _ _ El) as Sl. pose proof (all_entries_spec _ _ _ _ El') as Sl'.
  pose proof (all_entries_spec _ _ _ _ Eu) as Su. pose proof (all_entries_spec _ _ _ _ Eu') as Su'.
  pose proof (all_entries_spec _ _ _ _ Ed) as Sd. pose proof (all_entries_spec _ _ _ _ Ed') as Sd'.
  pose proof (all_entries_spec _ _ _ _ EA) as SA. pose proof (all_entries_spec _ _ _ _ EA') as SA'. cbv beta zeta in *.
  assert (A1 : forall k j, (k < n_K N)%nat -> (j < n_nk N k)%nat -> b_gl g' (n_i1 N' (pk F k) + j)%nat = b_gl g (n_i1 N k + j)%nat).
  { intros k j Hk Hj. destruct (wf_range _ Wf k Hk) as [R1 R2]. pose proof (place_k F N N' HN k Hk) as Hk'. destruct (wf_range _ Wf' _ Hk') as [R1' R2'].
    destruct (en_ends _ _ _ HN k Hk) as (En & _). rewrite En in R1', R2'.
    specialize (Sl (n_i1 N k + j)%nat ltac:(lia)). specialize (Sl' (n_i1 N' (pk F k) + j)%nat ltac:(lia)).
    rewrite (ed_Ik _ _ _ HM k j Hk Hj) in Sl. rewrite (ed_Ik' _ _ _ HM (pk F k) j Hk') in Sl' by (rewrite En; auto). rewrite (ed_sec _ _ _ HM k j Hk Hj) in Sl'.
    rewrite <- Nat.add_assoc in Sl, Sl'. rewrite (Sh k j Hk), (Sh k (j + 1)%nat Hk) in Sl' by lia.
    pose proof (proj1 (sd_links _ HD (n_i1 N k + j)%nat ltac:(lia))) as Cv.
    pose proof (eq_trans (eq_sym Sl') (eq_trans (conveying_no_old _ _ _ _ _ Cv) Sl)) as Q. now injection Q. }
  assert (A2 : forall k, (k < n_K N)%nat -> b_gu g' (pk F k) = b_gu g k /\ b_gd g' (pk F k) = b_gd g k).
  { intros k Hk. pose proof (place_k F N N' HN k Hk) as Hk'. specialize (Su k Hk). specialize (Sd k Hk). specialize (Su' _ Hk'). specialize (Sd' _ Hk').
    destruct (wf_range _ Wf k Hk) as [R1 R2]. destruct (wf_ends _ Wf k Hk) as [W1 W2]. pose proof (proj1 (wf_layout _ Wf) k Hk) as Hn.
    pose proof (ed_sec _ _ _ HM k 0%nat Hk ltac:(lia)) as C1. pose proof (ed_sec _ _ _ HM k (n_nk N k - 1)%nat Hk ltac:(lia)) as C2.
    pose proof (Sh k 0%nat Hk ltac:(lia)) as h1. pose proof (Sh k (n_nk N k) Hk ltac:(lia)) as h2. rewrite !Nat.add_0_r in C1, h1.
    replace (n_i1 N k + (n_nk N k - 1))%nat with (n_i1 N k + n_nk N k - 1)%nat in C2 by lia.
    replace (n_i1 N' (pk F k) + (n_nk N k - 1))%nat with (n_i1 N' (pk F k) + n_nk N k - 1)%nat in C2 by lia.
    destruct (en_ends _ _ _ HN k Hk) as (En & _ & J1 & J2 & Z1 & Z2 & _). cbv zeta in *.
    rewrite C1, h1, J1, Z1, (Hu k Hk), SH in Su' by auto. rewrite En, C2, h2, J2, Z2, (Hd k Hk), SH in Sd' by auto.
    replace (h_H (b_st b) (n_Ju N k) + c - (n_zu N k + c)) with (h_H (b_st b) (n_Ju N k) - n_zu N k) in Su' by ring.
    replace (h_H (b_st b) (n_Jd N k) + c - (n_zd N k + c)) with (h_H (b_st b) (n_Jd N k) - n_zd N k) in Sd' by ring.
    pose proof (proj1 (sd_links _ HD (n_i1 N k) ltac:(lia))) as V1. pose proof (proj1 (sd_links _ HD (n_i1 N k + n_nk N k - 1)%nat ltac:(lia))) as V2.
    rewrite (conveying_no_old _ _ _ _ (b_gu b k) V1), Su in Su'. rewrite (conveying_no_old _ _ _ _ (b_gd b k) V2), Sd in Sd'.
    injection Su' as <-. injection Sd' as <-. auto. }
  constructor.
  - intros k j Hk Hj. cbv zeta. cbn [g_A g_R g_B geometry_of]. rewrite (A1 k j Hk Hj). auto.
  - intros k Hk. cbv zeta. cbn [g_Au g_Ad g_Bu g_Bd geometry_of]. destruct (A2 k Hk) as [-> ->]. auto.
  - intros j Hj. cbn [g_Asj geometry_of]. specialize (SA j Hj). specialize (SA' _ (proj1 (en_j _ _ _ HN) j Hj)).
    destruct (en_sup _ _ _ HN j Hj) as (_ & Ez & _).
    rewrite (ed_store _ _ _ HM j Hj), Ez, (en_min _ _ _ HN), (SH j Hj), storage_depth_raise, SA in SA'. now injection SA'.
Qed.

(** After [_setup_step]: a solution of the linear system of the whole gives a solution of the system of the part. *)
Record embedded_prepared (b b' : body) : Prop := mkEP {
  pe_b : embedded_body b b';
  pe_cf : embedded_setup F N N' (b_cf b) (b_cf b');
  pe_V : forall j, (j < n_M N)%nat -> b_Vs b' (pj F j) = b_Vs b j;
  pe_A : forall o, (o < o_n (d_or D))%nat -> b_Ao b' (po F o) = b_Ao b o;
  pe_sys : forall H',
    solves (n_M N') (system_matrix (o_n (d_or D')) (w_n (d_we D')) (p_n (d_pu D')) (b_sys b')) (s_b (b_sys b')) H' ->
    solves (n_M N) (system_matrix (o_n (d_or D)) (w_n (d_we D)) (p_n (d_pu D)) (b_sys b)) (s_b (b_sys b)) (fun j => H' (pj F j) - c) }.

Lemma setup_body_embed i i' dt sv sv' b b' b1 b1' : 0 < dt -> embedded_inputs F D D' i i' -> embedded_body b b' -> embedded_state F N N' sv sv' ->
  reached D (b_sys b) -> reached D' (b_sys b') ->
  setup_body D i dt sv b = Some b1 -> setup_body D' i' dt sv' b' = Some b1' -> embedded_prepared b1 b1'.
Proof.
  intros Hdt [IQ IH Iq Io Iw Ip] Hb Hsv Rc Rc' E E'. pose proof (sd_wf _ HD) as Wf. pose proof (sd_wf _ HD') as Wf'.
  destruct (setup_body_inv D _ _ _ _ _ E) as (bg & Vs & Ao & u & Eg & EV & EO & Eu & Eb).
  destruct (setup_body_inv D' _ _ _ _ _ E') as (bg' & Vs' & Ao' & u' & Eg' & EV' & EO' & Eu' & Eb').
  pose proof (geometries_embed _ _ _ _ Hb Eg Eg') as MG. destruct Hb as [Hst Hct Htu Htd].
  pose proof (setup_embed F N N' HN Wf Wf' (sd_z _ HD) _ _ _ _ _ _ _ _ _ _ _ _ _ MG Hst Hsv IQ Eu Eu') as MU.
  pose proof (es_H _ _ _ _ _ Hst) as SH. pose proof (es_H _ _ _ _ _ Hsv) as VH. destruct Hct as [CQo CQw CQp].
  destruct (ed_or _ _ _ HM) as (Of & Ou & Od & Ok). destruct (ed_we _ _ _ HM) as (Wd & Wu & Wdd & Wk). destruct (ed_pu _ _ _ HM) as (Pf & Pu & Pd & Pk).
  cbv zeta in *. pose proof (en_j _ _ _ HN) as Fj.
  assert (SV : forall j, (j < n_M N)%nat -> Vs' (pj F j) = Vs j).
  { intros j Hj. pose proof (all_entries_spec _ _ _ _ EV j Hj) as S. pose proof (all_entries_spec _ _ _ _ EV' _ (proj1 Fj j Hj)) as S'. cbv beta in S, S'.
    destruct (en_sup _ _ _ HN j Hj) as (_ & Ez & _).
    rewrite (ed_store _ _ _ HM j Hj), Ez, (en_min _ _ _ HN), (SH j Hj), storage_depth_raise, S in S'. now injection S'. }
  assert (SA : forall o, (o < o_n (d_or D))%nat -> Ao' (po F o) = Ao o).
  { intros o Ho. pose proof (all_entries_spec _ _ _ _ EO o Ho) as S. pose proof (all_entries_spec _ _ _ _ EO' _ (proj1 Of o Ho)) as S'.
    cbv beta zeta in S, S'. destruct (Ok o Ho) as (J1 & J2 & _ & X1 & _ & _ & _ & X2 & X3 & X4 & X5).
    destruct (proj1 (sd_or _ HD) o Ho) as [W1 W2]. destruct (en_sup _ _ _ HN _ W1) as (_ & Ez & _).
    rewrite X2, X3, X4, X5, J1, J2, Ez, X1, Io, !SH, orifice_depth_raise in S' by auto. pose proof (tb_or _ HT o Ho) as C.
    assert (S2 : orifice_geometry (d_ocode D o) (i_uo i o) (orifice_depth (h_H (b_st b) (o_Ju (d_or D) o)) (h_H (b_st b) (o_Jd (d_or D) o)) (n_zj N (o_Ju (d_or D) o)) (o_z (d_or D) o))
                   (d_o1 D o) (d_o2 D o) (d_o3 D o) (b_Ao b' (po F o)) = Some (Ao o)).
    { rewrite <- S. destruct (d_ocode D o) as [|[|[|[|[|[|[|[|[|[|n]]]]]]]]]]; try lia; reflexivity. }
    rewrite S2 in S'. now injection S'. }
  unfold controls_of in Eb, Eb'.
  set (CO := orifice_controls (with_areas D Ao) (b_Qo b) (i_uo i) (h_H (b_st b)) (n_zj N)) in *.
  set (CO' := orifice_controls (with_areas D' Ao') (b_Qo b') (i_uo i') (h_H (b_st b')) (n_zj N')) in *.
  set (CW := weir_controls (d_we D) (b_Qw b) (i_uw i) (h_H (b_st b)) (n_zj N)) in *.
  set (CW' := weir_controls (d_we D') (b_Qw b') (i_uw i') (h_H (b_st b')) (n_zj N')) in *.
  set (CP := pump_controls (d_pu D) (b_Qp b) (i_up i) (h_H (b_st b)) (n_zj N)) in *.
  set (CP' := pump_controls (d_pu D') (b_Qp b') (i_up i') (h_H (b_st b')) (n_zj N')) in *.
  set (K := superlinks_of N (geometry_of bg) u) in *. set (K' := superlinks_of N' (geometry_of bg') u') in *.
  assert (Rk : forall D CO CW CP u bg s, c_n CO = o_n (d_or D) -> c_Ju CO = o_Ju (d_or D) -> c_Jd CO = o_Jd (d_or D) ->
     c_n CW = w_n (d_we D) -> c_Ju CW = w_Ju (d_we D) -> c_Jd CW = w_Jd (d_we D) ->
     c_n CP = p_n (d_pu D) -> c_Ju CP = p_Ju (d_pu D) -> c_Jd CP = p_Jd (d_pu D) ->
     reached D s -> reachable (n_M (d_net D)) (n_bc (d_net D)) (superlinks_of (d_net D) (geometry_of bg) u) CO CW CP s).
  { clear. intros D CO CW CP u bg s o1 o2 o3 w1 w2 w3 p1 p2 p3 Hr.
    refine (reachable_transfer _ _ _ _ _ _ _ _ _ _ _ _ Hr).
    split; [reflexivity|]. split; [reflexivity|]. split; [reflexivity|]. cbn [map]. rewrite o1, o2, o3, w1, w2, w3, p1, p2, p3. split; [|split]; reflexivity. }
  assert (R0 : reachable (n_M N) (n_bc N) K CO CW CP (b_sys b)) by (apply (Rk D); auto).
  assert (R0' : reachable (n_M N') (n_bc N') K' CO' CW' CP' (b_sys b')) by (apply (Rk D'); auto).
  assert (Ok0 : network_ok (n_M N) K CO CW CP).
  { split; [apply Wf|]. split; [apply HD|]. split; [apply HD|apply HD]. }
  assert (Ok0' : network_ok (n_M N') K' CO' CW' CP').
  { split; [apply Wf'|]. split; [apply HD'|]. split; [apply HD'|apply HD']. }
  assert (Dn : dt <> 0) by lra. subst b1 b1'. constructor; cbn [b_cf b_Vs b_Ao b_sys]; auto.
  - constructor; cbn [b_st b_Qo b_Qw b_Qp b_thu b_thd]; auto; [constructor; auto| |];
      intros k Hk; destruct (wf_ends _ Wf k Hk); destruct (en_ends _ _ _ HN k Hk) as (_ & _ & J1 & J2 & Z1 & Z2 & _); rewrite ?J1, ?J2, ?Z1, ?Z2;
      rewrite SH by auto; apply theta_raise.
  - intros H' HS j Hj. destruct (en_sup _ _ _ HN j Hj) as (Ebc & _ & _). pose proof (proj1 Fj j Hj) as Hj'. specialize (HS _ Hj').
    change (row_holds (n_M N') (matrix (n_M N') (n_bc N') K' CO' CW' CP' (b_As bg') (h_H sv') (i_Hbc i') (i_Qin i') dt (b_sys b'))
              (s_b (assembled (n_M N') (n_bc N') K' CO' CW' CP' (b_As bg') (h_H sv') (i_Hbc i') (i_Qin i') dt (b_sys b'))) H' (pj F j)) in HS.
    change (row_holds (n_M N) (matrix (n_M N) (n_bc N) K CO CW CP (b_As bg) (h_H sv) (i_Hbc i) (i_Qin i) dt (b_sys b))
              (s_b (assembled (n_M N) (n_bc N) K CO CW CP (b_As bg) (h_H sv) (i_Hbc i) (i_Qin i) dt (b_sys b))) (fun j => H' (pj F j) - c) j).
    destruct (n_bc N j) eqn:Bj.
    + apply (proj2 (C23_boundary_row_prescribes_head _ _ _ _ _ _ _ _ _ _ _ _ _ R0 Ok0 Hj Bj)).
      apply (proj2 (C23_boundary_row_prescribes_head _ _ _ _ _ _ _ _ _ _ _ _ _ R0' Ok0' Hj' Ebc)) in HS. cbv beta. rewrite HS, IH by auto. lra.
    + apply (C22_row_is_water_balance _ _ _ _ _ _ _ _ _ _ _ _ _ _ R0 Ok0 Dn Hj Bj).
      apply (C22_row_is_water_balance _ _ _ _ _ _ _ _ _ _ _ _ _ _ R0' Ok0' Dn Hj' Ebc) in HS.
      assert (EK : net_inflow (superlink_elements K') H' (pj F j) = net_inflow (superlink_elements K) (fun j => H' (pj F j) - c) j).
      { apply (net_inflow_found (pk F) (pj F) (n_M N) (n_M N') (n_bc N)); auto. constructor; try apply HN.
        - apply Wf.
        - intros k Hk. cbn in Hk. cbn [superlink_elements e_Ju e_Jd e_in e_out K K' superlinks_of k_Ju k_Jd k_au k_bu k_cu k_ad k_bd k_cd].
          destruct (en_ends _ _ _ HN k Hk) as (_ & _ & -> & -> & _). rewrite (flow_embed F N N' HN Wf u u' MU k Hk). unfold raise_flow. cbn [au bu cu ad bd cd].
          split; [auto|]. split; [auto|]. split; ring. }
      assert (EC : forall f C C', found f (c_n C) (c_n C') -> closed_at f (pj F) (c_n C) (c_n C') (n_M N) (n_bc N) (c_Ju C') ->
                closed_at f (pj F) (c_n C) (c_n C') (n_M N) (n_bc N) (c_Jd C') -> ends_in (n_M N) (c_n C) (c_Ju C) (c_Jd C) ->
                (forall k, (k < c_n C)%nat -> c_Ju C' (f k) = pj F (c_Ju C k) /\ c_Jd C' (f k) = pj F (c_Jd C k) /\
                   (c_a C' (f k), c_b C' (f k), c_c C' (f k)) = raise_coeffs c (c_a C k, c_b C k, c_c C k)) ->
                net_inflow (control_elements C') H' (pj F j) = net_inflow (control_elements C) (fun j => H' (pj F j) - c) j).
      { intros f C C' X1 X2 X3 X4 X5. apply (net_inflow_found f (pj F) (n_M N) (n_M N') (n_bc N)); auto. constructor; auto.
        intros k Hk. cbn in Hk. destruct (X5 k Hk) as (Y1 & Y2 & Y3). injection Y3 as Ya Yb Yc. cbn [fst snd] in Yc.
        cbn [control_elements e_Ju e_Jd e_in e_out]. rewrite Y1, Y2, Ya, Yb, Yc. split; [auto|]. split; [auto|]. split; ring. }
      rewrite (EC (po F) CO CO'), (EC (pw F) CW CW'), (EC (pp F) CP CP'), EK, Iq in HS; auto; try apply HD.
      * rewrite <- HS. f_equal. f_equal; [|rewrite VH by auto; ring].
        unfold attached_area. cbn [K K' superlinks_of k_n k_Ju k_Jd k_dxu k_Bu k_thu k_dxd k_Bd k_thd].
        pose proof (eg_store _ _ _ _ _ MG j Hj) as GS. cbn [g_Asj geometry_of] in GS. rewrite GS. f_equal; [f_equal|]; symmetry; apply (sum_if_found (pk F)); try apply HN.
        -- intros k Hk. destruct (en_ends _ _ _ HN k Hk) as (_ & _ & -> & _). apply (eqb_found (pj F) (n_M N) (n_M N')); auto. apply (wf_ends _ Wf k Hk).
        -- intros k Hk _. destruct (en_ends _ _ _ HN k Hk) as (_ & _ & _ & _ & _ & _ & _ & _ & -> & _). destruct (eg_ends _ _ _ _ _ MG k Hk) as (_ & _ & -> & _).
           rewrite (eu_hu _ _ _ _ _ MU k Hk). reflexivity.
        -- intros k' Hk' Ek. apply Nat.eqb_eq in Ek. exact (en_cu _ _ _ HN k' j Hk' Hj Bj Ek).
        -- intros k Hk. destruct (en_ends _ _ _ HN k Hk) as (_ & _ & _ & -> & _). apply (eqb_found (pj F) (n_M N) (n_M N')); auto. apply (wf_ends _ Wf k Hk).
        -- intros k Hk _. destruct (en_ends _ _ _ HN k Hk) as (_ & _ & _ & _ & _ & _ & _ & _ & _ & ->). destruct (eg_ends _ _ _ _ _ MG k Hk) as (_ & _ & _ & ->).
           rewrite (eu_hd _ _ _ _ _ MU k Hk). reflexivity.
        -- intros k' Hk' Ek. apply Nat.eqb_eq in Ek. exact (en_cd _ _ _ HN k' j Hk' Hj Bj Ek).
      * intros k Hk. change (k < p_n (d_pu D))%nat in Hk. destruct (Pk k Hk) as (J1 & J2 & X1 & X2 & X3 & X4 & X5 & X6). destruct (proj1 (sd_pu _ HD) k Hk) as [W1 W2].
        split; [exact J1|]. split; [exact J2|]. cbn [CP CP' pump_controls from_coeffs c_a c_b c_c].
        destruct (en_sup _ _ _ HN _ W1) as (_ & Ez & _).
        rewrite <- !surjective_pairing, J1, J2, X1, X2, X3, X4, X5, X6, Ez, Ip, CQp, !SH by auto. apply pump_raise.
      * intros k Hk. change (k < w_n (d_we D))%nat in Hk. destruct (Wk k Hk) as (J1 & J2 & X1 & X2 & X3 & X4 & X5 & X6). destruct (sd_we _ HD k Hk) as [W1 W2].
        split; [exact J1|]. split; [exact J2|]. cbn [CW CW' weir_controls from_coeffs c_a c_b c_c].
        destruct (en_sup _ _ _ HN _ W1) as (_ & Ez & _).
        rewrite <- !surjective_pairing, J1, J2, X1, X2, X3, X4, X5, X6, Ez, Iw, CQw, !SH by auto. apply weir_raise.
      * intros k Hk. change (k < o_n (d_or D))%nat in Hk. destruct (Ok k Hk) as (J1 & J2 & X1 & X2 & X3 & X4 & X5 & _). destruct (proj1 (sd_or _ HD) k Hk) as [W1 W2].
        split; [exact J1|]. split; [exact J2|].
        cbn [CO CO' orifice_controls from_coeffs c_a c_b c_c with_areas o_n o_Ju o_Jd o_A o_C o_z o_tau o_ymax o_oneway].
        destruct (en_sup _ _ _ HN _ W1) as (_ & Ez & _).
        rewrite <- !surjective_pairing, J1, J2, X1, X2, X3, X4, X5, Ez, Io, CQo, SA, !SH by auto. apply orifice_raise.
Qed.

Lemma solve_body_embed slv slv' i i' dt b b' b1 b1' : solver (n_M N) slv -> solver (n_M N') slv' -> embedded_inputs F D D' i i' ->
  embedded_prepared b b' -> solvable D b -> solvable D' b' ->
  solve_body D slv i dt b = Some b1 -> solve_body D' slv' i' dt b' = Some b1' -> embedded_body b1 b1'.
Proof.
  intros Hs Hs' [_ _ _ Io Iw Ip] [Hb Cf V Ao Sy] [Ex Un] [Ex' Un'] E E'. unfold solve_body in E, E'.
  destruct (ed_or _ _ _ HM) as (Of & _ & _ & Ok). destruct (ed_we _ _ _ HM) as (Wd & _ & _ & Wk). destruct (ed_pu _ _ _ HM) as (Pf & _ & _ & Pk). cbv zeta in *.
  destruct (Hs _ _ Ex Un) as (H & EH & SH). destruct (Hs' _ _ Ex' Un') as (H' & EH' & SH').
  rewrite EH in E. rewrite EH' in E'. cbn [bind] in E, E'. injection E as <-. injection E' as <-.
  assert (HH : forall j, (j < n_M N)%nat -> H' (pj F j) = H j + c).
  { intros j Hj. pose proof (Un _ _ SH (Sy _ SH') j Hj) as X. cbv beta in X. lra. }
  pose proof (solve_embed F N N' HN (sd_wf _ HD) (sd_wf _ HD') _ _ Cf (b_st b) (b_st b') H H' HH) as S2.
  assert (LH : forall j, (j < n_M N)%nat -> limit_head (n_zj N' (pj F j)) (n_maxj N' (pj F j)) (H' (pj F j)) = limit_head (n_zj N j) (n_maxj N j) (H j) + c)
    by exact (es_H _ _ _ _ _ S2).
  destruct Hb as [Hst Hct Htu Htd].
  constructor; cbn [b_st b_Qo b_Qw b_Qp b_thu b_thd]; auto. constructor.
  - intros o Ho. destruct (Nat.eqb_spec (o_n (d_or D)) 0); [lia|]. pose proof (proj1 Of o Ho). destruct (Nat.eqb_spec (o_n (d_or D')) 0); [lia|].
    destruct (proj1 (sd_or _ HD) o Ho) as [W1 W2]. destruct (en_sup _ _ _ HN _ W1) as (_ & Ez & _).
    destruct (Ok o Ho) as (J1 & J2 & X1 & X2 & X3 & X4 & X5 & _).
    cbv beta. rewrite J1, J2, X1, X2, X3, X4, X5, Io, Ao, !V, !LH, Ez by auto. apply solve_orifice_raise.
  - intros w Hw. destruct (Nat.eqb_spec (w_n (d_we D)) 0); [lia|]. pose proof (proj1 Wd w Hw). destruct (Nat.eqb_spec (w_n (d_we D')) 0); [lia|].
    destruct (sd_we _ HD w Hw) as [W1 W2]. destruct (en_sup _ _ _ HN _ W1) as (_ & Ez & _).
    destruct (Wk w Hw) as (J1 & J2 & X1 & X2 & X3 & X4 & X5 & X6).
    cbv beta. rewrite J1, J2, X1, X2, X3, X4, X5, X6, Iw, !LH, Ez by auto. apply weir_discharge_raise.
  - intros p Hp. destruct (Nat.eqb_spec (p_n (d_pu D)) 0); [lia|]. pose proof (proj1 Pf p Hp). destruct (Nat.eqb_spec (p_n (d_pu D')) 0); [lia|].
    destruct (proj1 (sd_pu _ HD) p Hp) as [W1 W2]. destruct (en_sup _ _ _ HN _ W1) as (_ & Ez & _).
    destruct (Pk p Hp) as (J1 & J2 & X1 & X2 & X3 & X4 & X5 & X6).
    cbv beta. rewrite J1, J2, X1, X2, X3, X4, X5, X6, Ip, !LH, Ez by auto. apply pump_discharge_raise.
Qed.
End Object.
