(** C81, continued: transit time of a superlink, concentrations recomputed from the recurrence, and examples. *)
From Verif Require Import Prelude M_Numerics M_Coeffs M_Recurrence M_Assembly M_Step M_LeastSquares M_Quality M_Geometry M_Storage M_Controls M_Simulation M_Model
  S_Superlink S_Network S_Step S_LeastSquares S_Quality S_Model S_Object L_Assembly L_LeastSquares L_LeastSquaresChain L_Quality L_QualityStep L_QualityMax L_QualityNet P_Superlink P_Step P_Model P_Object
  P_LeastSquaresCases P_Quality P_QualityCases.
From Verif Require Import L_Gauss M_Quality.
From Verif Require Import M_Diagnostics P_Diagnostics.

(** ** Transit time *)
Lemma sum_blocks (x : arr) len K : sum_n x (nsum len K) = sum_n (fun k => sum_n (fun j => x (nsum len k + j)%nat) (len k)) K.
Proof. induction K as [|K IH]; [reflexivity|]. cbn [nsum sum_n]. rewrite sum_n_app, IH. reflexivity. Qed.
Lemma mean_of_links T x k : contiguous T -> (k < c_NK T)%nat ->
  superlink_mean T x k = sum_n (fun j => x (c_i1 T k + j)%nat) (c_nk T k) / INR (c_nk T k).
Proof.
  intros HT Hk. unfold superlink_mean. f_equal.
  change (numba_add_at (fun _ => 0) (c_NL T) (c_ki T) x k = sum_n (fun j => x (c_i1 T k + j)%nat) (c_nk T k)).
  rewrite add_at_val, Rplus_0_l. unfold sum_if. rewrite (ct_NL T HT), sum_blocks, (sum_n_single _ _ k Hk).
  - apply sum_n_ext. intros j Hj. rewrite (i1_eq T HT) by auto. rewrite (ki_at T HT) by auto. rewrite Nat.eqb_refl. reflexivity.
  - intros k' Hk' Ne. apply sum_n_0. intros j Hj. rewrite (i1_eq T HT) by auto. rewrite (ki_at T HT) by auto.
    destruct (Nat.eqb_spec k' k); [contradiction|reflexivity].
Qed.

(** C81: the reported transit time of a superlink with moving water is its length over the ratio of mean flow to mean
    area, both taken over its own links only; when every link carries flow q through area a, this is the time water of
    velocity q / a needs from one end to the other. *)
Theorem C81_transit_time : forall T dx_k Q A k,
  contiguous T -> (k < c_NK T)%nat ->
  let mean := fun x : arr => sum_n (fun j => x (c_i1 T k + j)%nat) (c_nk T k) / INR (c_nk T k) in
  0 < dx_k k -> 0 < mean A -> mean Q <> 0 ->
  superlink_inverse_courant T dx_k Q A k = dx_k k / Rabs (mean Q / mean A) /\
  forall q a, 0 < a -> q <> 0 -> (forall j, (j < c_nk T k)%nat -> Q (c_i1 T k + j)%nat = q /\ A (c_i1 T k + j)%nat = a) ->
    Rabs (q / a) * superlink_inverse_courant T dx_k Q A k = dx_k k.
Proof.
  intros T dx_k Q A k HT Hk mean Hdx HA HQ.
  assert (E : superlink_inverse_courant T dx_k Q A k = dx_k k / Rabs (mean Q / mean A)).
  { unfold superlink_inverse_courant. rewrite !(mean_of_links T _ k HT Hk). fold (mean A) (mean Q).
    unfold Rdiv. rewrite !Rabs_mult, !Rabs_inv, (Rabs_pos_eq (mean A)), (Rabs_pos_eq (dx_k k)) by lra.
    pose proof (Rabs_no_R0 _ HQ). field. split; [lra|auto]. }
  split; [exact E|]. intros q a Ha Hq Hu. rewrite E.
  assert (P : 0 < INR (c_nk T k)) by (apply lt_0_INR; pose proof (nk_pos T HT k Hk); lia).
  assert (M : forall x c, (forall j, (j < c_nk T k)%nat -> x (c_i1 T k + j)%nat = c) -> mean x = c).
  { intros x c Hx. unfold mean. rewrite (sum_n_ext _ (fun _ => c)) by auto.
    replace (sum_n (fun _ => c) (c_nk T k)) with (INR (c_nk T k) * c); [field; lra|].
    generalize (c_nk T k) as n. induction n as [|n IH]; [simpl; ring|]. rewrite S_INR. cbn [sum_n]. rewrite <- IH. ring. }
  rewrite (M Q q), (M A a) by (intros; apply Hu; auto).
  assert (Rabs (q / a) <> 0). { apply Rabs_no_R0. unfold Rdiv. apply Rmult_integral_contrapositive_currified; auto. apply Rinv_neq_0_compat. lra. }
  field. auto.
Qed.

(** ** Concentrations *)

(** What the estimates of a link's concentration are for any solution of the transport equations when the arguments are
    passed in the order in which the two functions declare them: the reported concentration, in both directions. *)
Theorem C81_concentrations_in_declared_order N P CO CW CP i o o' lo hi :
  well_formed N -> q_ends_in N CO CW CP -> good_input N P CO CW CP i ->
  obj_clean N P CO CW CP o -> q_step N P CO CW CP i o o' ->
  p_min P <= lo -> hi <= p_max P -> (lo <= 0 <= hi \/ no_reaction N P) ->
  inputs_within N P lo hi (i_bc i) (i_0j i) (i_0I i) -> within N lo hi (ob_c o) ->
  let f := ww_f (ob_w o') in let b := ww_b (ob_w o') in let c := c_I (ob_c o') in
  forall k j, (k < n_K N)%nat -> (j < n_nk N k)%nat ->
  let I := (n_I1 N k + j)%nat in
  c_i (ob_c o') (n_i1 N k + j)%nat = q_c_i_b (c I) (c (n_I1 N k + n_nk N k)%nat) (bX b I) (bY b I) (bZ b I) /\
  c_i (ob_c o') (n_i1 N k + j)%nat = q_c_i_f (c (I + 1)%nat) (c (n_I1 N k)) (fU f I) (fV f I) (fW f I).
Proof.
  intros HW HE Hi Hcl HS H1 H2 HR HI HB f b c k j Hk Hj I.
  destruct (step_main N P CO CW CP i o o' lo hi HW HE Hi Hcl HS H1 H2 HR HI HB) as [[_ Tr] _]. specialize (Tr k Hk).
  destruct HS as [u sol Hu Sol]. cbn [q_complete ob_w ww_f ww_b] in f, b. set (o' := q_complete N P u o sol) in *.
  destruct Hi as [Hdt Hwet Hcon].
  destruct (nw_chain _ _ _ _ _ Hwet k Hk (ob_c o) (i_0I i)) as [Cw _].
  pose proof (nc_chain _ _ _ _ _ _ _ _ _ Hcon k Hk (ob_c o) (i_0I i)) as Cc.
  destruct (C48_recurrence_relations N P CO CW CP (i_F i) (ob_c o) (i_bc i) (i_0j i) (i_Q0j i) (i_0I i) (i_Q0I i) (i_dt i) (ob_w o) u k
    (pieces_of N (ob_c o') k) (junctions_of N (ob_c o') k) HW Hdt Hu Hk Cw Cc) with (j := j) as [F B]; auto.
  - intros j' Hj'. destruct Tr as [Tp _]. specialize (Tp j' ltac:(cbn; lia)). unfold piece_balance in *.
    unfold left_of, right_of in *. cbn [ch_n superlink_chain] in Tp |- *.
    destruct j' as [|j']; [lia|]. destruct (Nat.leb_spec (S j') (n_nk N k)); [exact Tp|lia].
  - intros j' Hj'. apply (proj2 Tr). cbn. lia.
  - assert (E : pieces_of N (ob_c o') k (S j) = c_i (ob_c o') (n_i1 N k + j)%nat).
    { unfold pieces_of. apply along_mid. exact Hj. }
    rewrite E in F, B. unfold junctions_of in F, B. unfold q_c_i_b, q_c_i_f. fold I in F, B. fold c in F, B. fold f in F. fold b in B.
    split; [exact B|]. replace (n_I1 N k + S j)%nat with (I + 1)%nat in F by (unfold I; lia). rewrite Nat.add_0_r in F. exact F.
Qed.

(** As written, the calls pass the arguments in another order, and the result is not the reported concentration: after a
    step of clean water everywhere (concentration 0 before, after, in all inflows) the estimates of the last link's
    concentration are positive. *)
Lemma uneven_describes : describes uneven rest_net.
Proof. split; [exact uneven_contiguous|]. split; [reflexivity|]. intros [|[|k]] Hk; cbn in Hk; [| |lia]; repeat split. Qed.
Theorem C81_recomputed_concentrations_refuted :
  exists N P CO CW CP i o o' T, describes T N /\ good_input N P CO CW CP i /\ q_step N P CO CW CP i o o' /\
    within N 0 0 (ob_c o) /\ within N 0 0 (ob_c o') /\
    exists l, (l < c_NL T)%nat /\ c_i (ob_c o') l = 0 /\
      0 < fst (concentrations_from_recurrence T (ww_f (ob_w o')) (ww_b (ob_w o')) (c_I (ob_c o'))) l.
Proof.
  pose (P := wq_par_ex 0 1 (fun _ => false)).
  assert (Hg : good_input rest_net P wq_ori wq_weir wq_pump (wq_in_ex 0)) by (apply wq_good; lra).
  assert (HB : within rest_net 0 0 (ob_c (wq_fresh (constant_state 0)))) by (constructor; intros; cbn; lra).
  destruct (step_exists rest_net P wq_ori wq_weir wq_pump (wq_in_ex 0) (wq_fresh (constant_state 0))) as [o' Ho];
    [apply rest_net_ok|apply wq_covered|apply wq_ends|exact Hg|apply fresh_clean_obj|].
  destruct (step_main rest_net P wq_ori wq_weir wq_pump (wq_in_ex 0) (wq_fresh (constant_state 0)) o' 0 0) as [_ HW]; auto;
    [apply rest_net_ok|apply wq_ends|apply fresh_clean_obj|cbn; lra|cbn; lra|left; lra|apply wq_inputs; lra|].
  exists rest_net, P, wq_ori, wq_weir, wq_pump, (wq_in_ex 0), (wq_fresh (constant_state 0)), o', uneven.
  split; [exact uneven_describes|]. split; [exact Hg|]. split; [exact Ho|]. split; [exact HB|]. split; [exact HW|].
  exists 4%nat. split; [cbn; lia|].
  assert (HI : c_I (ob_c o') 5%nat = 0 /\ c_I (ob_c o') 6%nat = 0).
  { pose proof (wi_I _ _ _ _ HW 1%nat 1%nat ltac:(cbn; lia) ltac:(cbn; lia)) as A1.
    pose proof (wi_I _ _ _ _ HW 1%nat 2%nat ltac:(cbn; lia) ltac:(cbn; lia)) as A2. cbn [rest_net n_I1 ex_I1 Nat.eqb Nat.add] in A1, A2. lra. }
  split.
  { pose proof (wi_i _ _ _ _ HW 1%nat 1%nat ltac:(cbn; lia) ltac:(cbn; lia)) as A1. cbn [rest_net n_i1 ex_i1 Nat.eqb Nat.add] in A1. lra. }
  unfold concentrations_from_recurrence. cbn [fst]. change (nth 4 (where_ (fun I => negb (c_end uneven I)) (c_NJ uneven)) 0%nat) with 5%nat.
  change (c_I1 uneven (c_ki uneven 4) + c_nk uneven (c_ki uneven 4))%nat with 6%nat. destruct HI as [-> ->]. clear HW HB Hg.
  destruct Ho as [u sol Hu Sol]. cbn [q_complete ob_w ww_b].
  destruct (setup_parts _ _ _ _ _ _ _ _ _ _ _ _ _ _ _ Hu) as (EL & _ & _ & Eb & _). rewrite Eb, EL. clear.
  match goal with |- context [bX ?b 5%nat] => 
    change (bX b 5%nat) with (q_XN (l_al (q_link_coeffs rest_net P wq_flow_ex (constant_state 0) 4) 4%nat) (l_be (q_link_coeffs rest_net P wq_flow_ex (constant_state 0) 4) 4%nat));
    change (bY b 5%nat) with (q_YN (l_ga (q_link_coeffs rest_net P wq_flow_ex (constant_state 0) 4) 4%nat) (l_be (q_link_coeffs rest_net P wq_flow_ex (constant_state 0) 4) 4%nat));
    change (bZ b 5%nat) with (q_ZN (l_ch (q_link_coeffs rest_net P wq_flow_ex (constant_state 0) 4) 4%nat) (l_be (q_link_coeffs rest_net P wq_flow_ex (constant_state 0) 4) 4%nat))
  end.
  cbn [q_link_coeffs l_al l_be l_ch l_ga rest_net n_dx wq_flow_ex f_Qup f_Qdn f_A f_Ap P wq_par_ex p_D p_Ki constant_state c_i].
  unfold q_gamma, q_chi, q_beta, q_alpha, q_omega. destruct (Rltb_spec 0 1); [|lra].
  unfold q_c_i_b, q_XN, q_YN, q_ZN, safe_divide.
  match goal with |- context [Reqb ?x 0] => replace x with (34 / 5) by lra end. destruct (Reqb_spec (34 / 5) 0); [lra|]. lra.
Qed.

(** ** The hypotheses are met *)
Definition single_link : chain :=
  M_LeastSquares.mkChain 1 1 2 (fun _ => 1)%nat (fun _ => 0)%nat (fun _ => 0)%nat (fun _ => 0)%nat (fun _ => 0)%nat (fun i => i)
    (fun I => Nat.eqb I 0) (fun I => Nat.eqb I 1) (fun i => Nat.eqb i 0) (fun i => Nat.eqb i 0).
Lemma single_link_describes : describes single_link fill_net.
Proof.
  split; [constructor; try reflexivity|].
  - intros [|k] H; simpl in *; [split; reflexivity|lia].
  - intros [|k] j Hk Hj; simpl in Hk, Hj; [|lia]. destruct j as [|[|j]]; try lia; repeat split.
  - intros [|k] j Hk Hj; simpl in Hk, Hj; [|lia]. destruct j as [|j]; try lia; repeat split.
  - split; [reflexivity|]. intros [|k] Hk; cbn in Hk; [|lia]. repeat split.
Qed.

(** Filling: the step of [C26_object_example]; its one link reports the flow recomputed in both directions and the depths
    3 at both ends. *)
Example C81_example :
  sound fill /\ constructed fill fill_object /\ admissible fill fill_inputs 60 /\ solver 2 (gauss 2) /\ describes single_link fill_net /\
  exists m', object_step fill (gauss 2) fill_inputs 60 1 0 fill_object = Some (m', 1%nat) /\
    depths_inside fill_net (b_cf (m_body m')) (b_st (m_body m')) /\
    h_Qu (b_st (m_body m')) 0%nat = 11 / 120.
Proof.
  destruct C26_object_example as (A & B & C & m' & E & _ & F & _ & G).
  split; [exact A|]. split; [exact B|]. split; [exact C|]. split; [apply gauss_solver|]. split; [exact single_link_describes|].
  exists m'. auto.
Qed.

(** A chain of three and two links: mean flow 2 through mean area 1 on the first superlink. *)
Example C81_transit_example :
  superlink_inverse_courant uneven (fun _ => 30) (fun i => INR i + 1) (fun _ => 1) 0 = 15.
Proof.
  destruct (C81_transit_time uneven (fun _ => 30) (fun i => INR i + 1) (fun _ => 1) 0%nat uneven_contiguous ltac:(cbn; lia)) as [-> _].
  - lra.
  - cbn. lra.
  - cbn. lra.
  - cbn. rewrite Rabs_pos_eq by lra. lra.
Qed.

(** A front entering two superlinks with decay: the hypotheses of [C81_concentrations_in_declared_order]. *)
Example C81_concentrations_example :
  let P := wq_par_ex (1/100) 1 (fun _ => false) in
  well_formed rest_net /\ q_ends_in rest_net wq_ori wq_weir wq_pump /\ good_input rest_net P wq_ori wq_weir wq_pump (wq_in_ex 10) /\
  obj_clean rest_net P wq_ori wq_weir wq_pump (wq_fresh (wq_front 10)) /\
  (exists o', q_step rest_net P wq_ori wq_weir wq_pump (wq_in_ex 10) (wq_fresh (wq_front 10)) o') /\
  inputs_within rest_net P 0 10 (i_bc (wq_in_ex 10)) (i_0j (wq_in_ex 10)) (i_0I (wq_in_ex 10)) /\
  within rest_net 0 10 (wq_front 10).
Proof.
  intros P. split; [apply rest_net_ok|]. split; [apply wq_ends|]. split; [apply wq_good; lra|]. split; [apply fresh_clean_obj|].
  split; [apply C52_example|]. split; [apply wq_inputs; lra|].
  constructor; intros; cbn; unfold zeros; try destruct (Nat.eqb _ _); lra.
Qed.
