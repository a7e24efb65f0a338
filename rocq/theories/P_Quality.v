(** Theorems C48-C52 and C57: the water-quality solver. *)
From Verif Require Import Prelude M_Coeffs M_Recurrence M_Assembly M_Step M_Quality S_Superlink S_Network S_Step S_Quality
  L_Forward L_Assembly L_Step L_Sweep L_Quality L_QualityStep L_QualityNet L_QualityMax L_Square L_QualitySolve P_Superlink P_Step.

(** Every internal junction belongs to a superlink. *)
Definition covered (N : network) : Prop :=
  forall I, (I < n_J N)%nat -> exists k j, (k < n_K N)%nat /\ (j <= n_nk N k)%nat /\ I = (n_I1 N k + j)%nat.
(** One step's data: positive step, wet and diffusing network, volume conserved. *)
Record good_input (N : network) (P : wq_par) (CO CW CP : wq_ctl) (i : wq_in) : Prop := mkGood {
  gi_dt : 0 < i_dt i;
  gi_wet : network_wet N P (i_F i) (i_Q0j i) (i_Q0I i);
  gi_con : network_conserves N P CO CW CP (i_F i) (i_Q0j i) (i_Q0I i) (i_dt i) }.

(** ** C48: recurrences *)

(** Whatever satisfies the balances of the links and junctions inside superlink k satisfies the forward and the
    backward relation of every link (no diffusion needed). *)
Theorem C48_recurrence_relations N P CO CW CP F c c_bc c_0j Q_0j c_0I Q_0I dt w u k L Nd :
  well_formed N -> 0 < dt -> q_setup N P CO CW CP F c c_bc c_0j Q_0j c_0I Q_0I dt w = Some u -> (k < n_K N)%nat ->
  chain_wet (superlink_chain N P F c c_0I Q_0I k) -> chain_conserves (superlink_chain N P F c c_0I Q_0I k) dt ->
  (forall j, (1 <= j <= n_nk N k)%nat -> piece_balance (superlink_chain N P F c c_0I Q_0I k) dt 0 0 L Nd j) ->
  (forall j, (1 <= j < n_nk N k)%nat -> junction_balance (superlink_chain N P F c c_0I Q_0I k) dt L Nd j) ->
  forall j, (j < n_nk N k)%nat ->
    let I := (n_I1 N k + j)%nat in
    L (S j) = fU (su_f u) I * Nd (S j) + fV (su_f u) I + fW (su_f u) I * Nd 0%nat /\
    L (S j) = bX (su_b u) I * Nd j + bY (su_b u) I + bZ (su_b u) I * Nd (n_nk N k).
Proof.
  intros HW Hdt Hu Hk Cw Cc H1 H2 j Hj. cbv zeta.
  assert (HI : interior N P F c c_0I Q_0I dt k L Nd) by (split; auto).
  split; [eapply forward_relation|eapply backward_relation]; eauto.
Qed.

(** With diffusion, whatever satisfies the whole chain between concentrations cj of its two superjunctions has the end
    concentrations the solver computes. *)
Theorem C48_end_relations N P CO CW CP F c c_bc c_0j Q_0j c_0I Q_0I dt w u k cj L Nd :
  well_formed N -> 0 < dt -> q_setup N P CO CW CP F c c_bc c_0j Q_0j c_0I Q_0I dt w = Some u -> (k < n_K N)%nat ->
  chain_wet (superlink_chain N P F c c_0I Q_0I k) -> chain_conserves (superlink_chain N P F c c_0I Q_0I k) dt ->
  chain_diffuses (superlink_chain N P F c c_0I Q_0I k) ->
  chain_transport (superlink_chain N P F c c_0I Q_0I k) dt (cj (n_Ju N k)) (cj (n_Jd N k)) L Nd ->
  q_end_u N u cj k = L 0%nat /\ q_end_d N u cj k = L (S (n_nk N k)) /\
  q_node_1 N u cj k = Nd 0%nat /\ q_node_N N u cj k = Nd (n_nk N k).
Proof. intros. eapply ends_exact; eauto. Qed.

(** ** The step is defined *)
Lemma setup_defined N P CO CW CP i o :
  well_formed N -> covered N -> good_input N P CO CW CP i ->
  exists u, q_prepare N P CO CW CP i o = Some u.
Proof.
  intros HW HC [Hdt Hwet _]. unfold q_prepare, q_setup, q_node_coeffs.
  destruct (all_entries_total (n_J N) (ww_nd (ob_w o)) (q_node_coeff N P (i_F i) (ob_c o) (i_0I i) (i_Q0I i) (i_dt i))) as [nd Hnd].
  - intros I HI. destruct (HC I HI) as (k & j & Hk & Hj & ->).
    destruct (wf_chain N HW k j Hk Hj) as (EK & ES & EE & EF & EB).
    destruct (nw_chain _ _ _ _ _ Hwet k Hk (ob_c o) (i_0I i)) as [(D & _) _].
    pose proof (wf_layout N HW) as [Hn _]. specialize (Hn k Hk).
    assert (Du : n_dxu N k <> 0) by (destruct (D 0%nat ltac:(lia)) as (X & _); unfold superlink_chain in X; cbn in X; lra).
    assert (Dd : n_dxd N k <> 0).
    { destruct (D (S (n_nk N k)) ltac:(simpl; lia)) as (X & _). unfold superlink_chain in X. cbn [ch_dx] in X.
      rewrite along_end in X. lra. }
    assert (Dx : forall m, (m < n_nk N k)%nat -> n_dx N (n_i1 N k + m)%nat <> 0).
    { intros m Hm. destruct (D (S m) ltac:(simpl; lia)) as (X & _). unfold superlink_chain in X. cbn [ch_dx] in X.
      rewrite along_mid in X by auto. lra. }
    unfold q_node_coeff. rewrite ES, EE, EK.
    destruct (Nat.eqb_spec j 0) as [->|Hj0]; [|destruct (Nat.eqb_spec j (n_nk N k)) as [->|Hjn]].
    + rewrite EF by lia. pose proof (Dx 0%nat ltac:(lia)). unfold q_kappa, q_lambda, q_mu, q_eta.
      rewrite !div_nz by (auto; lra). cbn [bind]. eauto.
    + rewrite EB by lia. pose proof (Dx (n_nk N k - 1)%nat ltac:(lia)) as G.
      replace (n_i1 N k + (n_nk N k - 1))%nat with (n_i1 N k + n_nk N k - 1)%nat in G by lia. unfold q_kappa, q_lambda, q_mu, q_eta.
      rewrite !div_nz by (auto; lra). cbn [bind]. eauto.
    + rewrite EF by lia. pose proof (Dx j ltac:(lia)). pose proof (Dx (j - 1)%nat ltac:(lia)) as G.
      replace (n_i1 N k + (j - 1))%nat with (n_i1 N k + j - 1)%nat in G by lia. unfold q_kappa, q_lambda, q_mu, q_eta.
      rewrite !div_nz by (auto; lra). cbn [bind]. eauto.
  - rewrite Hnd. cbn [bind]. eauto.
Qed.

Definition obj_clean N P CO CW CP o := q_clean N P CO CW CP (ww_s (ob_w o)).

Lemma step_clean N P CO CW CP i o o' :
  obj_clean N P CO CW CP o -> q_step N P CO CW CP i o o' -> obj_clean N P CO CW CP o'.
Proof.
  unfold obj_clean. intros Hc [u sol Hu HS].
  cbn [ob_w ww_s q_complete]. destruct (setup_parts _ _ _ _ _ _ _ _ _ _ _ _ _ _ _ Hu) as (_ & _ & _ & _ & _ & ->).
  now apply q_assembly_ok.
Qed.
Lemma fresh_clean_obj N P CO CW CP c : obj_clean N P CO CW CP (wq_fresh c).
Proof. apply fresh_q_clean. Qed.

(** Concentrations reported by [o] solve all transport equations from those of [o0]. *)
Definition transported N P CO CW CP i (o0 o : wq_obj) : Prop :=
  network_transport N P CO CW CP (i_F i) (ob_c o0) (i_bc i) (i_0j i) (i_Q0j i) (i_0I i) (i_Q0I i) (i_dt i) (ob_c o).

(** The step can be taken. *)
Lemma step_exists N P CO CW CP i o :
  well_formed N -> covered N -> q_ends_in N CO CW CP -> good_input N P CO CW CP i -> obj_clean N P CO CW CP o ->
  exists o', q_step N P CO CW CP i o o'.
Proof.
  intros HW HC HE Hi Hcl. destruct (setup_defined N P CO CW CP i o HW HC Hi) as [u Hu].
  destruct Hi as [Hdt Hwet Hcon].
  destruct (lin_solvable N P CO CW CP (i_F i) (i_0j i) (i_Q0j i) (i_0I i) (i_Q0I i) (i_dt i) (ob_w o) HW Hdt HE Hwet Hcon Hcl _ _ u Hu) as [sol HS].
  eexists. eapply q_step_intro; [exact Hu|exact HS].
Qed.
Lemma steps_exist N P CO CW CP is o :
  well_formed N -> covered N -> q_ends_in N CO CW CP -> List.Forall (good_input N P CO CW CP) is -> obj_clean N P CO CW CP o ->
  exists o', q_steps N P CO CW CP is o o'.
Proof.
  intros HW HC HE HF. revert o. induction HF as [|i is Hi HF IH]; intros o Hcl; [eexists; constructor|].
  destruct (step_exists N P CO CW CP i o HW HC HE Hi Hcl) as [o1 H1].
  destruct (IH o1 (step_clean _ _ _ _ _ _ _ _ Hcl H1)) as [o2 H2]. eexists. econstructor; eauto.
Qed.

Lemma step_main N P CO CW CP i o o' lo hi :
  well_formed N -> q_ends_in N CO CW CP -> good_input N P CO CW CP i ->
  obj_clean N P CO CW CP o -> q_step N P CO CW CP i o o' ->
  p_min P <= lo -> hi <= p_max P -> (lo <= 0 <= hi \/ no_reaction N P) ->
  inputs_within N P lo hi (i_bc i) (i_0j i) (i_0I i) -> within N lo hi (ob_c o) ->
  transported N P CO CW CP i o o' /\ within N lo hi (ob_c o').
Proof.
  intros HW HE [Hdt Hwet Hcon] Hcl [u sol Hu HS] H1 H2 HR HI HB.
  exact (step_transport N P CO CW CP (i_F i) (i_0j i) (i_Q0j i) (i_0I i) (i_Q0I i) (i_dt i) (ob_w o) HW Hdt HE Hwet Hcon Hcl
     (ob_c o) (i_bc i) u _ lo hi Hu HS H1 H2 HR HI HB).
Qed.
Lemma steps_within N P CO CW CP lo hi is o o' :
  well_formed N -> q_ends_in N CO CW CP -> q_steps N P CO CW CP is o o' ->
  p_min P <= lo -> hi <= p_max P -> (lo <= 0 <= hi \/ no_reaction N P) ->
  List.Forall (fun i => good_input N P CO CW CP i /\ inputs_within N P lo hi (i_bc i) (i_0j i) (i_0I i)) is ->
  obj_clean N P CO CW CP o -> within N lo hi (ob_c o) -> within N lo hi (ob_c o').
Proof.
  intros HW HE HS H1 H2 HR. induction HS as [o|i is o o1 o2 Hst HS IH]; intros HF Hcl HB; auto.
  inversion HF as [|? ? [Hi HI] HF']; subst. apply IH; auto.
  - eapply step_clean; eauto.
  - eapply step_main; eauto.
Qed.

(** ** C50: bounds *)

(** Inside one superlink between given superjunction concentrations: every solution of its transport equations lies
    between 0 and any common bound of the boundary, inflow and previous concentrations. *)
Theorem C50_superlink_bounds C dt a z L Nd B :
  0 < dt -> chain_wet C -> chain_conserves C dt -> chain_transport C dt a z L Nd ->
  0 <= a <= B -> 0 <= z <= B ->
  (forall j, (j <= ch_n C + 1)%nat -> 0 <= ch_cp C j <= B) ->
  (forall j, (j <= ch_n C)%nat -> 0 <= ch_cIp C j <= B /\ 0 <= ch_c0 C j <= B) ->
  (forall j, (j <= ch_n C + 1)%nat -> 0 <= L j <= B) /\ (forall j, (j <= ch_n C)%nat -> 0 <= Nd j <= B).
Proof.
  intros Hdt Hw Hc HT Ha Hz Hp Hn. destruct Hw as (W1 & W2 & W3). assert (Hw : chain_wet C) by (repeat split; auto; apply W1 || apply W2; auto).
  destruct (chain_max C dt Hdt Hw Hc a z L Nd HT 1 B) as [U1 U2]; try lra.
  - intros j Hj. specialize (Hp j Hj). destruct (W1 j Hj) as (_ & _ & _ & K). split; [lra|]. apply Rmult_le_pos; lra.
  - intros j Hj. specialize (Hn j Hj). destruct (W2 j Hj) as (_ & _ & K & _). split; [lra|split; [lra|]]. apply Rmult_le_pos; lra.
  - destruct (chain_max C dt Hdt Hw Hc a z L Nd HT (-1) 0) as [V1 V2]; try lra.
    + intros j Hj. specialize (Hp j Hj). split; lra.
    + intros j Hj. specialize (Hn j Hj). split; [lra|split; lra].
    + split; intros j Hj.
      * specialize (U1 j Hj). specialize (V1 j Hj). lra.
      * specialize (U2 j Hj). specialize (V2 j Hj). lra.
Qed.

(** There is such a solution, and only one. *)
Theorem C50_superlink_solution C dt a z :
  0 < dt -> chain_wet C -> chain_conserves C dt ->
  exists L Nd, chain_transport C dt a z L Nd /\
    forall L' Nd', chain_transport C dt a z L' Nd' ->
      (forall j, (j <= ch_n C + 1)%nat -> L' j = L j) /\ (forall j, (j <= ch_n C)%nat -> Nd' j = Nd j).
Proof.
  intros Hdt Hw Hc. destruct (transport_solvable C dt Hdt Hw Hc a z) as (L & Nd & HT). exists L, Nd. split; auto.
  intros L' Nd' HT'.
  pose (C0 := mkChain (ch_n C) (ch_Qup C) (ch_Qdn C) (ch_A C) (ch_Ap C) (ch_D C) (ch_dx C) (ch_K C) zeros
                (ch_AS C) (ch_h C) (ch_hp C) (ch_KI C) (ch_Q0 C) zeros zeros).
  assert (H0 : chain_transport C0 dt (a - a) (z - z) (fun j => L' j - L j) (fun j => Nd' j - Nd j)).
  { destruct HT as [A1 A2], HT' as [B1 B2]. split; intros j Hj.
    - specialize (A1 j Hj). specialize (B1 j Hj). unfold piece_balance in *.
      rewrite left_minus, right_minus, !face_minus. change (ch_cp C0 j) with 0. rewrite (storage_minus _ _ _ _ (ch_cp C j)).
      cbn [ch_n ch_Qup ch_Qdn ch_A ch_Ap ch_D ch_dx ch_K C0]. lra.
    - specialize (A2 j Hj). specialize (B2 j Hj). unfold junction_balance in *.
      rewrite !face_minus. change (ch_cIp C0 j) with 0. change (ch_c0 C0 j) with 0. rewrite (storage_minus _ _ _ _ (ch_cIp C j)).
      cbn [ch_Qup ch_Qdn ch_A ch_Ap ch_D ch_dx ch_AS ch_h ch_hp ch_KI ch_Q0 C0]. lra. }
  destruct (C50_superlink_bounds C0 dt _ _ _ _ 0 Hdt Hw Hc H0) as [R1 R2]; try lra.
  - intros; cbn; unfold zeros; lra.
  - intros; cbn; unfold zeros; lra.
  - split; intros j Hj; [specialize (R1 j Hj)|specialize (R2 j Hj)]; lra.
Qed.

(** The whole solver: on a wet, diffusing, volume-conserving network a run never fails (the linear system is always
    solvable), and all reported concentrations -- junctions, links, superlink ends and superjunctions -- stay within
    [0, B] if initial, inflow and boundary concentrations are.  Over any number of steps. *)
Theorem C50_step_bounds N P CO CW CP is c B :
  well_formed N -> covered N -> q_ends_in N CO CW CP ->
  p_min P <= 0 -> B <= p_max P -> 0 <= B -> within N 0 B c ->
  List.Forall (fun i => good_input N P CO CW CP i /\ inputs_within N P 0 B (i_bc i) (i_0j i) (i_0I i)) is ->
  (exists o', q_steps N P CO CW CP is (wq_fresh c) o') /\
  (forall o', q_steps N P CO CW CP is (wq_fresh c) o' -> within N 0 B (ob_c o')).
Proof.
  intros HW HC HE H1 H2 H0 HB HF. split.
  - apply steps_exist; auto using fresh_clean_obj. eapply List.Forall_impl; [|exact HF]. intros i Hi; apply Hi.
  - intros o' HS. eapply (steps_within N P CO CW CP 0 B is (wq_fresh c) o'); auto using fresh_clean_obj. left; lra.
Qed.
(** Each of these steps reports the one solution of the network's transport equations. *)
Theorem C50_step_exact N P CO CW CP i is c o o' B :
  well_formed N -> q_ends_in N CO CW CP ->
  p_min P <= 0 -> B <= p_max P -> 0 <= B -> within N 0 B c ->
  List.Forall (fun i => good_input N P CO CW CP i /\ inputs_within N P 0 B (i_bc i) (i_0j i) (i_0I i)) (cons i is) ->
  q_steps N P CO CW CP is (wq_fresh c) o -> q_step N P CO CW CP i o o' ->
  transported N P CO CW CP i o o' /\
  (forall c'', network_transport N P CO CW CP (i_F i) (ob_c o) (i_bc i) (i_0j i) (i_Q0j i) (i_0I i) (i_Q0I i) (i_dt i) c'' ->
               agree N (ob_c o') c'').
Proof.
  intros HW HE H1 H2 H0 HB HF HS Hst. inversion HF as [|? ? [Hi HI] HF']; subst.
  assert (Hcl : obj_clean N P CO CW CP o).
  { pose proof (fresh_clean_obj N P CO CW CP c) as Hf. revert Hf. clear -HS. induction HS; auto. intros. apply IHHS. eapply step_clean; eauto. }
  assert (Ho : within N 0 B (ob_c o)).
  { eapply (steps_within N P CO CW CP 0 B is (wq_fresh c) o); auto using fresh_clean_obj. left; lra. }
  destruct (step_main N P CO CW CP i o o' 0 B HW HE Hi Hcl Hst H1 H2 (or_introl (conj (Rle_refl 0) H0)) HI Ho) as [T _].
  split; auto. intros c'' T'. destruct Hi as [Hdt Hwet Hcon].
  exact (transport_unique N P CO CW CP (i_F i) (i_0j i) (i_Q0j i) (i_0I i) (i_Q0I i) (i_dt i) Hdt HE Hwet Hcon _ _ _ _ T T').
Qed.

(** ** C49: constant concentration *)
Definition constant_state (c : R) : wq_state := mkWq (fun _ => c) (fun _ => c) (fun _ => c) (fun _ => c) (fun _ => c).

Lemma along_const n i1 c k j : along n i1 (fun _ => c) (fun _ => c) (fun _ => c) k j = c.
Proof. unfold along. destruct (Nat.eqb j 0), (Nat.leb j n); reflexivity. Qed.
Lemma face_const Q c D A dx : face Q c c D A dx = Q * c.
Proof. unfold face, Rdiv. destruct (Rltb 0 Q); ring. Qed.
Lemma control_flux_const Q c : control_flux Q c c = Q * c.
Proof. unfold control_flux. destruct (Rleb 0 Q); ring. Qed.

(** Concentration c everywhere solves every transport equation. *)
Theorem C49_constant_solves N P CO CW CP F c0 c_bc c_0j Q_0j c_0I Q_0I dt c :
  network_conserves N P CO CW CP F Q_0j Q_0I dt -> no_reaction N P ->
  inputs_within N P c c c_bc c_0j c_0I -> within N c c c0 ->
  network_transport N P CO CW CP F c0 c_bc c_0j Q_0j c_0I Q_0I dt (constant_state c).
Proof.
  intros HCon HR HI HB. split.
  - intros j Hj. cbn [c_j constant_state]. destruct (p_bc P j) eqn:Eb.
    + pose proof (in_bc _ _ _ _ _ _ _ HI j Hj Eb). lra.
    + pose proof (nc_junction _ _ _ _ _ _ _ _ _ HCon j Hj Eb) as HV.
      pose proof (in_j _ _ _ _ _ _ _ HI j Hj). pose proof (wi_j _ _ _ _ HB j Hj).
      assert (EI : c_0j j = c) by lra. assert (EP : c_j c0 j = c) by lra.
      unfold superjunction_balance, superjunction_conserves, controls_net, controls_flow in *. cbn [c_u c_d].
      rewrite EI, EP, (nr_j _ _ HR) by auto.
      assert (G : forall q (Q : arr) n, sum_if q (fun m => control_flux (Q m) c c) n = sum_if q Q n * c).
      { intros. rewrite <- sum_if_scal_r. apply sum_n_ext. intros m Hm. rewrite control_flux_const. reflexivity. }
      assert (G2 : forall q (Q D A dx : arr) n, sum_if q (fun k => face (Q k) c c (D k) (A k) (dx k)) n = sum_if q Q n * c).
      { intros. rewrite <- sum_if_scal_r. apply sum_n_ext. intros m Hm. rewrite face_const. reflexivity. }
      rewrite !G, !G2. unfold storage. rewrite Rminus_diag_eq by reflexivity.
      unfold Rdiv in *. replace ((f_V F j * 0 + (f_V F j - f_Vp F j) * c) * / dt) with ((f_V F j - f_Vp F j) * / dt * c) by ring.
      rewrite HV. ring.
  - intros k Hk. pose proof (nc_chain _ _ _ _ _ _ _ _ _ HCon k Hk c0 c_0I) as [C1 C2].
    cbn [c_j constant_state]. split; intros j Hj.
    + specialize (C1 j Hj). unfold piece_balance.
      assert (E1 : left_of c (junctions_of N (constant_state c) k) j = c) by (destruct j; reflexivity).
      assert (E2 : right_of (ch_n (superlink_chain N P F c0 c_0I Q_0I k)) c (junctions_of N (constant_state c) k) j = c)
        by (unfold right_of; destruct (Nat.leb _ _); reflexivity).
      assert (E3 : pieces_of N (constant_state c) k j = c) by (exact (along_const (n_nk N k) (n_i1 N k) c k _)).
      assert (E4 : ch_cp (superlink_chain N P F c0 c_0I Q_0I k) j = c).
      { cbn [ch_cp superlink_chain ch_n] in *. destruct j as [|j]; [rewrite along_0; pose proof (wi_u _ _ _ _ HB k Hk); lra|].
        destruct (Nat.eq_dec j (n_nk N k)) as [->|]; [rewrite along_end; pose proof (wi_d _ _ _ _ HB k Hk); lra|].
        rewrite along_mid by lia. pose proof (wi_i _ _ _ _ HB k j Hk ltac:(lia)). lra. }
      assert (E5 : ch_K (superlink_chain N P F c0 c_0I Q_0I k) j = 0).
      { cbn [ch_K superlink_chain ch_n] in *. destruct j as [|j]; [reflexivity|].
        destruct (Nat.eq_dec j (n_nk N k)) as [->|]; [unfold along; cbn [Nat.eqb]; destruct (Nat.leb_spec (S (n_nk N k)) (n_nk N k)); [lia|reflexivity]|].
        rewrite along_mid by lia. apply (nr_i _ _ HR); auto; lia. }
      rewrite E1, E2, E3, E4, E5, !face_const. unfold storage, Rdiv in *.
      set (V := ch_dx _ j * ch_A _ j) in *. set (Vp := ch_dx _ j * ch_Ap _ j) in *.
      replace ((V * (c - c) + (V - Vp) * c) * / dt) with ((V - Vp) * / dt * c) by ring. rewrite C1. ring.
    + specialize (C2 j Hj). unfold junction_balance.
      assert (E3 : forall j, pieces_of N (constant_state c) k j = c) by (intros; exact (along_const (n_nk N k) (n_i1 N k) c k _)).
      assert (E4 : ch_cIp (superlink_chain N P F c0 c_0I Q_0I k) j = c)
        by (cbn [ch_cIp superlink_chain ch_n] in *; pose proof (wi_I _ _ _ _ HB k j Hk Hj); lra).
      assert (E5 : ch_KI (superlink_chain N P F c0 c_0I Q_0I k) j = 0)
        by (cbn [ch_KI superlink_chain ch_n] in *; apply (nr_I _ _ HR); auto).
      assert (E6 : ch_c0 (superlink_chain N P F c0 c_0I Q_0I k) j = c)
        by (cbn [ch_c0 superlink_chain ch_n] in *; pose proof (in_I _ _ _ _ _ _ _ HI k j Hk Hj); lra).
      change (junctions_of N (constant_state c) k j) with c.
      rewrite !E3, E4, E5, E6, !face_const. unfold storage, Rdiv in *.
      set (V := ch_AS _ j * ch_h _ j) in *. set (Vp := ch_AS _ j * ch_hp _ j) in *.
      replace ((V * (c - c) + (V - Vp) * c) * / dt) with ((V - Vp) * / dt * c) by ring. rewrite C2. ring.
Qed.

(** And the solver keeps it: a uniform concentration stays uniform over any number of steps. *)
Theorem C49_constant_kept N P CO CW CP is c0 c :
  well_formed N -> covered N -> q_ends_in N CO CW CP ->
  p_min P <= c <= p_max P -> within N c c c0 -> no_reaction N P ->
  List.Forall (fun i => good_input N P CO CW CP i /\ inputs_within N P c c (i_bc i) (i_0j i) (i_0I i)) is ->
  (exists o', q_steps N P CO CW CP is (wq_fresh c0) o') /\
  (forall o', q_steps N P CO CW CP is (wq_fresh c0) o' -> within N c c (ob_c o')).
Proof.
  intros HW HC HE [H1 H2] HB HR HF. split.
  - apply steps_exist; auto using fresh_clean_obj. eapply List.Forall_impl; [|exact HF]. intros i Hi; apply Hi.
  - intros o' HS. eapply (steps_within N P CO CW CP c c is (wq_fresh c0) o'); auto using fresh_clean_obj.
Qed.

(** ** C51: limits *)
Theorem C51_step_limits N P CO CW CP i o o' :
  p_min P <= p_max P -> q_step N P CO CW CP i o o' ->
  forall x, p_min P <= c_j (ob_c o') x <= p_max P /\ p_min P <= c_I (ob_c o') x <= p_max P /\
            p_min P <= c_i (ob_c o') x <= p_max P /\ p_min P <= c_u (ob_c o') x <= p_max P /\
            p_min P <= c_d (ob_c o') x <= p_max P.
Proof.
  intros Hl [u sol Hu HS] x. cbn [ob_c q_complete]. unfold q_finish.
  destruct (q_solve_internals _ _ _ _ _ _ _) as [cI ci]. cbn [c_j c_I c_i c_u c_d].
  repeat split; (apply clip_range || apply limit_range); auto.
Qed.

(** ** C52: controls *)

(** The entries a family of controls contributes to the solved system: row j of a superjunction without prescribed
    concentration is minus the net constituent flux into it -- for every control the flux  max(Q,0) a - max(-Q,0) b
    that leaves its upstream junction and enters its downstream junction. *)
Definition upwind (Q a b : R) : R := Rmax Q 0 * a - Rmax (- Q) 0 * b.
Theorem C52_control_rows M bc C Q X dg X' dg' v j :
  ctl_clean M bc C X -> q_controls X dg bc M C Q = (X', dg') -> ends_in M (t_n C) (t_Ju C) (t_Jd C) ->
  (j < M)%nat -> bc j = false ->
  sum_n (fun i => X' j i * v i) M
  = sum_n (fun m => (if Nat.eqb (t_Ju C m) j then upwind (Q m) (v (t_Ju C m)) (v (t_Jd C m)) else 0)
                    - (if Nat.eqb (t_Jd C m) j then upwind (Q m) (v (t_Ju C m)) (v (t_Jd C m)) else 0)) (t_n C).
Proof.
  intros Hc HX He Hj Hb. destruct (q_controls_ok _ _ _ _ _ _ _ _ Hc HX) as [VX _].
  rewrite (sum_n_ext _ (fun i => entry bc 0 (q_diag_C C Q) (t_Ju C) (t_Jd C) (fun m => Q m * q_omega_ge (Q m))
                    (fun m => Q m * (1 - q_omega_ge (Q m))) (t_n C) j i * v i)) by (intros; now rewrite VX).
  rewrite entry_row by auto. rewrite Hb. pose proof (control_row C Q v j) as R. unfold controls_net, sum_if in R.
  rewrite sum_n_minus.
  assert (EU : forall Q a b, upwind Q a b = control_flux Q a b).
  { intros q a b. unfold upwind, control_flux. destruct (Rleb_spec 0 q).
    - rewrite Rmax_left, Rmax_right by lra. ring.
    - rewrite Rmax_right, Rmax_left by lra. ring. }
  rewrite (sum_n_ext (fun m => if Nat.eqb (t_Ju C m) j then upwind (Q m) (v (t_Ju C m)) (v (t_Jd C m)) else 0)
             (fun m => if Nat.eqb (t_Ju C m) j then control_flux (Q m) (v (t_Ju C m)) (v (t_Jd C m)) else 0))
    by (intros; now rewrite EU).
  rewrite (sum_n_ext (fun m => if Nat.eqb (t_Jd C m) j then upwind (Q m) (v (t_Ju C m)) (v (t_Jd C m)) else 0)
             (fun m => if Nat.eqb (t_Jd C m) j then control_flux (Q m) (v (t_Ju C m)) (v (t_Jd C m)) else 0))
    by (intros; now rewrite EU).
  unfold sum_if. lra.
Qed.

(** Summed over the network the controls neither create nor destroy constituent. *)
Theorem C52_controls_conserve M bc C Q X dg X' dg' v :
  ctl_clean M bc C X -> q_controls X dg bc M C Q = (X', dg') -> ends_in M (t_n C) (t_Ju C) (t_Jd C) ->
  (forall j, (j < M)%nat -> bc j = false) ->
  sum_n (fun j => sum_n (fun i => X' j i * v i) M) M = 0.
Proof.
  intros Hc HX He Hb.
  rewrite (sum_n_ext _ (fun j => sum_n (fun m => (if Nat.eqb (t_Ju C m) j then upwind (Q m) (v (t_Ju C m)) (v (t_Jd C m)) else 0)
                    - (if Nat.eqb (t_Jd C m) j then upwind (Q m) (v (t_Ju C m)) (v (t_Jd C m)) else 0)) (t_n C)))
    by (intros; eapply C52_control_rows; eauto).
  rewrite sum_n_swap. apply sum_n_0. intros m Hm. destruct (He m Hm) as [E1 E2]. rewrite sum_n_minus.
  rewrite (sum_n_single _ M (t_Ju C m)), (sum_n_single (fun j => if Nat.eqb (t_Jd C m) j then _ else 0) M (t_Jd C m)); auto.
  - rewrite !Nat.eqb_refl. lra.
  - intros i _ Hne. destruct (Nat.eqb_spec (t_Jd C m) i); auto. congruence.
  - intros i _ Hne. destruct (Nat.eqb_spec (t_Ju C m) i); auto. congruence.
Qed.

(** The solved system consists of the mass balances of the superjunctions, controls included, between the end
    concentrations reported for the superlinks. *)
Theorem C52_system_is_balance N P CO CW CP i o u sol j :
  q_prepare N P CO CW CP i o = Some u ->
  obj_clean N P CO CW CP o -> q_ends_in N CO CW CP -> i_dt i <> 0 -> (j < n_M N)%nat ->
  (forall k, (k < n_K N)%nat -> n_dxu N k <> 0 /\ n_dxd N k <> 0) ->
  row_holds (n_M N) (q_matrix CO CW CP (su_s u)) (s_b (su_s u)) sol j <->
  if p_bc P j then sol j = i_bc i j
  else superjunction_balance N P CO CW CP (i_F i) (c_j (ob_c o)) (i_0j i) (i_Q0j i) (i_dt i) sol (q_end_u N u sol) (q_end_d N u sol) j.
Proof.
  intros Hu Hc He Hdt Hj Hdx. destruct (setup_parts _ _ _ _ _ _ _ _ _ _ _ _ _ _ _ Hu) as (_ & _ & _ & _ & _ & ES).
  rewrite ES. apply q_row_balance; auto.
Qed.
