(** Property C32: renumbering the junctions does not change the physics. *)
From Verif Require Import Prelude M_Coeffs M_Recurrence M_Assembly M_Step M_Banded S_Superlink S_Network S_Step
  L_Internals L_Assembly P_Superlink P_Assembly P_Step.

(** [perm_inv = np.argsort(perm)] for a permutation of 0 .. M-1. *)
Record permutation_of (M : nat) (perm perm_inv : nat -> nat) : Prop := mkPerm {
  pm_lt : forall p, (p < M)%nat -> (perm p < M)%nat;
  pm_inv_lt : forall j, (j < M)%nat -> (perm_inv j < M)%nat;
  pm_l : forall p, (p < M)%nat -> perm_inv (perm p) = p;
  pm_r : forall j, (j < M)%nat -> perm (perm_inv j) = j }.

(** The element tables after renumbering (superlink.py:975-1000): only the end junctions change. *)
Definition renumber_superlinks (pinv : nat -> nat) (K : superlinks) : superlinks :=
  mkSuperlinks (k_n K) (renumber pinv (k_Ju K)) (renumber pinv (k_Jd K))
    (k_au K) (k_bu K) (k_cu K) (k_ad K) (k_bd K) (k_cd K) (k_dxu K) (k_Bu K) (k_thu K) (k_dxd K) (k_Bd K) (k_thd K).
Definition renumber_controls (pinv : nat -> nat) (C : controls) : controls :=
  mkControls (c_n C) (renumber pinv (c_Ju C)) (renumber pinv (c_Jd C)) (c_a C) (c_b C) (c_c C).
Definition renumber_network (perm pinv : nat -> nat) (N : network) : network :=
  mkNetwork (n_K N) (n_nk N) (n_i1 N) (n_I1 N) (renumber pinv (n_Ju N)) (renumber pinv (n_Jd N)) (n_L N) (n_J N)
    (n_kI N) (n_fwdi N) (n_bwdi N) (n_isS N) (n_isE N) (n_lstart N) (n_lend N) (n_dx N) (n_n N) (n_sf N) (n_So N) (n_Ac N)
    (n_C N) (n_ctrl N) (n_ASI N) (n_dxu N) (n_dxd N) (n_Cu N) (n_Cd N) (n_zu N) (n_zd N) (n_nu N) (n_nd N) (n_sfu N) (n_sfd N)
    (n_Su N) (n_Sd N) (n_M N) (resort perm (n_bc N)) (resort perm (n_zj N)) (resort perm (n_maxj N)) (n_min N) (n_maxk N)
    (n_end_o N) (n_bcm N) (n_damp N) (n_back N).
Definition renumber_geometry (perm : nat -> nat) (G : geometry) : geometry :=
  mkGeom (g_A G) (g_R G) (g_B G) (g_Au G) (g_Ru G) (g_Bu G) (g_Ad G) (g_Rd G) (g_Bd G) (resort perm (g_Asj G)).

Section Renumbering.
  Variables (M : nat) (perm pinv : nat -> nat).
  Hypothesis HP : permutation_of M perm pinv.

  Lemma renumber_eqb J p : (J < M)%nat -> (p < M)%nat -> Nat.eqb (pinv J) p = Nat.eqb J (perm p).
  Proof.
    intros HJ Hp. destruct (Nat.eqb_spec (pinv J) p) as [Ep|Hne]; destruct (Nat.eqb_spec J (perm p)) as [E|E]; auto.
    - exfalso. apply E. rewrite <- Ep. symmetry. now apply (pm_r _ _ _ HP).
    - exfalso. apply Hne. rewrite E. now apply (pm_l _ _ _ HP).
  Qed.

  Lemma renumber_ends n Ju Jd : ends_in M n Ju Jd -> ends_in M n (renumber pinv Ju) (renumber pinv Jd).
  Proof. intros HE k Hk. destruct (HE k Hk). split; apply (pm_inv_lt _ _ _ HP); auto. Qed.

  Lemma renumber_network_ok K CO CW CP :
    network_ok M K CO CW CP ->
    network_ok M (renumber_superlinks pinv K) (renumber_controls pinv CO) (renumber_controls pinv CW) (renumber_controls pinv CP).
  Proof. intros (H1 & H2 & H3 & H4). repeat apply conj; apply renumber_ends; auto. Qed.

  Lemma renumber_sum n J f f' p : (p < M)%nat -> (forall k, (k < n)%nat -> (J k < M)%nat) ->
    (forall k, (k < n)%nat -> f' k = f k) ->
    sum_if (fun k => Nat.eqb (renumber pinv J k) p) f' n = sum_if (fun k => Nat.eqb (J k) (perm p)) f n.
  Proof.
    intros Hp HJ Hf. apply sum_if_ext. intros k Hk. split; [apply renumber_eqb; auto|]. intros _. apply Hf; auto.
  Qed.

  Lemma renumber_superlink_inflow K H p : (p < M)%nat -> ends_in M (k_n K) (k_Ju K) (k_Jd K) ->
    net_inflow (superlink_elements (renumber_superlinks pinv K)) (resort perm H) p
    = net_inflow (superlink_elements K) H (perm p).
  Proof.
    intros Hp HE. unfold net_inflow; simpl.
    f_equal; apply renumber_sum; auto; intros k Hk; destruct (HE k Hk) as [E1 E2]; auto;
      unfold resort, renumber; rewrite !(pm_r _ _ _ HP) by auto; reflexivity.
  Qed.
  Lemma renumber_control_inflow C H p : (p < M)%nat -> ends_in M (c_n C) (c_Ju C) (c_Jd C) ->
    net_inflow (control_elements (renumber_controls pinv C)) (resort perm H) p
    = net_inflow (control_elements C) H (perm p).
  Proof.
    intros Hp HE. unfold net_inflow; simpl.
    f_equal; apply renumber_sum; auto; intros k Hk; destruct (HE k Hk) as [E1 E2]; auto;
      unfold resort, renumber; rewrite !(pm_r _ _ _ HP) by auto; reflexivity.
  Qed.
  Lemma renumber_area A_sj K p : (p < M)%nat -> ends_in M (k_n K) (k_Ju K) (k_Jd K) ->
    attached_area (resort perm A_sj) (k_n K) (renumber pinv (k_Ju K)) (renumber pinv (k_Jd K))
      (k_dxu K) (k_Bu K) (k_thu K) (k_dxd K) (k_Bd K) (k_thd K) p
    = attached_area A_sj (k_n K) (k_Ju K) (k_Jd K) (k_dxu K) (k_Bu K) (k_thu K) (k_dxd K) (k_Bd K) (k_thd K) (perm p).
  Proof.
    intros Hp HE. unfold attached_area.
    f_equal; [f_equal|]; apply renumber_sum; auto; intros k Hk; destruct (HE k Hk); auto.
  Qed.
End Renumbering.

(** The system assembled for the renumbered network (junction columns and inputs re-sorted, end junctions renumbered) has
    exactly the re-sorted solutions: any topology, any permutation, any earlier assemblies in either object. *)
Theorem C32_renumbered_system_has_renumbered_solutions :
  forall M perm pinv bc K CO CW CP A_sj H_prev H_bc Q_0j dt s s' H,
  permutation_of M perm pinv -> network_ok M K CO CW CP -> dt <> 0 ->
  reachable M bc K CO CW CP s ->
  let bc' := resort perm bc in
  let K' := renumber_superlinks pinv K in
  let CO' := renumber_controls pinv CO in
  let CW' := renumber_controls pinv CW in
  let CP' := renumber_controls pinv CP in
  reachable M bc' K' CO' CW' CP' s' ->
  (solves M (matrix M bc K CO CW CP A_sj H_prev H_bc Q_0j dt s)
            (s_b (assembled M bc K CO CW CP A_sj H_prev H_bc Q_0j dt s)) H
   <->
   solves M (matrix M bc' K' CO' CW' CP' (resort perm A_sj) (resort perm H_prev) (resort perm H_bc) (resort perm Q_0j) dt s')
            (s_b (assembled M bc' K' CO' CW' CP' (resort perm A_sj) (resort perm H_prev) (resort perm H_bc) (resort perm Q_0j) dt s'))
            (resort perm H)).
Proof.
  intros M perm pinv bc K CO CW CP A_sj H_prev H_bc Q_0j dt s s' H HP Hn Hdt Hr bc' K' CO' CW' CP' Hr'.
  assert (Hn' : network_ok M K' CO' CW' CP') by (apply (renumber_network_ok M perm); auto).
  assert (ROW : forall p, (p < M)%nat ->
     (row_holds M (matrix M bc' K' CO' CW' CP' (resort perm A_sj) (resort perm H_prev) (resort perm H_bc) (resort perm Q_0j) dt s')
            (s_b (assembled M bc' K' CO' CW' CP' (resort perm A_sj) (resort perm H_prev) (resort perm H_bc) (resort perm Q_0j) dt s'))
            (resort perm H) p
      <-> row_holds M (matrix M bc K CO CW CP A_sj H_prev H_bc Q_0j dt s)
            (s_b (assembled M bc K CO CW CP A_sj H_prev H_bc Q_0j dt s)) H (perm p))).
  { intros p Hp. pose proof (pm_lt _ _ _ HP p Hp) as Hpp.
    destruct (bc (perm p)) eqn:Eb.
    - assert (Eb' : bc' p = true) by exact Eb.
      rewrite (proj2 (C23_boundary_row_prescribes_head M bc' K' CO' CW' CP' _ _ _ _ dt s' p Hr' Hn' Hp Eb')).
      rewrite (proj2 (C23_boundary_row_prescribes_head M bc K CO CW CP _ _ _ _ dt s (perm p) Hr Hn Hpp Eb)).
      reflexivity.
    - assert (Eb' : bc' p = false) by exact Eb.
      rewrite (C22_row_is_water_balance M bc' K' CO' CW' CP' _ _ _ _ dt s' _ p Hr' Hn' Hdt Hp Eb').
      rewrite (C22_row_is_water_balance M bc K CO CW CP _ _ _ _ dt s _ (perm p) Hr Hn Hdt Hpp Eb).
      destruct Hn as (N1 & N2 & N3 & N4).
      unfold K', CO', CW', CP'.
      rewrite (renumber_superlink_inflow M perm pinv HP), !(renumber_control_inflow M perm pinv HP) by auto.
      cbn [renumber_superlinks k_n k_Ju k_Jd k_dxu k_Bu k_thu k_dxd k_Bd k_thd].
      rewrite (renumber_area M perm pinv HP) by auto. reflexivity. }
  split.
  - intros HS p Hp. apply ROW; auto. apply HS. apply (pm_lt _ _ _ HP); auto.
  - intros HS j Hj. rewrite <- (pm_r _ _ _ HP j Hj). apply ROW; [apply (pm_inv_lt _ _ _ HP); auto|].
    apply HS. apply (pm_inv_lt _ _ _ HP); auto.
Qed.

(** *** The rest of the step *)
Lemma for_opt_ext {S : Type} n (f f' : nat -> S -> option S) s :
  (forall k s, (k < n)%nat -> f k s = f' k s) -> for_opt n f s = for_opt n f' s.
Proof.
  induction n as [|n IH]; intros Hf; simpl; auto. rewrite IH by (intros; apply Hf; lia).
  destruct (for_opt n f' s); auto.
Qed.
Lemma for_n_ext {S : Type} n (f f' : nat -> S -> S) s :
  (forall k s, (k < n)%nat -> f k s = f' k s) -> for_n n f s = for_n n f' s.
Proof. induction n as [|n IH]; intros Hf; simpl; auto. rewrite IH by (intros; apply Hf; lia). apply Hf; lia. Qed.

(** A whole step: for corresponding states the coefficients of the renumbered network are the same, so are all superlink
    end flows, internal depths and internal flows after the step, and the heads are the re-sorted ones. *)
Theorem C32_step_commutes_with_renumbering :
  forall N perm pinv G w Q0 dt (st sv : hstate) H_sol,
  permutation_of (n_M N) perm pinv -> ends_in (n_M N) (n_K N) (n_Ju N) (n_Jd N) ->
  let N' := renumber_network perm pinv N in
  let re st := mkHState (resort perm (h_H st)) (h_Qu st) (h_Qd st) (h_h st) (h_Q st) in
  setup_step N' (renumber_geometry perm G) w (re st) (re sv) Q0 dt = setup_step N G w st sv Q0 dt /\
  forall u,
    let new := solve_step N u st H_sol in
    let new' := solve_step N' u (re st) (resort perm H_sol) in
    (forall p, h_H new' p = h_H new (perm p)) /\
    (forall k, (k < n_K N)%nat -> h_Qu new' k = h_Qu new k /\ h_Qd new' k = h_Qd new k) /\
    h_h new' = h_h new /\ h_Q new' = h_Q new.
Proof.
  intros N perm pinv G w Q0 dt st sv H_sol HP HE N' re.
  assert (ED : forall J, (J < n_M N)%nat -> perm (pinv J) = J) by (apply (pm_r _ _ _ HP)).
  split.
  - assert (EU : all_entries (n_K N') (w_hu w) (fun k =>
       upstream_head_coefficients (n_bcm N') (h_H (re st) (n_Ju N' k)) (n_zu N' k) (h_Qu (re st) k) (h_Qu (re sv) k) (n_dxu N' k)
         (g_Au (renumber_geometry perm G) k) (n_Cu N' k) (g_Ru (renumber_geometry perm G) k) (n_nu N' k) (n_sfu N' k) (n_Su N' k) dt)
      = all_entries (n_K N) (w_hu w) (fun k =>
       upstream_head_coefficients (n_bcm N) (h_H st (n_Ju N k)) (n_zu N k) (h_Qu st k) (h_Qu sv k) (n_dxu N k) (g_Au G k)
         (n_Cu N k) (g_Ru G k) (n_nu N k) (n_sfu N k) (n_Su N k) dt)).
    { unfold all_entries. apply for_opt_ext. intros k a Hk. simpl. unfold resort, renumber.
      rewrite ED by (apply (HE k Hk)). reflexivity. }
    assert (EDn : all_entries (n_K N') (w_hd w) (fun k =>
       downstream_head_coefficients (n_bcm N') (h_H (re st) (n_Jd N' k)) (n_zd N' k) (h_Qd (re st) k) (h_Qd (re sv) k) (n_dxd N' k)
         (g_Ad (renumber_geometry perm G) k) (n_Cd N' k) (g_Rd (renumber_geometry perm G) k) (n_nd N' k) (n_sfd N' k) (n_Sd N' k) dt)
      = all_entries (n_K N) (w_hd w) (fun k =>
       downstream_head_coefficients (n_bcm N) (h_H st (n_Jd N k)) (n_zd N k) (h_Qd st k) (h_Qd sv k) (n_dxd N k) (g_Ad G k)
         (n_Cd N k) (g_Rd G k) (n_nd N k) (n_sfd N k) (n_Sd N k) dt)).
    { unfold all_entries. apply for_opt_ext. intros k a Hk. simpl. unfold resort, renumber.
      rewrite ED by (apply (HE k Hk)). reflexivity. }
    unfold setup_step. rewrite EU, EDn. reflexivity.
  - intros u new new'.
    assert (EHu : forall k, (k < n_K N)%nat -> h_H new' (n_Ju N' k) = h_H new (n_Ju N k)).
    { intros k Hk. unfold new, new', solve_step. cbn. unfold resort, renumber. rewrite ED by (apply (HE k Hk)). reflexivity. }
    assert (EHd : forall k, (k < n_K N)%nat -> h_H new' (n_Jd N' k) = h_H new (n_Jd N k)).
    { intros k Hk. unfold new, new', solve_step. cbn. unfold resort, renumber. rewrite ED by (apply (HE k Hk)). reflexivity. }
    assert (EQ : forall k, (k < n_K N)%nat -> h_Qu new' k = h_Qu new k /\ h_Qd new' k = h_Qd new k).
    { intros k Hk.
      change (fst (solve_superlink_flows (flow_coeffs N u k) (h_H new' (n_Ju N' k)) (h_H new' (n_Jd N' k)))
              = fst (solve_superlink_flows (flow_coeffs N u k) (h_H new (n_Ju N k)) (h_H new (n_Jd N k))) /\
              snd (solve_superlink_flows (flow_coeffs N u k) (h_H new' (n_Ju N' k)) (h_H new' (n_Jd N' k)))
              = snd (solve_superlink_flows (flow_coeffs N u k) (h_H new (n_Ju N k)) (h_H new (n_Jd N k)))).
      rewrite EHu, EHd by auto. auto. }
    split; [reflexivity|]. split; [exact EQ|].
    assert (EI :
      solve_internals (n_back N) (h_h st, h_Q st) (fun k => fst (end_depths N' u new' k)) (fun k => snd (end_depths N' u new' k)) (u_f u) (u_b u)
                     (n_i1 N) (n_I1 N) (n_nk N) (n_K N) (n_min N) (n_maxk N)
      = solve_internals (n_back N) (h_h st, h_Q st) (fun k => fst (end_depths N u new k)) (fun k => snd (end_depths N u new k)) (u_f u) (u_b u)
                     (n_i1 N) (n_I1 N) (n_nk N) (n_K N) (n_min N) (n_maxk N)).
    { unfold solve_internals, numba_solve_internals.
      rewrite (for_n_ext (n_K N) _ (fun k s =>
        internals_superlink (u_f u) (u_b u) (fst (end_depths N u new k)) (snd (end_depths N u new k)) (n_i1 N k) (n_I1 N k) (n_nk N k)
           (n_min N) (n_maxk N k) (n_back N) s)); [reflexivity|].
      intros k s Hk. unfold end_depths. destruct (EQ k Hk) as [-> ->]. rewrite EHu, EHd by auto. reflexivity. }
    split; [exact (f_equal fst EI)|exact (f_equal snd EI)].
Qed.

(** Witness: the three-junction network of C28 with the junctions in reverse order. *)
Example C32_example :
  permutation_of (n_M rest_net) (fun p => 2 - p)%nat (fun p => 2 - p)%nat /\
  ends_in (n_M rest_net) (n_K rest_net) (n_Ju rest_net) (n_Jd rest_net) /\
  n_Ju (renumber_network (fun p => 2 - p)%nat (fun p => 2 - p)%nat rest_net) 0%nat = 2%nat.
Proof.
  split; [|split].
  - change (n_M rest_net) with 3%nat. constructor; intros; lia.
  - apply rest_net_ok.
  - reflexivity.
Qed.
