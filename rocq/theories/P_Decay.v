(** Property C91: reaction is first-order decay. *)
From Verif Require Import Prelude M_Coeffs M_Recurrence M_Assembly M_Step M_Quality S_Superlink S_Network S_Step S_Quality S_Superpose
  L_Forward L_Assembly L_Step L_Sweep L_Quality L_QualityStep L_QualityNet L_QualityMax L_Square L_QualitySolve P_Superlink P_Step
  P_Quality P_QualityMass P_QualityCases P_Superpose.

(** Time taken by a run, and the factor by which implicit first-order decay at rate K reduces a concentration in it. *)
Fixpoint elapsed (is : list wq_in) : R := match is with [] => 0 | i :: is => i_dt i + elapsed is end.
Fixpoint decay (K : R) (is : list wq_in) : R := match is with [] => 1 | i :: is => / (1 + K * i_dt i) * decay K is end.

(** No reaction rate exceeds K; or all are K. *)
Record rates_at_most (N : network) (P : wq_par) (K : R) : Prop := mkRates {
  ra_j : forall j, (j < n_M N)%nat -> p_Kj P j <= K;
  ra_I : forall k j, (k < n_K N)%nat -> (j <= n_nk N k)%nat -> p_KI P (n_I1 N k + j)%nat <= K;
  ra_i : forall k j, (k < n_K N)%nat -> (j < n_nk N k)%nat -> p_Ki P (n_i1 N k + j)%nat <= K }.
Record rates_equal (N : network) (P : wq_par) (K : R) : Prop := mkRatesEq {
  re_j : forall j, (j < n_M N)%nat -> p_Kj P j = K;
  re_I : forall k j, (k < n_K N)%nat -> (j <= n_nk N k)%nat -> p_KI P (n_I1 N k + j)%nat = K;
  re_i : forall k j, (k < n_K N)%nat -> (j < n_nk N k)%nat -> p_Ki P (n_i1 N k + j)%nat = K }.

(** The state from which one step leads to concentration m everywhere. *)
Definition before_decay (P : wq_par) (m dt : R) : wq_state :=
  mkWq (fun j => m * (1 + p_Kj P j * dt)) (fun I => m * (1 + p_KI P I * dt)) (fun i => m * (1 + p_Ki P i * dt)) (fun _ => m) (fun _ => m).

Lemma constant_decays N P CO CW CP F c_bc c_0j Q_0j c_0I Q_0I dt m : dt <> 0 ->
  network_conserves N P CO CW CP F Q_0j Q_0I dt ->
  (forall j, (j < n_M N)%nat -> p_bc P j = true -> c_bc j = m) ->
  (forall j, (j < n_M N)%nat -> Q_0j j * c_0j j = Q_0j j * m) ->
  (forall k j, (k < n_K N)%nat -> (j <= n_nk N k)%nat -> Q_0I (n_I1 N k + j)%nat * c_0I (n_I1 N k + j)%nat = Q_0I (n_I1 N k + j)%nat * m) ->
  network_transport N P CO CW CP F (before_decay P m dt) c_bc c_0j Q_0j c_0I Q_0I dt (constant_state m).
Proof.
  intros Hdt HCon Hbc H0j H0I. split.
  - intros j Hj. cbn [c_j constant_state]. destruct (p_bc P j) eqn:Eb.
    + symmetry. apply Hbc; auto.
    + pose proof (nc_junction _ _ _ _ _ _ _ _ _ HCon j Hj Eb) as HV.
      unfold superjunction_balance, superjunction_conserves, controls_net, controls_flow in *. cbn [c_u c_d c_j before_decay].
      rewrite (H0j j Hj).
      assert (G : forall q (Q : arr) n, sum_if q (fun i => control_flux (Q i) m m) n = sum_if q Q n * m).
      { intros. rewrite <- sum_if_scal_r. apply sum_n_ext. intros i Hi. rewrite control_flux_const. reflexivity. }
      assert (G2 : forall q (Q D A dx : arr) n, sum_if q (fun k => face (Q k) m m (D k) (A k) (dx k)) n = sum_if q Q n * m).
      { intros. rewrite <- sum_if_scal_r. apply sum_n_ext. intros i Hi. rewrite face_const. reflexivity. }
      rewrite !G, !G2. unfold storage.
      replace ((f_V F j * (m - m * (1 + p_Kj P j * dt)) + (f_V F j - f_Vp F j) * m) / dt + p_Kj P j * f_V F j * m)
        with ((f_V F j - f_Vp F j) / dt * m) by (field; exact Hdt).
      rewrite HV. ring.
  - intros k Hk. pose proof (nc_chain _ _ _ _ _ _ _ _ _ HCon k Hk (before_decay P m dt) c_0I) as [C1 C2].
    cbn [c_j constant_state]. split; intros j Hj.
    + specialize (C1 j Hj). unfold piece_balance.
      assert (E1 : left_of m (junctions_of N (constant_state m) k) j = m) by (destruct j; reflexivity).
      assert (E2 : right_of (ch_n (superlink_chain N P F (before_decay P m dt) c_0I Q_0I k)) m (junctions_of N (constant_state m) k) j = m)
        by (unfold right_of; destruct (Nat.leb _ _); reflexivity).
      assert (E3 : pieces_of N (constant_state m) k j = m) by (exact (along_const (n_nk N k) (n_i1 N k) m k _)).
      assert (E4 : ch_cp (superlink_chain N P F (before_decay P m dt) c_0I Q_0I k) j
                   = m * (1 + ch_K (superlink_chain N P F (before_decay P m dt) c_0I Q_0I k) j * dt)).
      { cbn [ch_cp ch_K superlink_chain before_decay c_u c_i c_d]. unfold along. destruct (Nat.eqb j 0), (Nat.leb j (n_nk N k)); ring. }
      rewrite E1, E2, E3, E4, !face_const. unfold storage.
      set (V := ch_dx _ j * ch_A _ j) in *. set (Vp := ch_dx _ j * ch_Ap _ j) in *. set (K := ch_K _ j).
      replace ((V * (m - m * (1 + K * dt)) + (V - Vp) * m) / dt + K * V * m) with ((V - Vp) / dt * m) by (field; exact Hdt).
      rewrite C1. ring.
    + specialize (C2 j Hj). unfold junction_balance.
      assert (E3 : forall j, pieces_of N (constant_state m) k j = m) by (intros; exact (along_const (n_nk N k) (n_i1 N k) m k _)).
      assert (E4 : ch_cIp (superlink_chain N P F (before_decay P m dt) c_0I Q_0I k) j
                   = m * (1 + ch_KI (superlink_chain N P F (before_decay P m dt) c_0I Q_0I k) j * dt)) by reflexivity.
      assert (E6 : ch_Q0 (superlink_chain N P F (before_decay P m dt) c_0I Q_0I k) j * ch_c0 (superlink_chain N P F (before_decay P m dt) c_0I Q_0I k) j
                   = ch_Q0 (superlink_chain N P F (before_decay P m dt) c_0I Q_0I k) j * m)
        by (cbn [ch_Q0 ch_c0 superlink_chain ch_n] in *; apply H0I; auto).
      change (junctions_of N (constant_state m) k j) with m.
      rewrite !E3, E4, E6, !face_const. unfold storage.
      set (V := ch_AS _ j * ch_h _ j) in *. set (Vp := ch_AS _ j * ch_hp _ j) in *. set (K := ch_KI _ j).
      replace ((V * (m - m * (1 + K * dt)) + (V - Vp) * m) / dt + K * V * m) with ((V - Vp) / dt * m) by (field; exact Hdt).
      rewrite C2. ring.
Qed.

Lemma inputs_widen N P lo hi lo' hi' a b c : lo' <= lo -> hi <= hi' -> inputs_within N P lo hi a b c -> inputs_within N P lo' hi' a b c.
Proof.
  intros L H [A B C]. constructor; intros.
  - pose proof (A j H0 H1). lra.
  - pose proof (B j H0). lra.
  - pose proof (C k j H0 H1). lra.
Qed.
Lemma within_widen N lo hi lo' hi' c : lo' <= lo -> hi <= hi' -> within N lo hi c -> within N lo' hi' c.
Proof.
  intros L H [A B C D E]. constructor; intros.
  - pose proof (A j H0). lra.
  - pose proof (B k j H0 H1). lra.
  - pose proof (C k j H0 H1). lra.
  - pose proof (D k H0). lra.
  - pose proof (E k H0). lra.
Qed.

(** One step. *)
Lemma step_decays N P CO CW CP K lo hi i o o' :
  well_formed N -> q_ends_in N CO CW CP -> p_min P <= 0 -> hi <= p_max P -> 0 <= K -> rates_at_most N P K -> 0 <= lo -> lo <= hi ->
  obj_clean N P CO CW CP o -> within N lo hi (ob_c o) -> good_input N P CO CW CP i ->
  inputs_within N P (lo / (1 + K * i_dt i)) hi (i_bc i) (i_0j i) (i_0I i) -> q_step N P CO CW CP i o o' ->
  within N (lo / (1 + K * i_dt i)) hi (ob_c o').
Proof.
  intros HW HE L1 L2 HK HR Hlo Hlh Hcl HB Gi HI HS. pose proof Gi as [Hdt Hwet Hcon].
  assert (H1 : 0 < 1 + K * i_dt i) by (assert (0 <= K * i_dt i) by (apply Rmult_le_pos; lra); lra).
  set (m := lo / (1 + K * i_dt i)) in *.
  assert (Em : m * (1 + K * i_dt i) = lo) by (unfold m; field; lra).
  assert (Hm : 0 <= m) by (unfold m; apply Rmult_le_pos; [exact Hlo|left; apply Rinv_0_lt_compat; exact H1]).
  destruct (step_main N P CO CW CP i o o' 0 hi HW HE Gi Hcl HS L1 L2 (or_introl (conj (Rle_refl 0) (Rle_trans _ _ _ Hlo Hlh)))
              (inputs_widen N P m hi 0 hi _ _ _ Hm (Rle_refl hi) HI) (within_widen N lo hi 0 hi _ Hlo (Rle_refl hi) HB)) as [T Bd].
  unfold transported in T.
  pose (i2 := mkWqIn (i_F i) (fun _ => m) (fun _ => m) (i_Q0j i) (fun _ => m) (i_Q0I i) (i_dt i)).
  assert (T2 : network_transport N P CO CW CP (i_F i2) (before_decay P m (i_dt i)) (i_bc i2) (i_0j i2) (i_Q0j i2) (i_0I i2) (i_Q0I i2) (i_dt i2) (constant_state m)).
  { cbn [i2 i_F i_bc i_0j i_Q0j i_0I i_Q0I i_dt]. apply constant_decays; auto. lra. }
  pose (d := combine 1 (-1) (ob_c o) (before_decay P m (i_dt i))).
  pose (id := mkWqIn (i_F i) (fun j => 1 * i_bc i j + -1 * m) (fun j => 1 * i_0j i j + -1 * m) (i_Q0j i)
                (fun j => 1 * i_0I i j + -1 * m) (i_Q0I i) (i_dt i)).
  assert (Ci : combined_inputs N P 1 (-1) i i2 id) by (constructor; cbn; auto).
  assert (Cd : combination N 1 (-1) (ob_c o) (before_decay P m (i_dt i)) d) by (constructor; reflexivity).
  pose proof (transport_combine N P CO CW CP 1 (-1) i i2 id _ _ d _ _ Ci Cd T T2) as Z. cbn [i_F i_bc i_0j i_Q0j i_0I i_Q0I i_dt id] in Z.
  assert (Rx : forall r, r <= K -> m * (1 + r * i_dt i) <= lo).
  { intros r Hr. rewrite <- Em. apply Rmult_le_compat_l; [exact Hm|]. assert (r * i_dt i <= K * i_dt i) by (apply Rmult_le_compat_r; lra). lra. }
  assert (Kj : forall j, (j < n_M N)%nat -> m * (1 + p_Kj P j * i_dt i) <= lo) by (intros; apply Rx; auto; apply (ra_j _ _ _ HR); auto).
  assert (KI : forall k j, (k < n_K N)%nat -> (j <= n_nk N k)%nat -> m * (1 + p_KI P (n_I1 N k + j)%nat * i_dt i) <= lo)
    by (intros; apply Rx; auto; apply (ra_I _ _ _ HR); auto).
  assert (Ki : forall k j, (k < n_K N)%nat -> (j < n_nk N k)%nat -> m * (1 + p_Ki P (n_i1 N k + j)%nat * i_dt i) <= lo)
    by (intros; apply Rx; auto; apply (ra_i _ _ _ HR); auto).
  assert (Km : m <= lo) by (rewrite <- (Rmult_1_r m), <- Em; apply Rmult_le_compat_l; [exact Hm|]; assert (0 <= K * i_dt i) by (apply Rmult_le_pos; lra); lra).
  assert (LB : exists Bm, 0 <= Bm /\ within N 0 Bm d /\ inputs_within N P 0 Bm (i_bc id) (i_0j id) (i_0I id)).
  { (* a common upper bound: the rates may be of either sign where nothing reacts, so it is found by maximising *)
    set (Uj := maxn (fun j => c_j d j) (n_M N)).
    set (UI := maxn (fun k => maxn (fun j => c_I d (n_I1 N k + j)%nat) (n_nk N k + 1)) (n_K N)).
    set (Ui := maxn (fun k => maxn (fun j => c_i d (n_i1 N k + j)%nat) (n_nk N k)) (n_K N)).
    pose proof (maxn_nonneg (fun j => c_j d j) (n_M N)) as P1. fold Uj in P1.
    pose proof (maxn_nonneg (fun k => maxn (fun j => c_I d (n_I1 N k + j)%nat) (n_nk N k + 1)) (n_K N)) as P2. fold UI in P2.
    pose proof (maxn_nonneg (fun k => maxn (fun j => c_i d (n_i1 N k + j)%nat) (n_nk N k)) (n_K N)) as P3. fold Ui in P3.
    assert (Hhi : 0 <= hi) by lra.
    exists (Uj + UI + Ui + hi). split; [lra|]. destruct HB as [B1 B2 B3 B4 B5]. destruct HI as [I1 I2 I3]. split.
    - constructor.
      + intros j Hj. pose proof (maxn_ge (fun j => c_j d j) (n_M N) j Hj) as G. fold Uj in G. cbv beta in G.
        split; [|lra]. cbn [d combine c_j before_decay]. specialize (B1 j Hj). specialize (Kj j Hj). lra.
      + intros k j Hk Hj. pose proof (maxn_ge (fun k => maxn (fun j => c_I d (n_I1 N k + j)%nat) (n_nk N k + 1)) (n_K N) k Hk) as G1. fold UI in G1.
        pose proof (maxn_ge (fun j => c_I d (n_I1 N k + j)%nat) (n_nk N k + 1) j ltac:(lia)) as G2. cbv beta in G1, G2.
        split; [|lra]. cbn [d combine c_I before_decay]. specialize (B2 k j Hk Hj). specialize (KI k j Hk Hj). lra.
      + intros k j Hk Hj. pose proof (maxn_ge (fun k => maxn (fun j => c_i d (n_i1 N k + j)%nat) (n_nk N k)) (n_K N) k Hk) as G1. fold Ui in G1.
        pose proof (maxn_ge (fun j => c_i d (n_i1 N k + j)%nat) (n_nk N k) j ltac:(lia)) as G2. cbv beta in G1, G2.
        split; [|lra]. cbn [d combine c_i before_decay]. specialize (B3 k j Hk Hj). specialize (Ki k j Hk Hj). lra.
      + intros k Hk. cbn [d combine c_u before_decay]. specialize (B4 k Hk). lra.
      + intros k Hk. cbn [d combine c_d before_decay]. specialize (B5 k Hk). lra.
    - constructor; cbn [id i_bc i_0j i_0I].
      + intros j Hj Hb. specialize (I1 j Hj Hb). lra.
      + intros j Hj. specialize (I2 j Hj). lra.
      + intros k j Hk Hj. specialize (I3 k j Hk Hj). lra. }
  destruct LB as (Bm & HBm & Wd & Wi). cbn [id i_bc i_0j i_0I] in Wi.
  destruct (network_bounds N P CO CW CP (i_F i) d _ _ (i_Q0j i) _ (i_Q0I i) (i_dt i) Hdt HE Hwet Hcon 0 Bm _ Z Wi Wd (or_introl (conj (Rle_refl 0) HBm))) as [E1 E2 E3 E4 E5].
  cbn [combine c_j c_I c_i c_u c_d constant_state] in *. destruct Bd as [D1 D2 D3 D4 D5]. constructor.
  - intros j Hj. specialize (E1 j Hj). specialize (D1 j Hj). lra.
  - intros k j Hk Hj. specialize (E2 k j Hk Hj). specialize (D2 k j Hk Hj). lra.
  - intros k j Hk Hj. specialize (E3 k j Hk Hj). specialize (D3 k j Hk Hj). lra.
  - intros k Hk. specialize (E4 k Hk). specialize (D4 k Hk). lra.
  - intros k Hk. specialize (E5 k Hk). specialize (D5 k Hk). lra.
Qed.

Lemma elapsed_nonneg is : (forall i, In i is -> 0 < i_dt i) -> 0 <= elapsed is.
Proof.
  induction is as [|i is IH]; intros H; cbn [elapsed]; [lra|].
  assert (0 <= elapsed is) by (apply IH; intros; apply H; now right). pose proof (H i (or_introl eq_refl)). lra.
Qed.
(** First-order decay by steps lies above the exponential, and below one long step. *)
Lemma decay_bounds K is : 0 <= K -> (forall i, In i is -> 0 < i_dt i) ->
  exp (- (K * elapsed is)) <= decay K is <= / (1 + K * elapsed is).
Proof.
  intros HK. induction is as [|i is IH]; intros H; cbn [elapsed decay].
  - rewrite Rmult_0_r, Ropp_0, exp_0, Rplus_0_r, Rinv_1. lra.
  - pose proof (H i (or_introl eq_refl)) as Hi. assert (H' : forall i, In i is -> 0 < i_dt i) by (intros; apply H; now right).
    specialize (IH H'). pose proof (elapsed_nonneg is H') as He. destruct IH as [A B].
    assert (0 <= K * i_dt i) by (apply Rmult_le_pos; lra). assert (0 <= K * elapsed is) by (apply Rmult_le_pos; lra).
    assert (I1 : 0 < / (1 + K * i_dt i)) by (apply Rinv_0_lt_compat; lra).
    split.
    + replace (- (K * (i_dt i + elapsed is))) with (- (K * i_dt i) + - (K * elapsed is)) by ring. rewrite exp_plus.
      apply Rmult_le_compat; auto using Rlt_le, exp_pos.
      rewrite exp_Ropp. apply Rinv_le_contravar; [lra|].
      destruct (Req_dec (K * i_dt i) 0) as [Z|Z]; [rewrite Z, exp_0; lra|]. apply Rlt_le, exp_ineq1. lra.
    + apply Rle_trans with (/ (1 + K * i_dt i) * / (1 + K * elapsed is)).
      * apply Rmult_le_compat_l; lra.
      * rewrite <- Rinv_mult. apply Rinv_le_contravar; [lra|].
        assert (0 <= K * i_dt i * (K * elapsed is)) by (apply Rmult_le_pos; lra). lra.
Qed.

(** C91: constituents decay no faster than at the largest rate: whatever the network and the water in it, concentrations that are at
    least lo at the start and in all inflows are at least lo reduced by first-order decay later, so at least lo exp(- K t). *)
Theorem C91_no_faster_than_first_order N P CO CW CP K lo hi is c o' :
  well_formed N -> q_ends_in N CO CW CP -> p_min P <= 0 -> hi <= p_max P -> 0 <= K -> rates_at_most N P K -> 0 <= lo <= hi ->
  within N lo hi c ->
  List.Forall (fun i => good_input N P CO CW CP i /\ inputs_within N P lo hi (i_bc i) (i_0j i) (i_0I i)) is ->
  q_steps N P CO CW CP is (wq_fresh c) o' ->
  within N (lo * decay K is) hi (ob_c o') /\ lo * exp (- (K * elapsed is)) <= lo * decay K is.
Proof.
  intros HW HE L1 L2 HK HR Hlh HB HF HS. split.
  - assert (G : forall o, q_steps N P CO CW CP is o o' -> obj_clean N P CO CW CP o -> forall lo, 0 <= lo <= hi -> within N lo hi (ob_c o) ->
      List.Forall (fun i => good_input N P CO CW CP i /\ inputs_within N P lo hi (i_bc i) (i_0j i) (i_0I i)) is ->
      within N (lo * decay K is) hi (ob_c o')).
    { clear lo Hlh HB HF HS c. intros o HS. induction HS as [o|i is o o1 o2 Hst HS IH]; intros Hcl lo Hlh HB HF; cbn [decay].
      - rewrite Rmult_1_r. exact HB.
      - inversion HF as [|? ? [Gi HI] HF']; subst. pose proof Gi as [Hdt _ _].
        assert (H0 : 0 <= K * i_dt i) by (apply Rmult_le_pos; lra).
        assert (D1 : 0 <= lo / (1 + K * i_dt i)) by (apply Rmult_le_pos; [lra|left; apply Rinv_0_lt_compat; lra]).
        assert (D2 : lo / (1 + K * i_dt i) <= lo).
        { apply Rmult_le_reg_r with (1 + K * i_dt i); [lra|]. unfold Rdiv. rewrite Rmult_assoc, Rinv_l by lra.
          assert (0 <= lo * (K * i_dt i)) by (apply Rmult_le_pos; lra). lra. }
        replace (lo * (/ (1 + K * i_dt i) * decay K is)) with (lo / (1 + K * i_dt i) * decay K is) by (unfold Rdiv; ring).
        apply IH.
        + eapply step_clean; eauto.
        + lra.
        + apply (step_decays N P CO CW CP K lo hi i o o1); auto; try lra.
          apply (inputs_widen N P lo hi _ hi); auto. lra.
        + eapply List.Forall_impl; [|exact HF']. intros a [Ga Ia]. split; [exact Ga|]. apply (inputs_widen N P lo hi _ hi); auto. lra. }
    apply (G (wq_fresh c)); auto using fresh_clean_obj.
  - apply Rmult_le_compat_l; [lra|]. apply decay_bounds; [exact HK|].
    intros i Hi. rewrite List.Forall_forall in HF. destruct (HF i Hi) as [[Hdt _ _] _]. exact Hdt.
Qed.

(** C91: in a network of superjunctions and controls only, without inflow and prescribed concentrations, where everything reacts at
    rate K, a uniform concentration decays exactly so, however the water moves; the result is at least the exponential and at most
    what one step of the whole length would give. *)
Theorem C91_storages_decay_exactly N P CO CW CP K c hi is c0 o' :
  well_formed N -> q_ends_in N CO CW CP -> n_K N = O -> p_min P <= 0 -> hi <= p_max P -> 0 <= K -> rates_equal N P K -> 0 <= c <= hi ->
  (forall j, (j < n_M N)%nat -> p_bc P j = false) -> within N c c c0 ->
  List.Forall (fun i => good_input N P CO CW CP i /\ inputs_within N P 0 hi (i_bc i) (i_0j i) (i_0I i) /\
                        forall j, (j < n_M N)%nat -> i_Q0j i j = 0) is ->
  q_steps N P CO CW CP is (wq_fresh c0) o' ->
  forall j, (j < n_M N)%nat -> c_j (ob_c o') j = c * decay K is /\
    c * exp (- (K * elapsed is)) <= c_j (ob_c o') j <= c / (1 + K * elapsed is).
Proof.
  intros HW HE HK0 L1 L2 HK HR Hc Hb HB HF HS.
  assert (G : forall o, q_steps N P CO CW CP is o o' -> obj_clean N P CO CW CP o -> forall c, 0 <= c <= hi -> within N c c (ob_c o) ->
      List.Forall (fun i => good_input N P CO CW CP i /\ inputs_within N P 0 hi (i_bc i) (i_0j i) (i_0I i) /\
                        forall j, (j < n_M N)%nat -> i_Q0j i j = 0) is ->
      within N (c * decay K is) (c * decay K is) (ob_c o')).
  { clear c Hc HB HF HS c0. intros o HS. induction HS as [o|i is o o1 o2 Hst HS IH]; intros Hcl c Hc HB HF; cbn [decay].
    - rewrite Rmult_1_r. exact HB.
    - inversion HF as [|? ? (Gi & HI & HQ) HF']; subst. pose proof Gi as [Hdt Hwet Hcon].
      assert (H0 : 0 <= K * i_dt i) by (apply Rmult_le_pos; lra).
      set (m := c / (1 + K * i_dt i)).
      assert (D1 : 0 <= m) by (apply Rmult_le_pos; [lra|left; apply Rinv_0_lt_compat; lra]).
      assert (Em : m * (1 + K * i_dt i) = c) by (unfold m; field; lra).
      assert (D2 : m <= c) by (rewrite <- Em; assert (0 <= m * (K * i_dt i)) by (apply Rmult_le_pos; lra); lra).
      replace (c * (/ (1 + K * i_dt i) * decay K is)) with (m * decay K is) by (unfold m, Rdiv; ring).
      apply IH; auto.
      + eapply step_clean; eauto.
      + lra.
      + assert (W0 : within N 0 hi (ob_c o)) by (apply (within_widen N c c 0 hi); auto; lra).
        destruct (step_main N P CO CW CP i o o1 0 hi HW HE Gi Hcl Hst L1 L2 (or_introl (conj (Rle_refl 0) (Rle_trans _ _ _ (proj1 Hc) (proj2 Hc)))) HI W0) as [T _].
        unfold transported in T.
        assert (T2 : network_transport N P CO CW CP (i_F i) (ob_c o) (i_bc i) (i_0j i) (i_Q0j i) (i_0I i) (i_Q0I i) (i_dt i) (constant_state m)).
        { assert (TT : network_transport N P CO CW CP (i_F i) (before_decay P m (i_dt i)) (i_bc i) (i_0j i) (i_Q0j i) (i_0I i) (i_Q0I i) (i_dt i) (constant_state m)).
          { apply constant_decays; auto; [lra|intros j Hj X; rewrite Hb in X by auto; discriminate|intros j Hj; rewrite HQ by auto; ring|intros k j Hk; lia]. }
          destruct TT as [TJ TC]. split; [|intros k Hk; lia].
          intros j Hj. specialize (TJ j Hj). rewrite Hb in * by auto. unfold superjunction_balance in *. cbn [before_decay c_j] in TJ.
          rewrite (re_j _ _ _ HR), Em in TJ by auto. pose proof (wi_j _ _ _ _ HB j Hj) as X. replace (c_j (ob_c o) j) with c by lra.
          rewrite (re_j _ _ _ HR) by auto. exact TJ. }
        pose proof (transport_unique N P CO CW CP (i_F i) (i_0j i) (i_Q0j i) (i_0I i) (i_Q0I i) (i_dt i) Hdt HE Hwet Hcon _ _ _ _ T T2) as [A1 A2 A3].
        constructor; intros; try lia. specialize (A1 j H). cbn [constant_state c_j] in A1. lra. }
  intros j Hj. pose proof (G (wq_fresh c0) HS (fresh_clean_obj N P CO CW CP c0) c Hc HB HF) as W.
  pose proof (wi_j _ _ _ _ W j Hj) as X. assert (E : c_j (ob_c o') j = c * decay K is) by lra.
  assert (Hd : forall i, In i is -> 0 < i_dt i).
  { intros i Hi. rewrite List.Forall_forall in HF. destruct (HF i Hi) as [[Hdt _ _] _]. exact Hdt. }
  destruct (decay_bounds K is HK Hd) as [A B]. split; [exact E|]. rewrite E. split.
  - apply Rmult_le_compat_l; lra.
  - unfold Rdiv. apply Rmult_le_compat_l; lra.
Qed.

(** ** Superlinks *)

(** Constituent mass in the end pieces of the superlinks at the end of a step. *)
Definition end_mass (N : network) (F : wq_flow) (c : wq_state) : R :=
  sum_n (fun k => n_dxu N k * f_Au F k * c_u c k + n_dxd N k * f_Ad F k * c_d c k) (n_K N).
(** Volumes do not change in the step. *)
Record steady_volumes (N : network) (F : wq_flow) : Prop := mkSteadyVolumes {
  sv_j : forall j, (j < n_M N)%nat -> f_V F j = f_Vp F j;
  sv_p : forall k j, (k < n_K N)%nat -> (j <= n_nk N k + 1)%nat -> vol_p N F true k j = vol_p N F false k j;
  sv_n : forall k j, (k < n_K N)%nat -> (j <= n_nk N k)%nat -> vol_n N F true k j = vol_n N F false k j }.

Lemma sum_ends f n : sum_n f (n + 2) = f 0%nat + sum_n (fun i => f (S i)) n + f (S n).
Proof. replace (n + 2)%nat with (S (S n)) by lia. rewrite sum_n_S_l. cbn [sum_n]. ring. Qed.

Lemma reaction_uniform N P F c K : rates_equal N P K -> reaction N P F c = K * (mass N F true c - end_mass N F c).
Proof.
  intros [R1 R2 R3]. unfold reaction, mass, end_mass, total.
  assert (E1 : sum_n (fun j => p_Kj P j * vol_j F true j * c_j c j) (n_M N) = K * sum_n (fun j => vol_j F true j * c_j c j) (n_M N)).
  { rewrite <- sum_n_scal. apply sum_n_ext. intros j Hj. rewrite R1 by auto. ring. }
  assert (E2 : forall k, (k < n_K N)%nat ->
     sum_n (fun j => along (n_nk N k) (n_i1 N k) (fun _ => 0) (p_Ki P) (fun _ => 0) k j * vol_p N F true k j * pieces_of N c k j) (n_nk N k + 2)
     + sum_n (fun j => p_KI P (n_I1 N k + j)%nat * vol_n N F true k j * junctions_of N c k j) (n_nk N k + 1)
     = K * (sum_n (fun j => vol_p N F true k j * pieces_of N c k j) (n_nk N k + 2)
            + sum_n (fun j => vol_n N F true k j * junctions_of N c k j) (n_nk N k + 1)
            - (n_dxu N k * f_Au F k * c_u c k + n_dxd N k * f_Ad F k * c_d c k))).
  { intros k Hk.
    assert (X : sum_n (fun j => p_KI P (n_I1 N k + j)%nat * vol_n N F true k j * junctions_of N c k j) (n_nk N k + 1)
                = K * sum_n (fun j => vol_n N F true k j * junctions_of N c k j) (n_nk N k + 1)).
    { rewrite <- sum_n_scal. apply sum_n_ext. intros j Hj. rewrite R2 by (auto; lia). ring. }
    rewrite X, !sum_ends.
    assert (Y : sum_n (fun i => along (n_nk N k) (n_i1 N k) (fun _ => 0) (p_Ki P) (fun _ => 0) k (S i) * vol_p N F true k (S i) * pieces_of N c k (S i)) (n_nk N k)
                = K * sum_n (fun i => vol_p N F true k (S i) * pieces_of N c k (S i)) (n_nk N k)).
    { rewrite <- sum_n_scal. apply sum_n_ext. intros i Hi. rewrite along_mid, R3 by auto. ring. }
    rewrite Y.
    assert (Z0 : vol_p N F true k 0%nat = n_dxu N k * f_Au F k) by (unfold vol_p; rewrite !along_0; reflexivity).
    assert (Z1 : vol_p N F true k (S (n_nk N k)) = n_dxd N k * f_Ad F k) by (unfold vol_p; rewrite !along_end; reflexivity).
    assert (Z2 : pieces_of N c k 0%nat = c_u c k) by (unfold pieces_of; rewrite along_0; reflexivity).
    assert (Z3 : pieces_of N c k (S (n_nk N k)) = c_d c k) by (unfold pieces_of; rewrite along_end; reflexivity).
    rewrite Z0, Z1, Z2, Z3, along_0, along_end. ring. }
  rewrite E1.
  rewrite (sum_n_ext _ _ _ E2), sum_n_scal.
  rewrite (sum_n_minus (fun k => sum_n (fun j => vol_p N F true k j * pieces_of N c k j) (n_nk N k + 2)
            + sum_n (fun j => vol_n N F true k j * junctions_of N c k j) (n_nk N k + 1))
            (fun k => n_dxu N k * f_Au F k * c_u c k + n_dxd N k * f_Ad F k * c_d c k)). ring.
Qed.

(** C91 fails as soon as there is a superlink: its end pieces do not react (nquality.py:385, 391 pass the rate 0).  Where all
    rates are K, nothing flows in and volumes are steady, the mass in the network after a step, times 1 + K dt, is the mass before
    plus K dt times what is in the end pieces; so more is left than first-order decay leaves. *)
Theorem C91_end_pieces_do_not_react_refuted N P CO CW CP K lo hi i o o' :
  well_formed N -> q_ends_in N CO CW CP -> p_min P <= 0 -> hi <= p_max P -> 0 < K -> rates_equal N P K -> 0 < lo <= hi ->
  (forall j, (j < n_M N)%nat -> p_bc P j = false) -> obj_clean N P CO CW CP o -> within N lo hi (ob_c o) ->
  good_input N P CO CW CP i -> inputs_within N P lo hi (i_bc i) (i_0j i) (i_0I i) ->
  (forall j, (j < n_M N)%nat -> i_Q0j i j = 0) -> (forall k j, (k < n_K N)%nat -> (j <= n_nk N k)%nat -> i_Q0I i (n_I1 N k + j)%nat = 0) ->
  steady_volumes N (i_F i) -> q_step N P CO CW CP i o o' ->
  mass N (i_F i) true (ob_c o') * (1 + K * i_dt i) = mass N (i_F i) false (ob_c o) + K * i_dt i * end_mass N (i_F i) (ob_c o') /\
  ((0 < n_K N)%nat -> mass N (i_F i) false (ob_c o) / (1 + K * i_dt i) < mass N (i_F i) true (ob_c o')).
Proof.
  intros HW HE L1 L2 HK HR Hlh Hb Hcl HB Gi HI HQj HQI [Sj Sp Sn] HS. pose proof Gi as [Hdt Hwet Hcon].
  assert (W0 : within N 0 hi (ob_c o)) by (apply (within_widen N lo hi 0 hi); auto; lra).
  assert (I0 : inputs_within N P 0 hi (i_bc i) (i_0j i) (i_0I i)) by (apply (inputs_widen N P lo hi 0 hi); auto; lra).
  destruct (step_main N P CO CW CP i o o' 0 hi HW HE Gi Hcl HS L1 L2 ltac:(left; lra) I0 W0) as [T _].
  unfold transported in T.
  assert (Hn : i_dt i <> 0) by lra.
  pose proof (C57_mass_balance N P CO CW CP _ _ _ _ _ _ _ _ _ Hn HE Hb T) as B.
  assert (Zi : inflow N (i_0j i) (i_Q0j i) (i_0I i) (i_Q0I i) = 0).
  { unfold inflow, total. rewrite (sum_n_0 (fun j => i_Q0j i j * i_0j i j)) by (intros j Hj; rewrite HQj by auto; ring).
    rewrite sum_n_0; [ring|]. intros k Hk. rewrite sum_n_zero, sum_n_0; [ring|]. intros j Hj. rewrite HQI by (auto; lia). ring. }
  assert (Zc : cross N (i_F i) (ob_c o) (ob_c o') = 0).
  { unfold cross, total. rewrite sum_n_0 by (intros j Hj; cbn [vol_j]; rewrite Sj by auto; ring).
    rewrite sum_n_0; [ring|]. intros k Hk. rewrite !sum_n_0; [ring| |].
    - intros j Hj. rewrite Sn by (auto; lia). ring.
    - intros j Hj. rewrite Sp by (auto; lia). ring. }
  rewrite Zi, Zc, (reaction_uniform N P _ _ K HR) in B.
  set (A := mass N (i_F i) true (ob_c o')) in *. set (A0 := mass N (i_F i) false (ob_c o)) in *. set (E := end_mass N (i_F i) (ob_c o')) in *.
  assert (EQ : A * (1 + K * i_dt i) = A0 + K * i_dt i * E) by lra.
  split; [exact EQ|]. intros HNK.
  assert (HP : 0 < K * i_dt i) by (apply Rmult_lt_0_compat; lra).
  assert (HRm : rates_at_most N P K).
  { destruct HR as [R1 R2 R3]. constructor; intros; [rewrite R1|rewrite R2|rewrite R3]; auto; lra. }
  set (m := lo / (1 + K * i_dt i)).
  assert (Hm : 0 < m) by (apply Rmult_lt_0_compat; [lra|apply Rinv_0_lt_compat; lra]).
  assert (Hml : m <= lo).
  { apply Rmult_le_reg_r with (1 + K * i_dt i); [lra|]. unfold m, Rdiv. rewrite Rmult_assoc, Rinv_l by lra.
    assert (0 <= lo * (K * i_dt i)) by (apply Rmult_le_pos; lra). lra. }
  assert (W : within N m hi (ob_c o')).
  { apply (step_decays N P CO CW CP K lo hi i o o'); auto; try lra. apply (inputs_widen N P lo hi m hi); auto; lra. }
  assert (HEp : 0 < E).
  { unfold E, end_mass.
    assert (Hpos : forall k, (k < n_K N)%nat -> 0 < n_dxu N k * f_Au (i_F i) k * c_u (ob_c o') k + n_dxd N k * f_Ad (i_F i) k * c_d (ob_c o') k).
    { intros k Hk. destruct (nw_chain _ _ _ _ _ Hwet k Hk (ob_c o) (i_0I i)) as [[Hp _] _].
      destruct (Hp 0%nat ltac:(lia)) as (X1 & X2 & _). destruct (Hp (S (n_nk N k)) ltac:(cbn [ch_n superlink_chain]; lia)) as (Y1 & Y2 & _).
      cbn [ch_dx ch_A superlink_chain] in X1, X2, Y1, Y2. rewrite along_0 in X1, X2. rewrite along_end in Y1, Y2.
      pose proof (wi_u _ _ _ _ W k Hk). pose proof (wi_d _ _ _ _ W k Hk).
      assert (0 < n_dxu N k * f_Au (i_F i) k * c_u (ob_c o') k) by (apply Rmult_lt_0_compat; [apply Rmult_lt_0_compat; lra|lra]).
      assert (0 < n_dxd N k * f_Ad (i_F i) k * c_d (ob_c o') k) by (apply Rmult_lt_0_compat; [apply Rmult_lt_0_compat; lra|lra]). lra. }
    destruct (n_K N) as [|n]; [lia|]. cbn [sum_n].
    assert (0 <= sum_n (fun k => n_dxu N k * f_Au (i_F i) k * c_u (ob_c o') k + n_dxd N k * f_Ad (i_F i) k * c_d (ob_c o') k) n).
    { apply sum_n_nonneg. intros k Hk. left. apply Hpos. lia. }
    pose proof (Hpos n ltac:(lia)). lra. }
  apply Rmult_lt_reg_r with (1 + K * i_dt i); [lra|]. unfold Rdiv. rewrite Rmult_assoc, Rinv_l, Rmult_1_r, EQ by lra.
  assert (0 < K * i_dt i * E) by (apply Rmult_lt_0_compat; lra). lra.
Qed.

(** ** Examples *)

(** The network of C50 with water going round: 1 m3/s through both superlinks and back through the orifice; nothing flows in. *)
Definition round_flow : wq_flow :=
  mkFlowIn (fun _ => 1) (fun _ => 1) (fun _ => 2) (fun _ => 2)
           (fun _ => 1) (fun _ => 1) (fun _ => 2) (fun _ => 2)
           (fun _ => 1) (fun _ => 1) (fun _ => 2) (fun _ => 2)
           (fun _ => 1) (fun _ => 1)
           (fun _ => 5) (fun _ => 5)
           (fun _ => -1) zeros zeros.
Definition round_in (c : R) : wq_in := mkWqIn round_flow zeros (fun _ => c) zeros (fun _ => c) zeros 4.
Definition round_par (K : R) : wq_par := wq_par_ex K 1 (fun _ => false).

Lemma round_good K c : 0 <= K -> good_input rest_net (round_par K) wq_ori wq_weir wq_pump (round_in c).
Proof.
  intros HK. constructor.
  - cbn. lra.
  - constructor.
    + intros k Hk c' c_0I. assert (HD' : forall j, 0 < ch_D (superlink_chain rest_net (round_par K) round_flow c' c_0I zeros k) j).
      { intros j. cbn [ch_D superlink_chain]. apply along_cases; intros; cbn; lra. }
      split; [|intros j _; apply HD']. split; [|split].
      * intros j Hj. cbn [round_in i_F i_Q0I ch_D ch_A ch_dx ch_K superlink_chain]. repeat split; apply along_cases; intros; cbn; lra.
      * intros j Hj. cbn. unfold zeros. lra.
      * intros j Hj. left. apply HD'.
    + intros j Hj Hb. cbn. unfold zeros. lra.
  - constructor.
    + intros k Hk c' c_0I. split; intros j Hj.
      * cbn [round_in i_F i_Q0I i_dt ch_Qup ch_Qdn ch_A ch_Ap ch_dx superlink_chain].
        cbn [round_flow f_Quu f_Qup f_Qdu f_Qud f_Qdn f_Qdd f_Au f_A f_Ad f_Aup f_Ap f_Adp]. rewrite !along_const. unfold Rdiv. ring.
      * cbn [round_in i_F i_Q0I i_dt ch_Qup ch_Qdn ch_AS ch_h ch_hp ch_Q0 superlink_chain].
        cbn [round_flow f_Quu f_Qup f_Qdu f_Qud f_Qdn f_Qdd f_h f_hp]. rewrite !along_const. cbn. unfold zeros. field.
    + intros j Hj Hb. unfold superjunction_conserves, controls_flow, sum_if. cbn in Hj.
      destruct j as [|[|[|j]]]; [| | |lia]; cbn; unfold zeros; lra.
Qed.

(** A constituent of concentration 10 decaying at 1/100 per second: after ten steps of 4 s nothing is below 10 exp(- 2/5), and after
    the first step more is left than first-order decay leaves. *)
Example C91_example :
  let P := round_par (1/100) in let run := List.repeat (round_in 10) 10 in
  (exists o', q_steps rest_net P wq_ori wq_weir wq_pump run (wq_fresh (constant_state 10)) o' /\
     forall j, (j < n_M rest_net)%nat -> 10 * exp (- (1/100 * 40)) <= c_j (ob_c o') j <= 10) /\
  (exists o1, q_step rest_net P wq_ori wq_weir wq_pump (round_in 10) (wq_fresh (constant_state 10)) o1 /\
     mass rest_net round_flow false (constant_state 10) / (1 + 1/100 * 4) < mass rest_net round_flow true (ob_c o1)).
Proof.
  intros P run.
  assert (HC : within rest_net 10 10 (constant_state 10)) by (constructor; cbn; intros; lra).
  assert (HI : inputs_within rest_net P 10 10 (i_bc (round_in 10)) (i_0j (round_in 10)) (i_0I (round_in 10)))
    by (constructor; cbn; intros; try lra; discriminate).
  assert (HG : good_input rest_net P wq_ori wq_weir wq_pump (round_in 10)) by (apply round_good; lra).
  assert (HR : rates_equal rest_net P (1/100)) by (constructor; reflexivity).
  assert (HRm : rates_at_most rest_net P (1/100)) by (constructor; intros; right; reflexivity).
  assert (HF : List.Forall (fun i => good_input rest_net P wq_ori wq_weir wq_pump i /\ inputs_within rest_net P 10 10 (i_bc i) (i_0j i) (i_0I i)) run).
  { apply List.Forall_forall. intros i Hi. apply List.repeat_spec in Hi. subst i. split; assumption. }
  split.
  - assert (EX : exists o', q_steps rest_net P wq_ori wq_weir wq_pump run (wq_fresh (constant_state 10)) o').
    { apply steps_exist; [apply rest_net_ok|apply wq_covered|apply wq_ends| |apply fresh_clean_obj].
      eapply List.Forall_impl; [|exact HF]. intros a [Ha _]. exact Ha. }
    destruct EX as [o' HS]. exists o'. split; [exact HS|]. intros j Hj.
    destruct (C91_no_faster_than_first_order rest_net P wq_ori wq_weir wq_pump (1/100) 10 10 run (constant_state 10) o'
                (proj1 rest_net_ok) wq_ends ltac:(cbn; lra) ltac:(cbn; lra) ltac:(lra) HRm ltac:(lra) HC HF HS) as [W L].
    assert (Ee : elapsed run = 40) by (unfold run; cbn [List.repeat elapsed round_in i_dt]; lra).
    rewrite Ee in L. pose proof (wi_j _ _ _ _ W j Hj). lra.
  - destruct (step_exists rest_net P wq_ori wq_weir wq_pump (round_in 10) (wq_fresh (constant_state 10)) (proj1 rest_net_ok) wq_covered wq_ends HG
      (fresh_clean_obj _ _ _ _ _ _)) as [o1 H1].
    exists o1. split; [exact H1|].
    apply (C91_end_pieces_do_not_react_refuted rest_net P wq_ori wq_weir wq_pump (1/100) 10 10 (round_in 10) (wq_fresh (constant_state 10)) o1
             (proj1 rest_net_ok) wq_ends ltac:(cbn; lra) ltac:(cbn; lra) ltac:(lra) HR ltac:(lra) (fun _ _ => eq_refl) (fresh_clean_obj _ _ _ _ _ _) HC HG HI
             (fun _ _ => eq_refl) (fun _ _ _ _ => eq_refl)); [|exact H1|cbn; lia].
    constructor; reflexivity.
Qed.

(** Three storages without superlinks: water is let from the first to the last and back again in two steps of 4 s. *)
Definition tank_net : network :=
  mkNetwork 0 ex_nk ex_i1 ex_I1 (fun k => k) (fun k => S k) 0 0 ex_kI ex_fwdi ex_bwdi ex_isS ex_isE
    (fun i => Nat.eqb i 0 || Nat.eqb i 3) (fun i => Nat.eqb i 2 || Nat.eqb i 4)
    (fun _ => 10) (fun _ => 1/100) (fun i => if Nat.eqb i 1 then 1%nat else 0%nat) (fun _ => 1/10) (fun _ => 1) (fun _ => 1/2)
    (fun i => Nat.eqb i 2) (fun _ => 0) (fun _ => 1) (fun _ => 1) (fun _ => 1/2) (fun _ => 1)
    (fun k => if Nat.eqb k 0 then 3 else 2) (fun _ => 0) (fun _ => 1/100) (fun _ => 1/100) (fun _ => 0%nat) (fun _ => 0%nat)
    (fun _ => 0) (fun _ => 0) 3 (fun _ => false) (fun _ => 0) (fun _ => 100) (1/1000) (fun _ => 50) false BCz true true.
Definition tank_in (c : R) (back : bool) : wq_in :=
  let full := fun _ => 5 in let moved := fun j => if Nat.eqb j 0 then 3 else if Nat.eqb j 2 then 7 else 5 in
  mkWqIn (mkFlowIn zeros zeros zeros zeros zeros zeros zeros zeros zeros zeros zeros zeros zeros zeros
            (if back then full else moved) (if back then moved else full) (fun _ => if back then - (1/2) else 1/2) zeros zeros)
         zeros (fun _ => c) zeros (fun _ => c) zeros 4.
Example C91_storages_example :
  let run := [tank_in 10 false; tank_in 10 true] in
  exists o', q_steps tank_net (round_par (1/100)) wq_ori wq_weir wq_pump run (wq_fresh (constant_state 10)) o' /\
    c_j (ob_c o') 0%nat = 10 / (1 + 1/100 * 4) / (1 + 1/100 * 4).
Proof.
  intros run. set (P := round_par (1/100)).
  assert (HW : well_formed tank_net).
  { constructor.
    - split; cbn; intros; lia.
    - intros k j Hk. cbn in Hk. lia.
    - cbn; intros; lia.
    - intros k Hk. cbn in Hk. lia. }
  assert (HE : q_ends_in tank_net wq_ori wq_weir wq_pump).
  { unfold q_ends_in, ends_in. cbn. split; [intros; lia|]. split; [intros; lia|]. split; intros; lia. }
  assert (HG : forall b, good_input tank_net P wq_ori wq_weir wq_pump (tank_in 10 b)).
  { intros b. constructor.
    - cbn. lra.
    - constructor; [cbn; intros; lia|]. intros j Hj _. cbn. unfold zeros. destruct b, (Nat.eqb j 0), (Nat.eqb j 2); lra.
    - constructor; [cbn; intros; lia|]. intros j Hj _. unfold superjunction_conserves, controls_flow, sum_if. cbn in Hj.
      destruct j as [|[|[|j]]]; [| | |lia]; destruct b; cbn; unfold zeros; lra. }
  assert (HF : List.Forall (fun i => good_input tank_net P wq_ori wq_weir wq_pump i /\ inputs_within tank_net P 0 10 (i_bc i) (i_0j i) (i_0I i) /\
                        forall j, (j < n_M tank_net)%nat -> i_Q0j i j = 0) run).
  { apply List.Forall_forall. intros i Hi. assert (Hi' : i = tank_in 10 false \/ i = tank_in 10 true) by (cbn in Hi; intuition).
    assert (HI : forall b, inputs_within tank_net P 0 10 (i_bc (tank_in 10 b)) (i_0j (tank_in 10 b)) (i_0I (tank_in 10 b)))
      by (intros b; constructor; cbn; unfold zeros; intros; lra).
    destruct Hi' as [-> | ->]; (split; [apply HG|split; [apply HI|reflexivity]]). }
  assert (EX : exists o', q_steps tank_net P wq_ori wq_weir wq_pump run (wq_fresh (constant_state 10)) o').
  { apply steps_exist; [exact HW|intros I HI; cbn in HI; lia|exact HE| |apply fresh_clean_obj].
    eapply List.Forall_impl; [|exact HF]. intros a [Ha _]. exact Ha. }
  destruct EX as [o' HS]. exists o'. split; [exact HS|].
  assert (HR : rates_equal tank_net P (1/100)) by (constructor; reflexivity).
  assert (HC : within tank_net 10 10 (constant_state 10)) by (constructor; cbn; intros; lra).
  destruct (C91_storages_decay_exactly tank_net P wq_ori wq_weir wq_pump (1/100) 10 10 run (constant_state 10) o' HW HE eq_refl
    ltac:(cbn; lra) ltac:(cbn; lra) ltac:(lra) HR ltac:(lra) (fun _ _ => eq_refl) HC HF HS 0%nat ltac:(cbn; lia)) as [E _].
  rewrite E. unfold run. cbn [decay tank_in i_dt]. field.
Qed.
