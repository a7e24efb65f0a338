(** The water-quality step as a whole: its linear system has exactly one solution, and the reported state solves every
    transport equation of the network. *)
From Verif Require Import Prelude M_Coeffs M_Recurrence M_Assembly M_Step M_Quality S_Superlink S_Network S_Step S_Quality
  L_Forward L_Assembly L_Step L_Sweep L_Quality L_QualityStep L_QualityNet L_QualityMax L_Square.

Lemma finite_choice {A : Type} (d : A) n (Q : nat -> A -> Prop) :
  (forall k, (k < n)%nat -> exists x, Q k x) -> exists f, forall k, (k < n)%nat -> Q k (f k).
Proof.
  induction n as [|n IH]; intros H.
  - exists (fun _ => d). intros; lia.
  - destruct IH as [f Hf]; [intros; apply H; lia|]. destruct (H n ltac:(lia)) as [x Hx].
    exists (fun k => if Nat.eqb k n then x else f k). intros k Hk. destruct (Nat.eqb_spec k n) as [->|]; auto. apply Hf. lia.
Qed.
(** Local arrays laid out one after the other form a global array. *)
Lemma glue (X : nat -> arr) (len st : nat -> nat) n :
  (forall k k', (k < k')%nat -> (k' < n)%nat -> (st k + len k <= st k')%nat) ->
  exists g : arr, forall k j, (k < n)%nat -> (j < len k)%nat -> g (st k + j)%nat = X k j.
Proof.
  induction n as [|n IH]; intros H.
  - exists zeros. intros; lia.
  - destruct IH as [g Hg]; [intros; apply H; lia|].
    exists (fun i => if Nat.leb (st n) i then X n (i - st n)%nat else g i). intros k j Hk Hj.
    destruct (Nat.eq_dec k n) as [->|].
    + destruct (Nat.leb_spec (st n) (st n + j)); [|lia]. f_equal. lia.
    + pose proof (H k n ltac:(lia) ltac:(lia)). destruct (Nat.leb_spec (st n) (st k + j)); [lia|]. apply Hg; lia.
Qed.

(** Agreement of two states on everything the network contains. *)
Record agree (N : network) (c1 c2 : wq_state) : Prop := mkAgree {
  ag_j : forall j, (j < n_M N)%nat -> c_j c1 j = c_j c2 j;
  ag_p : forall k j, (k < n_K N)%nat -> (j <= S (n_nk N k))%nat -> pieces_of N c1 k j = pieces_of N c2 k j;
  ag_n : forall k j, (k < n_K N)%nat -> (j <= n_nk N k)%nat -> junctions_of N c1 k j = junctions_of N c2 k j }.

Lemma controls_net_ext C Q v v' j M : ends_in M (t_n C) (t_Ju C) (t_Jd C) -> (forall i, (i < M)%nat -> v i = v' i) ->
  controls_net C Q v j = controls_net C Q v' j.
Proof.
  intros He Hv. unfold controls_net. f_equal; apply sum_n_ext; intros m Hm; destruct (Nat.eqb _ _); auto;
    destruct (He m Hm); now rewrite !Hv.
Qed.

Lemma transport_agree N P CO CW CP F c c_bc c_0j Q_0j c_0I Q_0I dt c1 c2 :
  q_ends_in N CO CW CP -> agree N c1 c2 ->
  network_transport N P CO CW CP F c c_bc c_0j Q_0j c_0I Q_0I dt c1 ->
  network_transport N P CO CW CP F c c_bc c_0j Q_0j c_0I Q_0I dt c2.
Proof.
  intros (E1 & E2 & E3 & E4) [Aj Ap An] [H1 H2]. split.
  - intros j Hj. specialize (H1 j Hj). destruct (p_bc P j); [now rewrite <- Aj|].
    unfold superjunction_balance in *. rewrite <- (Aj j Hj).
    rewrite <- (controls_net_ext CO _ (c_j c1) (c_j c2) j (n_M N)) by auto.
    rewrite <- (controls_net_ext CW _ (c_j c1) (c_j c2) j (n_M N)) by auto.
    rewrite <- (controls_net_ext CP _ (c_j c1) (c_j c2) j (n_M N)) by auto.
    rewrite H1. f_equal. f_equal. f_equal. f_equal; [f_equal|].
    + apply sum_n_ext. intros k Hk. destruct (Nat.eqb _ _); auto. destruct (E1 k Hk). rewrite Aj by auto.
      pose proof (Ap k (S (n_nk N k)) Hk ltac:(lia)) as G. unfold pieces_of in G. rewrite !along_end in G. now rewrite G.
    + apply sum_n_ext. intros k Hk. destruct (Nat.eqb _ _); auto. destruct (E1 k Hk). rewrite Aj by auto.
      pose proof (Ap k 0%nat Hk ltac:(lia)) as G. unfold pieces_of in G. rewrite !along_0 in G. now rewrite G.
  - intros k Hk. specialize (H2 k Hk). destruct (E1 k Hk) as [U1 U2]. rewrite <- !Aj by auto. destruct H2 as [H2 H3].
    split; intros j Hj; cbn [ch_n superlink_chain] in Hj.
    + specialize (H2 j Hj). unfold piece_balance in *. rewrite <- (Ap k j Hk) by lia.
      assert (G1 : left_of (c_j c1 (n_Ju N k)) (junctions_of N c2 k) j = left_of (c_j c1 (n_Ju N k)) (junctions_of N c1 k) j)
        by (destruct j; simpl; [auto|symmetry; apply An; auto; lia]).
      assert (G2 : right_of (n_nk N k) (c_j c1 (n_Jd N k)) (junctions_of N c2 k) j = right_of (n_nk N k) (c_j c1 (n_Jd N k)) (junctions_of N c1 k) j)
        by (unfold right_of; destruct (Nat.leb_spec j (n_nk N k)); [symmetry; apply An; auto|auto]).
      cbn [ch_n superlink_chain] in *. rewrite G1, G2. exact H2.
    + specialize (H3 j Hj). unfold junction_balance in *. rewrite <- (Ap k j Hk), <- (Ap k (j + 1)%nat Hk), <- (An k j Hk) by lia.
      exact H3.
Qed.

(** Differences of solutions solve the homogeneous equations. *)
Definition zero_state : wq_state := mkWq zeros zeros zeros zeros zeros.
Definition state_minus (c1 c2 : wq_state) : wq_state :=
  mkWq (fun j => c_j c1 j - c_j c2 j) (fun j => c_I c1 j - c_I c2 j) (fun j => c_i c1 j - c_i c2 j)
       (fun j => c_u c1 j - c_u c2 j) (fun j => c_d c1 j - c_d c2 j).
Lemma face_minus Q a a' b b' D A dx : face Q (a - a') (b - b') D A dx = face Q a b D A dx - face Q a' b' D A dx.
Proof. unfold face, Rdiv. destruct (Rltb 0 Q); ring. Qed.
Lemma storage_minus V Vp c c' cp dt : storage V Vp (c - c') 0 dt = storage V Vp c cp dt - storage V Vp c' cp dt.
Proof. unfold storage, Rdiv. ring. Qed.
Lemma control_flux_minus Q a a' b b' : control_flux Q (a - a') (b - b') = control_flux Q a b - control_flux Q a' b'.
Proof. unfold control_flux. destruct (Rleb 0 Q); ring. Qed.
Lemma controls_net_minus C Q v v' j : controls_net C Q (fun i => v i - v' i) j = controls_net C Q v j - controls_net C Q v' j.
Proof.
  unfold controls_net.
  assert (G : forall q, sum_if q (fun m => control_flux (Q m) (v (t_Ju C m) - v' (t_Ju C m)) (v (t_Jd C m) - v' (t_Jd C m))) (t_n C)
    = sum_if q (fun m => control_flux (Q m) (v (t_Ju C m)) (v (t_Jd C m))) (t_n C)
      - sum_if q (fun m => control_flux (Q m) (v' (t_Ju C m)) (v' (t_Jd C m))) (t_n C)).
  { intros q. unfold sum_if. rewrite <- sum_n_minus. apply sum_n_ext. intros m Hm. rewrite control_flux_minus. destruct (q m); lra. }
  rewrite !G. lra.
Qed.
Lemma left_minus a a' Nd Nd' j : left_of (a - a') (fun i => Nd i - Nd' i) j = left_of a Nd j - left_of a' Nd' j.
Proof. destruct j; reflexivity. Qed.
Lemma right_minus n z z' Nd Nd' j : right_of n (z - z') (fun i => Nd i - Nd' i) j = right_of n z Nd j - right_of n z' Nd' j.
Proof. unfold right_of. destruct (Nat.leb j n); reflexivity. Qed.
Lemma along_minus n i1 u u' x x' d d' k j :
  along n i1 (fun i => u i - u' i) (fun i => x i - x' i) (fun i => d i - d' i) k j = along n i1 u x d k j - along n i1 u' x' d' k j.
Proof. unfold along. destruct (Nat.eqb j 0), (Nat.leb j n); reflexivity. Qed.
Lemma along_zero n i1 k j : along n i1 zeros zeros zeros k j = 0.
Proof. unfold along, zeros. destruct (Nat.eqb j 0), (Nat.leb j n); reflexivity. Qed.

Lemma transport_minus N P CO CW CP F c c_bc c_0j Q_0j c_0I Q_0I dt c1 c2 :
  network_transport N P CO CW CP F c c_bc c_0j Q_0j c_0I Q_0I dt c1 ->
  network_transport N P CO CW CP F c c_bc c_0j Q_0j c_0I Q_0I dt c2 ->
  network_transport N P CO CW CP F zero_state zeros zeros Q_0j zeros Q_0I dt (state_minus c1 c2).
Proof.
  intros [H1 H2] [G1 G2]. split.
  - intros j Hj. specialize (H1 j Hj). specialize (G1 j Hj). cbn [c_j state_minus]. destruct (p_bc P j).
    + unfold zeros. lra.
    + unfold superjunction_balance in *. cbn [c_j c_u c_d zero_state state_minus]. rewrite !controls_net_minus.
      change (zeros j) with 0. rewrite (storage_minus _ _ _ _ (c_j c j)).
      assert (D1 : forall q, sum_if q (fun k => face (f_Qdd F k) (c_d c1 k - c_d c2 k) (c_j c1 (n_Jd N k) - c_j c2 (n_Jd N k)) (p_Dd P k) (f_Ad F k) (n_dxd N k)) (n_K N)
        = sum_if q (fun k => face (f_Qdd F k) (c_d c1 k) (c_j c1 (n_Jd N k)) (p_Dd P k) (f_Ad F k) (n_dxd N k)) (n_K N)
          - sum_if q (fun k => face (f_Qdd F k) (c_d c2 k) (c_j c2 (n_Jd N k)) (p_Dd P k) (f_Ad F k) (n_dxd N k)) (n_K N)).
      { intros q. unfold sum_if. rewrite <- sum_n_minus. apply sum_n_ext. intros m Hm. rewrite face_minus. destruct (q m); lra. }
      assert (D2 : forall q, sum_if q (fun k => face (f_Quu F k) (c_j c1 (n_Ju N k) - c_j c2 (n_Ju N k)) (c_u c1 k - c_u c2 k) (p_Du P k) (f_Au F k) (n_dxu N k)) (n_K N)
        = sum_if q (fun k => face (f_Quu F k) (c_j c1 (n_Ju N k)) (c_u c1 k) (p_Du P k) (f_Au F k) (n_dxu N k)) (n_K N)
          - sum_if q (fun k => face (f_Quu F k) (c_j c2 (n_Ju N k)) (c_u c2 k) (p_Du P k) (f_Au F k) (n_dxu N k)) (n_K N)).
      { intros q. unfold sum_if. rewrite <- sum_n_minus. apply sum_n_ext. intros m Hm. rewrite face_minus. destruct (q m); lra. }
      rewrite D1, D2. lra.
  - intros k Hk. destruct (H2 k Hk) as [A1 A2]. destruct (G2 k Hk) as [B1 B2]. split; intros j Hj.
    + specialize (A1 j Hj). specialize (B1 j Hj). unfold piece_balance in *.
      unfold pieces_of, state_minus, junctions_of in *.
      cbn [ch_n ch_Qup ch_Qdn ch_A ch_Ap ch_D ch_dx ch_K ch_cp superlink_chain c_j c_u c_d c_i c_I zero_state] in *.
      rewrite along_zero, along_minus, left_minus, right_minus, !face_minus.
      rewrite (storage_minus _ _ _ _ (along (n_nk N k) (n_i1 N k) (c_u c) (c_i c) (c_d c) k j)). lra.
    + specialize (A2 j Hj). specialize (B2 j Hj). unfold junction_balance in *.
      unfold pieces_of, state_minus, junctions_of in *.
      cbn [ch_n ch_Qup ch_Qdn ch_A ch_Ap ch_D ch_dx ch_K ch_cp ch_AS ch_h ch_hp ch_KI ch_Q0 ch_c0 ch_cIp superlink_chain c_j c_u c_d c_i c_I zero_state] in *.
      change (zeros (n_I1 N k + j)%nat) with 0. rewrite !along_minus, !face_minus.
      rewrite (storage_minus _ _ _ _ (c_I c (n_I1 N k + j)%nat)). lra.
Qed.

Section Solve.
  Variables (N : network) (P : wq_par) (CO CW CP : wq_ctl) (F : wq_flow).
  Variables (c_0j Q_0j c_0I Q_0I : arr) (dt : R) (w : wq_work).
  Hypothesis HW : well_formed N.
  Hypothesis Hdt : 0 < dt.
  Hypothesis HE : q_ends_in N CO CW CP.
  Hypothesis HWet : network_wet N P F Q_0j Q_0I.
  Hypothesis HCon : network_conserves N P CO CW CP F Q_0j Q_0I dt.
  Hypothesis HCl : q_clean N P CO CW CP (ww_s w).

  (** Two solutions of the transport equations agree. *)
  Lemma transport_unique c c_bc c1 c2 :
    network_transport N P CO CW CP F c c_bc c_0j Q_0j c_0I Q_0I dt c1 ->
    network_transport N P CO CW CP F c c_bc c_0j Q_0j c_0I Q_0I dt c2 -> agree N c1 c2.
  Proof.
    intros H1 H2. pose proof (transport_minus _ _ _ _ _ _ _ _ _ _ _ _ _ _ _ H1 H2) as HD.
    assert (HZ : within N 0 0 (state_minus c1 c2)).
    { apply (network_bounds N P CO CW CP F zero_state zeros zeros Q_0j zeros Q_0I dt Hdt HE HWet HCon); auto.
      - constructor; unfold zeros; intros; lra.
      - constructor; simpl; unfold zeros; intros; lra.
      - left. lra. }
    destruct HZ as [Z1 Z2 Z3 Z4 Z5]. cbn in Z1, Z2, Z3, Z4, Z5. constructor.
    - intros j Hj. specialize (Z1 j Hj). lra.
    - intros k j Hk Hj. unfold pieces_of. destruct j as [|j]; [rewrite !along_0; specialize (Z4 k Hk); lra|].
      destruct (Nat.eq_dec j (n_nk N k)) as [->|]; [rewrite !along_end; specialize (Z5 k Hk); lra|].
      rewrite !along_mid by lia. specialize (Z3 k j Hk ltac:(lia)). lra.
    - intros k j Hk Hj. unfold junctions_of. specialize (Z2 k j Hk Hj). lra.
  Qed.

  Section Data.
    Variables (c : wq_state) (c_bc : arr) (u : wq_setup).
    Hypothesis Hu : q_setup N P CO CW CP F c c_bc c_0j Q_0j c_0I Q_0I dt w = Some u.
    Local Notation C k := (superlink_chain N P F c c_0I Q_0I k).
    Local Notation transport := (network_transport N P CO CW CP F c c_bc c_0j Q_0j c_0I Q_0I dt).
    Local Notation lin sol := (solves (n_M N) (q_matrix CO CW CP (su_s u)) (s_b (su_s u)) sol).

    Lemma chain_good k : (k < n_K N)%nat -> chain_wet (C k) /\ chain_conserves (C k) dt /\ chain_diffuses (C k).
    Proof.
      intros Hk. destruct (nw_chain _ _ _ _ _ HWet k Hk c c_0I). split; auto. split; auto.
      now apply (nc_chain _ _ _ _ _ _ _ _ _ HCon).
    Qed.

    Lemma lin_balance sol j : (j < n_M N)%nat ->
      row_holds (n_M N) (q_matrix CO CW CP (su_s u)) (s_b (su_s u)) sol j <->
      if p_bc P j then sol j = c_bc j
      else superjunction_balance N P CO CW CP F (c_j c) c_0j Q_0j dt sol (q_end_u N u sol) (q_end_d N u sol) j.
    Proof.
      intros Hj. destruct (setup_parts N P CO CW CP F c c_bc c_0j Q_0j c_0I Q_0I dt w u Hu) as (_ & _ & _ & _ & _ & ES).
      rewrite ES. apply q_row_balance; auto; [lra|]. intros k Hk.
      destruct (end_lengths N P F c Q_0j c_0I Q_0I HWet k Hk). lra.
    Qed.

    (** A solution of the linear system extends to a solution of all transport equations. *)
    Lemma solution_state sol : lin sol -> exists cs, transport cs /\ forall j, c_j cs j = sol j.
    Proof.
      intros HS.
      destruct (finite_choice (zeros, zeros) (n_K N)
        (fun k x => chain_transport (C k) dt (sol (n_Ju N k)) (sol (n_Jd N k)) (fst x) (snd x))) as [X HX].
      { intros k Hk. destruct (chain_good k Hk) as (W1 & W2 & _).
        destruct (transport_solvable (C k) dt Hdt W1 W2 (sol (n_Ju N k)) (sol (n_Jd N k))) as (L & Nd & H). now exists (L, Nd). }
      destruct (wf_layout N HW) as [Hn Hl].
      destruct (glue (fun k j => fst (X k) (S j)) (n_nk N) (n_i1 N) (n_K N)) as [gi Hgi]; [intros; now apply Hl|].
      destruct (glue (fun k j => snd (X k) j) (fun k => S (n_nk N k)) (n_I1 N) (n_K N)) as [gI HgI].
      { intros k k' H1 H2. destruct (Hl k k' H1 H2). lia. }
      pose (cs := mkWq sol gI gi (fun k => fst (X k) 0%nat) (fun k => fst (X k) (S (n_nk N k)))).
      exists cs. split; [|auto].
      assert (EP : forall k j, (k < n_K N)%nat -> (j <= S (n_nk N k))%nat -> pieces_of N cs k j = fst (X k) j).
      { intros k j Hk Hj. unfold pieces_of. destruct j as [|j]; [reflexivity|].
        destruct (Nat.eq_dec j (n_nk N k)) as [->|]; [now rewrite along_end|].
        rewrite along_mid by lia. apply Hgi; auto; lia. }
      assert (EN : forall k j, (k < n_K N)%nat -> (j <= n_nk N k)%nat -> junctions_of N cs k j = snd (X k) j).
      { intros k j Hk Hj. apply HgI; auto; lia. }
      split.
      - intros j Hj. specialize (HS j Hj). apply lin_balance in HS; auto. cbn [c_j c_u c_d cs].
        destruct (p_bc P j); auto. unfold superjunction_balance in *. rewrite HS. f_equal. f_equal. f_equal. f_equal; [f_equal|].
        + apply sum_n_ext. intros k Hk. destruct (Nat.eqb _ _); auto. destruct (chain_good k Hk) as (W1 & W2 & W3).
          destruct (ends_exact N P CO CW CP F c c_bc c_0j Q_0j c_0I Q_0I dt w u HW Hdt Hu k Hk W1 W2 W3 sol _ _ (HX k Hk)) as (_ & -> & _).
          reflexivity.
        + apply sum_n_ext. intros k Hk. destruct (Nat.eqb _ _); auto. destruct (chain_good k Hk) as (W1 & W2 & W3).
          destruct (ends_exact N P CO CW CP F c c_bc c_0j Q_0j c_0I Q_0I dt w u HW Hdt Hu k Hk W1 W2 W3 sol _ _ (HX k Hk)) as (-> & _).
          reflexivity.
      - intros k Hk. cbn [c_j cs]. destruct (HX k Hk) as [A1 A2]. split; intros j Hj; cbn [ch_n superlink_chain] in Hj.
        + specialize (A1 j Hj). unfold piece_balance in *. rewrite EP by (auto; lia).
          assert (G1 : left_of (sol (n_Ju N k)) (junctions_of N cs k) j = left_of (sol (n_Ju N k)) (snd (X k)) j)
            by (destruct j; simpl; [auto|apply EN; auto; lia]).
          assert (G2 : right_of (n_nk N k) (sol (n_Jd N k)) (junctions_of N cs k) j = right_of (n_nk N k) (sol (n_Jd N k)) (snd (X k)) j)
            by (unfold right_of; destruct (Nat.leb_spec j (n_nk N k)); [apply EN; auto|auto]).
          cbn [ch_n superlink_chain] in *. rewrite G1, G2. exact A1.
        + specialize (A2 j Hj). unfold junction_balance in *. rewrite !EP, EN by (auto; lia). exact A2.
    Qed.

    (** Conversely the superjunction concentrations of a solution solve the linear system. *)
    Lemma state_solution cs : transport cs -> lin (c_j cs).
    Proof.
      intros [H1 H2] j Hj. apply lin_balance; auto. specialize (H1 j Hj). destruct (p_bc P j); auto.
      unfold superjunction_balance in *. rewrite H1. f_equal. f_equal. f_equal. f_equal; [f_equal|].
      - apply sum_n_ext. intros k Hk. destruct (Nat.eqb _ _); auto. destruct (chain_good k Hk) as (W1 & W2 & W3).
        destruct (ends_exact N P CO CW CP F c c_bc c_0j Q_0j c_0I Q_0I dt w u HW Hdt Hu k Hk W1 W2 W3 (c_j cs) _ _ (H2 k Hk)) as (_ & -> & _).
        unfold pieces_of. now rewrite along_end.
      - apply sum_n_ext. intros k Hk. destruct (Nat.eqb _ _); auto. destruct (chain_good k Hk) as (W1 & W2 & W3).
        destruct (ends_exact N P CO CW CP F c c_bc c_0j Q_0j c_0I Q_0I dt w u HW Hdt Hu k Hk W1 W2 W3 (c_j cs) _ _ (H2 k Hk)) as (-> & _).
        reflexivity.
    Qed.

    Lemma lin_unique sol sol' : lin sol -> lin sol' -> forall j, (j < n_M N)%nat -> sol j = sol' j.
    Proof.
      intros H1 H2 j Hj. destruct (solution_state sol H1) as (c1 & T1 & E1). destruct (solution_state sol' H2) as (c2 & T2 & E2).
      rewrite <- E1, <- E2. apply (ag_j _ _ _ (transport_unique _ _ _ _ T1 T2)). auto.
    Qed.
  End Data.

  (** The homogeneous system has only the trivial solution, so the system can be solved. *)
  Lemma lin_solvable c c_bc u :
    q_setup N P CO CW CP F c c_bc c_0j Q_0j c_0I Q_0I dt w = Some u ->
    exists sol, solves (n_M N) (q_matrix CO CW CP (su_s u)) (s_b (su_s u)) sol.
  Proof.
    intros Hu. apply square_solvable. intros v Hv j Hj.
    destruct (setup_parts N P CO CW CP F c c_bc c_0j Q_0j c_0I Q_0I dt w u Hu) as (_ & _ & _ & _ & _ & ES).
    pose (cp := fun j => - (Q_0j j * c_0j j + q_rhs N P F (su_B u) j) * dt / f_V F j).
    pose (c0 := mkWq cp (c_I c) (c_i c) (c_u c) (c_d c)).
    pose (u0 := mkWqSetup (su_L u) (su_nd u) (su_f u) (su_b u) (su_B u)
                  (q_sparse_matrix_equations N P CO CW CP F (su_B u) cp zeros Q_0j c_0j dt (ww_s w))).
    assert (Hu0 : q_setup N P CO CW CP F c0 zeros c_0j Q_0j c_0I Q_0I dt w = Some u0).
    { revert Hu. unfold q_setup.
      change (q_node_coeffs N P F c0 c_0I Q_0I dt (ww_nd w)) with (q_node_coeffs N P F c c_0I Q_0I dt (ww_nd w)).
      change (q_link_coeffs N P F c0 dt) with (q_link_coeffs N P F c dt).
      destruct (q_node_coeffs _ _ _ _ _ _ _ _); [|discriminate]. cbn [bind]. injection 1 as <-. reflexivity. }
    destruct (q_assembly_ok N P CO CW CP F (su_B u) cp zeros Q_0j c_0j dt (ww_s w) HCl) as (_ & M0 & B0).
    destruct (q_assembly_ok N P CO CW CP F (su_B u) (c_j c) c_bc Q_0j c_0j dt (ww_s w) HCl) as (_ & M1 & _).
    rewrite <- ES in M1.
    assert (EM : forall i i', (i < n_M N)%nat -> q_matrix CO CW CP (su_s u0) i i' = q_matrix CO CW CP (su_s u) i i')
      by (intros; rewrite M1 by auto; apply M0; auto).
    assert (EB : forall i, (i < n_M N)%nat -> s_b (su_s u0) i = 0).
    { intros i Hi. unfold u0; cbn [su_s]. rewrite B0. destruct (p_bc P i) eqn:Eb; [reflexivity|].
      destruct (nw_junction _ _ _ _ _ HWet i Hi Eb) as (V & _). unfold cp. field. lra. }
    apply (lin_unique c0 zeros u0 Hu0 v (fun _ => 0)); auto.
    - intros i Hi. unfold row_holds. rewrite EB by auto. rewrite <- (Hv i Hi). apply sum_n_ext. intros; now rewrite EM.
    - intros i Hi. unfold row_holds. rewrite EB by auto. apply sum_n_0. intros; lra.
  Qed.

  (** The step. *)
  Lemma step_transport c c_bc u sol lo hi :
    q_setup N P CO CW CP F c c_bc c_0j Q_0j c_0I Q_0I dt w = Some u ->
    solves (n_M N) (q_matrix CO CW CP (su_s u)) (s_b (su_s u)) sol ->
    p_min P <= lo -> hi <= p_max P -> (lo <= 0 <= hi \/ no_reaction N P) ->
    inputs_within N P lo hi c_bc c_0j c_0I -> within N lo hi c ->
    network_transport N P CO CW CP F c c_bc c_0j Q_0j c_0I Q_0I dt (q_finish N P u c sol) /\
    within N lo hi (q_finish N P u c sol).
  Proof.
    intros Hu HS Hlo Hhi HR HI HC0.
    destruct (solution_state c c_bc u Hu sol HS) as (cs & T & Ej).
    assert (B : within N lo hi cs).
    { eapply (network_bounds N P CO CW CP F c c_bc c_0j Q_0j c_0I Q_0I dt); eauto. }
    assert (SB : forall j, (j < n_M N)%nat -> lo <= sol j <= hi) by (intros; rewrite <- Ej; now apply (wi_j _ _ _ _ B)).
    assert (HB : forall k L Nd, (k < n_K N)%nat ->
       chain_transport (superlink_chain N P F c c_0I Q_0I k) dt (sol (n_Ju N k)) (sol (n_Jd N k)) L Nd ->
       (forall j, (j <= n_nk N k)%nat -> p_min P <= Nd j <= p_max P) /\
       (forall j, (j <= S (n_nk N k))%nat -> p_min P <= L j <= p_max P)).
    { intros k L Nd Hk HT. destruct (wf_ends N HW k Hk) as [U1 U2]. destruct (chain_good c k Hk) as (W1 & W2 & _).
      assert (SD : forall sg b, (forall x, lo <= x <= hi -> sg * (x - b) <= 0) -> (0 <= sg * b \/ no_reaction N P) ->
        (forall j, (j <= n_nk N k + 1)%nat -> sg * (L j - b) <= 0) /\ (forall j, (j <= n_nk N k)%nat -> sg * (Nd j - b) <= 0)).
      { intros sg b Hs Hr.
        destruct (chain_side N P F c c_bc c_0j Q_0j c_0I Q_0I HWet lo hi sg b HI HC0 Hs Hr k Hk) as [S1 S2].
        apply (chain_max _ dt Hdt W1 W2 _ _ L Nd HT sg b S1 S2); apply Hs; auto. }
      destruct (SD 1 hi) as [A1 A2]; [intros; lra|destruct HR; [left; lra|auto]|].
      destruct (SD (-1) lo) as [B1 B2]; [intros; lra|destruct HR; [left; lra|auto]|].
      split; intros j Hj.
      - specialize (A2 j Hj). specialize (B2 j Hj). lra.
      - specialize (A1 j ltac:(lia)). specialize (B1 j ltac:(lia)). lra. }
    destruct (finish_exact N P CO CW CP F c c_bc c_0j Q_0j c_0I Q_0I dt w u HW Hdt Hu sol) as [FJ FC]; auto.
    - intros j Hj. specialize (SB j Hj). lra.
    - intros k Hk. apply chain_good; auto.
    - assert (AG : agree N cs (q_finish N P u c sol)).
      { destruct T as [T1 T2]. constructor.
        - intros j Hj. rewrite FJ by auto. apply Ej.
        - intros k j Hk Hj. specialize (T2 k Hk). rewrite !Ej in T2. symmetry. now apply (proj1 (FC k _ _ Hk T2)).
        - intros k j Hk Hj. specialize (T2 k Hk). rewrite !Ej in T2. symmetry. now apply (proj2 (FC k _ _ Hk T2)). }
      pose proof (transport_agree _ _ _ _ _ _ _ _ _ _ _ _ _ _ _ HE AG T) as T'. split; auto.
      eapply (network_bounds N P CO CW CP F c c_bc c_0j Q_0j c_0I Q_0I dt); eauto.
  Qed.
End Solve.
