(** The code's water-quality step along one superlink computes the solution of the chain's transport equations. *)
From Verif Require Import Prelude M_Coeffs M_Recurrence M_Assembly M_Step M_Quality S_Superlink S_Network S_Step S_Quality
  L_Forward L_Step L_Sweep L_Quality.

Section Along.
  Variables (n i1 : nat) (u x d : arr) (k : nat).
  Lemma along_0 : along n i1 u x d k 0 = u k.
  Proof. reflexivity. Qed.
  Lemma along_mid j : (j < n)%nat -> along n i1 u x d k (S j) = x (i1 + j)%nat.
  Proof.
    intros Hj. unfold along. cbn [Nat.eqb]. destruct (Nat.leb_spec (S j) n); [|lia].
    f_equal. lia.
  Qed.
  Lemma along_end : along n i1 u x d k (S n) = d k.
  Proof. unfold along. cbn [Nat.eqb]. destruct (Nat.leb_spec (S n) n); [lia|reflexivity]. Qed.
End Along.

Lemma clip_id P x : p_min P <= x <= p_max P -> q_clip P x = x.
Proof. intros H. unfold q_clip. rewrite Rmax_left, Rmin_left by lra. reflexivity. Qed.
Lemma limit_id P x : p_min P <= x <= p_max P -> q_limit P x = x.
Proof.
  intros H. unfold q_limit. destruct (Rltb_spec x (p_min P)); [lra|]. cbv zeta. destruct (Rltb_spec (p_max P) x); lra.
Qed.
Lemma limit_range P x : p_min P <= p_max P -> p_min P <= q_limit P x <= p_max P.
Proof.
  intros H. unfold q_limit. cbv zeta. destruct (Rltb_spec x (p_min P)).
  - destruct (Rltb_spec (p_max P) (p_min P)); lra.
  - destruct (Rltb_spec (p_max P) x); lra.
Qed.
Lemma clip_range P x : p_min P <= p_max P -> p_min P <= q_clip P x <= p_max P.
Proof.
  intros H. unfold q_clip. split.
  - apply Rmin_glb; auto. apply Rmax_r.
  - apply Rmin_r.
Qed.

Section Step.
  Variables (N : network) (P : wq_par) (CO CW CP : wq_ctl) (F : wq_flow) (c : wq_state).
  Variables (c_bc c_0j Q_0j c_0I Q_0I : arr) (dt : R) (w : wq_work) (u : wq_setup).
  Hypothesis HW : well_formed N.
  Hypothesis Hdt : 0 < dt.
  Hypothesis Hu : q_setup N P CO CW CP F c c_bc c_0j Q_0j c_0I Q_0I dt w = Some u.

  Local Notation C k := (superlink_chain N P F c c_0I Q_0I k).

  Lemma setup_parts :
    su_L u = q_link_coeffs N P F c dt /\
    q_node_coeffs N P F c c_0I Q_0I dt (ww_nd w) = Some (su_nd u) /\
    su_f u = q_forward_recurrence (ww_f w) (l_al (su_L u)) (l_be (su_L u)) (l_ch (su_L u)) (l_ga (su_L u)) (su_nd u)
               (n_K N) (n_nk N) (n_I1 N) (n_i1 N) /\
    su_b u = q_backward_recurrence (ww_b w) (l_al (su_L u)) (l_be (su_L u)) (l_ch (su_L u)) (l_ga (su_L u)) (su_nd u)
               (n_K N) (n_nk N) (fun k => n_I1 N k + n_nk N k - 1)%nat (fun k => n_i1 N k + n_nk N k - 1)%nat /\
    (forall k, su_B u k = q_boundary (q_ends (su_nd u) (su_f u) (su_b u) (n_I1 N k) (n_I1 N k + n_nk N k - 1))
                                     (q_end_coef (su_L u) k)) /\
    su_s u = q_sparse_matrix_equations N P CO CW CP F (su_B u) (c_j c) c_bc Q_0j c_0j dt (ww_s w).
  Proof.
    unfold q_setup in Hu. destruct (q_node_coeffs _ _ _ _ _ _ _ _) as [nd|] eqn:E; [|discriminate].
    cbn [bind] in Hu. injection Hu as <-. cbn [su_L su_nd su_f su_b su_B su_s]. auto 10.
  Qed.

  Lemma chain_coefs k j : (k < n_K N)%nat -> (j < n_nk N k)%nat ->
    l_al (su_L u) (n_i1 N k + j)%nat = pa (C k) (S j) /\ l_be (su_L u) (n_i1 N k + j)%nat = pb (C k) dt (S j) /\
    l_ch (su_L u) (n_i1 N k + j)%nat = pc (C k) (S j) /\ l_ga (su_L u) (n_i1 N k + j)%nat = pg (C k) dt (S j).
  Proof.
    intros Hk Hj. destruct setup_parts as (-> & _). unfold pa, pb, pc, pg, superlink_chain.
    cbn [ch_Qup ch_Qdn ch_A ch_Ap ch_D ch_dx ch_K ch_cp]. rewrite !along_mid by auto. repeat split; reflexivity.
  Qed.
  Lemma end_coefs k :
    (l_alu (su_L u) k = pa (C k) 0 /\ l_beu (su_L u) k = pb (C k) dt 0 /\
     l_chu (su_L u) k = pc (C k) 0 /\ l_gau (su_L u) k = pg (C k) dt 0) /\
    (l_ald (su_L u) k = pa (C k) (S (n_nk N k)) /\ l_bed (su_L u) k = pb (C k) dt (S (n_nk N k)) /\
     l_chd (su_L u) k = pc (C k) (S (n_nk N k)) /\ l_gad (su_L u) k = pg (C k) dt (S (n_nk N k))).
  Proof.
    destruct setup_parts as (-> & _). unfold pa, pb, pc, pg, superlink_chain.
    cbn [ch_Qup ch_Qdn ch_A ch_Ap ch_D ch_dx ch_K ch_cp]. rewrite !along_end, !along_0. repeat split; reflexivity.
  Qed.

  Lemma node_coefs k j : (k < n_K N)%nat -> (j <= n_nk N k)%nat ->
    su_nd u (n_I1 N k + j)%nat = mkWqNode (nka (C k) j) (nla (C k) dt j) (nmu (C k) j) (net (C k) dt j).
  Proof.
    intros Hk Hj. destruct setup_parts as (_ & E & _).
    destruct (wf_range N HW k Hk) as [_ HR]. destruct (wf_layout N HW) as [Hn _]. specialize (Hn k Hk).
    destruct (wf_chain N HW k j Hk Hj) as (EK & ES & EE & EF & EB).
    unfold q_node_coeffs in E.
    pose proof (all_entries_spec _ _ _ _ E) as HS.
    specialize (HS (n_I1 N k + j)%nat ltac:(lia)). unfold q_node_coeff in HS.
    rewrite EK, ES, EE in HS.
    unfold nka, nla, nmu, net, superlink_chain. cbn [ch_Qup ch_Qdn ch_A ch_Ap ch_D ch_dx ch_K ch_cp ch_AS ch_h ch_hp ch_KI ch_Q0 ch_c0 ch_cIp].
    replace (j + 1)%nat with (S j) by lia.
    assert (DV : forall x y q, div x y = Some q -> q = x / y) by (intros ? ? ? X; now apply div_some in X).
    assert (Fin : forall A_S h hp Qu Qd wu wd K D D' A A' dx dx' c0 Q0 cp r,
      (do ka <- q_kappa Qd wd D' A' dx'; do la <- q_lambda A_S h hp Qu Qd wu wd dt K D D' A A' dx dx';
       do mu <- q_mu Qu wu D A dx; do et <- q_eta c0 Q0 A_S h cp dt; Some (mkWqNode ka la mu et)) = Some r ->
      r = mkWqNode (- Qd * wd + - 2 * D' * A' / dx')
            (A_S * h * K + wu * Qu + - (1 - wd) * Qd + 2 * D' * A' / dx' + 2 * D * A / dx + A_S * (2 * h - hp) / dt)
            (Qu * (1 - wu) + - 2 * D * A / dx) (c0 * Q0 + A_S * h * cp / dt)).
    { clear -DV. intros A_S h hp Qu Qd wu wd K D D' A A' dx dx' c0 Q0 cp r Er.
      unfold q_kappa, q_lambda, q_mu, q_eta in Er.
      repeat match type of Er with
      | context [div ?x ?y] => let E := fresh "E" in destruct (div x y) eqn:E; cbn [bind] in Er; [apply DV in E; subst|discriminate]
      end. now injection Er as <-. }
    destruct (Nat.eqb_spec j 0) as [->|Hj0].
    - destruct (Nat.eqb_spec 0 (n_nk N k)); [lia|]. rewrite EF in HS by lia.
      apply Fin in HS. rewrite HS. rewrite !along_0, !along_mid by lia. reflexivity.
    - destruct (Nat.eqb_spec j (n_nk N k)) as [->|Hjn].
      + rewrite EB in HS by lia. apply Fin in HS. rewrite HS.
        destruct (n_nk N k) as [|n]; [lia|]. rewrite !along_end, !along_mid by lia.
        replace (n_i1 N k + S n - 1)%nat with (n_i1 N k + n)%nat by lia. reflexivity.
      + rewrite EF in HS by lia. apply Fin in HS. rewrite HS. rewrite !(along_mid _ _ _ _ _ _ j) by lia.
        destruct j as [|j]; [lia|]. rewrite !along_mid by lia.
        replace (n_i1 N k + S j - 1)%nat with (n_i1 N k + j)%nat by lia. reflexivity.
  Qed.

  Section Super.
    Variable k : nat.
    Hypothesis Hk : (k < n_K N)%nat.
    Hypothesis Cw : chain_wet (C k).
    Hypothesis Cc : chain_conserves (C k) dt.
    Let n := n_nk N k.
    Let i1 := n_i1 N k.
    Let I1 := n_I1 N k.

    Lemma n_pos : (1 <= n)%nat.
    Proof. destruct (wf_layout N HW) as [Hn _]. now apply Hn. Qed.

    (** Rows of the interior of the superlink. *)
    Definition interior (L Nd : arr) : Prop :=
      (forall j, (1 <= j <= n)%nat -> piece_balance (C k) dt 0 0 L Nd j) /\
      (forall j, (1 <= j)%nat -> (j < n)%nat -> junction_balance (C k) dt L Nd j).

    Lemma interior_rows L Nd : interior L Nd ->
      (forall j, (j < n)%nat -> pa (C k) (S j) * Nd j + pb (C k) dt (S j) * L (S j) + pc (C k) (S j) * Nd (S j) = pg (C k) dt (S j)) /\
      (forall j, (S j < n)%nat -> nka (C k) (S j) * L (S j) + nla (C k) dt (S j) * Nd (S j) + nmu (C k) (S j) * L (S (S j)) = net (C k) dt (S j)).
    Proof.
      intros [H1 H2]. split; intros j Hj.
      - specialize (H1 (S j) ltac:(lia)). apply piece_balance_row in H1; auto; [|cbn; fold n; lia].
        unfold piece_row in H1. cbn [ch_n superlink_chain] in H1. fold n in H1.
        destruct (Nat.leb_spec (S j) n); [exact H1|lia].
      - specialize (H2 (S j) ltac:(lia) Hj). apply junction_balance_row in H2; auto. cbn; fold n; lia.
    Qed.

    Lemma fwd_hyps :
      (forall j, (j < n)%nat -> link_signs (l_al (su_L u) (i1 + j)%nat) (l_be (su_L u) (i1 + j)%nat) (l_ch (su_L u) (i1 + j)%nat)) /\
      (forall j, (S j < n)%nat -> node_signs (o_ka (su_nd u (I1 + S j)%nat)) (o_la (su_nd u (I1 + S j)%nat)) (o_mu (su_nd u (I1 + S j)%nat))).
    Proof.
      split; intros j Hj.
      - destruct (chain_coefs k j Hk Hj) as (E1 & E2 & E3 & _). fold i1 in E1, E2, E3. rewrite E1, E2, E3.
        apply piece_signs; auto. cbn; fold n; lia.
      - unfold I1. rewrite node_coefs by (auto; fold n; lia). simpl. apply chain_node_signs; auto. cbn; fold n; lia.
    Qed.
    Lemma bwd_hyps :
      (forall j, (j < n)%nat -> link_signs (l_ch (su_L u) (i1 + n - 1 - j)%nat) (l_be (su_L u) (i1 + n - 1 - j)%nat) (l_al (su_L u) (i1 + n - 1 - j)%nat)) /\
      (forall j, (S j < n)%nat -> node_signs (o_mu (su_nd u (I1 + n - S j)%nat)) (o_la (su_nd u (I1 + n - S j)%nat)) (o_ka (su_nd u (I1 + n - S j)%nat))).
    Proof.
      destruct fwd_hyps as [H1 H2]. split; intros j Hj.
      - specialize (H1 (n - 1 - j)%nat ltac:(lia)). replace (i1 + (n - 1 - j))%nat with (i1 + n - 1 - j)%nat in H1 by lia.
        destruct H1 as (A & B & D). unfold link_signs. lra.
      - specialize (H2 (n - 1 - S j)%nat ltac:(lia)). replace (I1 + S (n - 1 - S j))%nat with (I1 + n - S j)%nat in H2 by lia.
        destruct H2 as (A & B & D & E). unfold node_signs. lra.
    Qed.
    Lemma fwd_sweep : q_fwd_eqs (l_al (su_L u)) (l_be (su_L u)) (l_ch (su_L u)) (l_ga (su_L u)) (su_nd u) i1 I1 n (su_f u).
    Proof. destruct setup_parts as (_ & _ & -> & _). apply q_forward_all; auto. apply (wf_layout N HW). Qed.
    Lemma bwd_sweep : q_bwd_eqs (l_al (su_L u)) (l_be (su_L u)) (l_ch (su_L u)) (l_ga (su_L u)) (su_nd u) i1 I1 n (su_b u).
    Proof. destruct setup_parts as (_ & _ & _ & -> & _). apply q_backward_all; auto. apply (wf_layout N HW). Qed.

    Lemma forward_relation L Nd : interior L Nd -> forall j, (j < n)%nat ->
      L (S j) = fU (su_f u) (I1 + j)%nat * Nd (S j) + fV (su_f u) (I1 + j)%nat + fW (su_f u) (I1 + j)%nat * Nd 0%nat.
    Proof.
      intros HI. destruct (interior_rows L Nd HI) as [R1 R2]. destruct fwd_hyps as [H1 H2].
      apply (sweep_exact _ _ _ _ _ _ _ _ _ _ _ _ _ H1 H2 fwd_sweep (fun j => L (S j)) Nd n_pos).
      - intros j Hj. destruct (chain_coefs k j Hk Hj) as (E1 & E2 & E3 & E4). fold i1 in E1, E2, E3, E4. rewrite E1, E2, E3, E4. auto.
      - intros j Hj. unfold I1. rewrite node_coefs by (auto; fold n; lia). simpl. auto.
    Qed.
    Lemma backward_relation L Nd : interior L Nd -> forall j, (j < n)%nat ->
      L (S j) = bX (su_b u) (I1 + j)%nat * Nd j + bY (su_b u) (I1 + j)%nat + bZ (su_b u) (I1 + j)%nat * Nd n.
    Proof.
      intros HI. destruct (interior_rows L Nd HI) as [R1 R2]. destruct bwd_hyps as [H1 H2].
      assert (G := sweep_exact _ _ _ _ _ _ _ _ _ _ _ _ _ H1 H2 bwd_sweep (fun j => L (n - j)%nat) (fun j => Nd (n - j)%nat) n_pos).
      assert (A : forall j, (j < n)%nat -> L (n - j)%nat = bX (su_b u) (I1 + n - 1 - j)%nat * Nd (n - S j)%nat
                   + bY (su_b u) (I1 + n - 1 - j)%nat + bZ (su_b u) (I1 + n - 1 - j)%nat * Nd (n - 0)%nat).
      { apply G; clear G.
        - intros j Hj. destruct (chain_coefs k (n - 1 - j)%nat Hk ltac:(fold n; lia)) as (E1 & E2 & E3 & E4).
          fold i1 in E1, E2, E3, E4. replace (i1 + (n - 1 - j))%nat with (i1 + n - 1 - j)%nat in * by lia.
          rewrite E1, E2, E3, E4. specialize (R1 (n - 1 - j)%nat ltac:(lia)).
          replace (S (n - 1 - j)) with (n - j)%nat in * by lia. replace (n - S j)%nat with (n - 1 - j)%nat by lia. lra.
        - intros j Hj. replace (I1 + n - S j)%nat with (I1 + (n - S j))%nat by lia.
          unfold I1. rewrite node_coefs by (auto; fold n; lia). simpl o_mu; simpl o_la; simpl o_ka; simpl o_et.
          specialize (R2 (n - 1 - S j)%nat ltac:(lia)). replace (S (n - 1 - S j)) with (n - S j)%nat in * by lia.
          replace (S (n - S j)) with (n - j)%nat in R2 by lia. lra. }
      intros j Hj. specialize (A (n - 1 - j)%nat ltac:(lia)).
      replace (n - (n - 1 - j))%nat with (S j) in A by lia. replace (I1 + n - 1 - (n - 1 - j))%nat with (I1 + j)%nat in A by lia.
      replace (n - S (n - 1 - j))%nat with j in A by lia. rewrite Nat.sub_0_r in A. exact A.
    Qed.

    Lemma fwd_bounds j : (j < n)%nat ->
      0 <= fU (su_f u) (I1 + j)%nat /\ 0 <= fW (su_f u) (I1 + j)%nat /\ fU (su_f u) (I1 + j)%nat + fW (su_f u) (I1 + j)%nat < 1.
    Proof.
      intros Hj. destruct fwd_hyps as [H1 H2].
      destruct (sweep_bounds _ _ _ _ _ _ _ _ _ _ _ _ _ H1 H2 fwd_sweep n_pos j Hj) as (A & B & D & _). auto.
    Qed.
    Lemma bwd_bounds j : (j < n)%nat ->
      0 <= bX (su_b u) (I1 + j)%nat /\ 0 <= bZ (su_b u) (I1 + j)%nat /\ bX (su_b u) (I1 + j)%nat + bZ (su_b u) (I1 + j)%nat < 1 /\
      (pa (C k) (S j) < 0 -> 0 < bX (su_b u) (I1 + j)%nat).
    Proof.
      intros Hj. destruct bwd_hyps as [H1 H2].
      destruct (sweep_bounds _ _ _ _ _ _ _ _ _ _ _ _ _ H1 H2 bwd_sweep n_pos (n - 1 - j)%nat ltac:(lia)) as (A & B & D & _).
      pose proof (sweep_U_pos _ _ _ _ _ _ _ _ _ _ _ _ _ n_pos H1 H2 bwd_sweep (n - 1 - j)%nat ltac:(lia)) as G. cbv beta in G, A, B, D.
      replace (I1 + n - 1 - (n - 1 - j))%nat with (I1 + j)%nat in * by lia.
      repeat split; auto. intros Hp. apply G. replace (i1 + n - 1 - (n - 1 - j))%nat with (i1 + j)%nat by lia.
      destruct (chain_coefs k j Hk Hj) as (E1 & _). fold i1 in E1. now rewrite E1.
    Qed.

    (** With diffusion the relations at the ends hold as well. *)
    Hypothesis Cd : chain_diffuses (C k).

    Lemma transport_interior a z L Nd : chain_transport (C k) dt a z L Nd -> interior L Nd.
    Proof.
      intros [H1 H2]. split.
      - intros j Hj. specialize (H1 j ltac:(cbn; fold n; lia)). unfold piece_balance in *.
        cbn [ch_n superlink_chain] in *. fold n in H1. unfold right_of in *.
        destruct (Nat.leb_spec j n); [|lia]. fold n. destruct (Nat.leb_spec j n); [|lia].
        destruct j; [lia|]. exact H1.
      - intros j Hj Hj'. apply H2. cbn; fold n; lia.
    Qed.

    Lemma ends_exact cj L Nd : chain_transport (C k) dt (cj (n_Ju N k)) (cj (n_Jd N k)) L Nd ->
      q_end_u N u cj k = L 0%nat /\ q_end_d N u cj k = L (S n) /\
      q_node_1 N u cj k = Nd 0%nat /\ q_node_N N u cj k = Nd n.
    Proof.
      intros HT. pose proof (transport_interior _ _ _ _ HT) as HI. pose proof n_pos as Hn.
      apply chain_rows in HT; auto. destruct HT as [R1 R2].
      pose proof (R1 0%nat ltac:(lia)) as P0. pose proof (R1 (S n) ltac:(cbn; fold n; lia)) as P1.
      pose proof (R2 0%nat ltac:(lia)) as M0. pose proof (R2 n ltac:(cbn; fold n; lia)) as M1.
      unfold piece_row in P0, P1. unfold node_row in M0, M1. cbn [ch_n superlink_chain] in P0, P1. fold n in P0, P1.
      destruct (Nat.leb_spec 0 n); [|lia]. destruct (Nat.leb_spec (S n) n); [lia|].
      pose proof (forward_relation L Nd HI (n - 1)%nat ltac:(lia)) as EF. pose proof (backward_relation L Nd HI 0%nat ltac:(lia)) as EB.
      replace (S (n - 1)) with n in EF by lia. rewrite Nat.add_0_r in EB.
      destruct (strict_signs (C k) Cw Cd) as [S1 S2].
      destruct (S1 0%nat ltac:(lia)) as [_ Sc]. destruct (S1 (S n) ltac:(cbn; fold n; lia)) as [Sa _].
      destruct (S2 0%nat ltac:(lia)) as [Sk _]. destruct (S2 n ltac:(cbn; fold n; lia)) as [_ Sm].
      destruct (bwd_bounds 0%nat ltac:(lia)) as (B1 & B2 & B3 & _). rewrite Nat.add_0_r in B1, B2, B3.
      pose proof (fwd_bounds (n - 1)%nat ltac:(lia)) as FB.
      pose proof (end_exact _ _ _ _ _ _ _ _ _ _ _ _ _ _ _ _ _ _ _ _ _ _
        (chain_node_signs (C k) dt Hdt Cw Cc 0%nat ltac:(lia)) (chain_node_signs (C k) dt Hdt Cw Cc n ltac:(cbn; fold n; lia))
        Sk Sm (conj B1 (conj B2 B3)) FB
        (piece_signs (C k) dt Hdt Cw Cc 0%nat ltac:(lia)) (piece_signs (C k) dt Hdt Cw Cc (S n) ltac:(cbn; fold n; lia)) Sc Sa
        _ _ _ _ _ _ _ _ P0 M0 EB EF M1 P1) as (G1 & G2 & G3 & G4).
      unfold q_node_1, q_node_N, q_end_u, q_end_d. cbv zeta.
      destruct setup_parts as (_ & _ & _ & _ & -> & _). fold n I1. unfold q_ends.
      replace (I1 + n - 1 + 1)%nat with (I1 + n)%nat by lia. replace (I1 + n - 1)%nat with (I1 + (n - 1))%nat by lia.
      pose proof (node_coefs k n Hk ltac:(fold n; lia)) as ND2. pose proof (node_coefs k 0%nat Hk ltac:(lia)) as ND1.
      fold I1 in ND1, ND2. rewrite Nat.add_0_r in ND1. rewrite ND1, ND2. cbn [o_ka o_la o_mu o_et].
      unfold q_end_coef. destruct (end_coefs k) as [(A1 & A2 & A3 & A4) (D1 & D2 & D3 & D4)]. fold n in D1, D2, D3, D4.
      rewrite A1, A2, A3, A4, D1, D2, D3, D4.
      rewrite !(fun x => safe_divide_nz x (nka (C k) 0)) by lra. rewrite !(fun x => safe_divide_nz x (nmu (C k) n)) by lra.
      rewrite !(fun x => safe_divide_nz x (pc (C k) 0)) by lra. rewrite !(fun x => safe_divide_nz x (pa (C k) (S n))) by lra.
      split; [symmetry; exact G1|]. split; [symmetry; exact G2|].
      split; [rewrite <- G1; symmetry; exact G3|rewrite <- G2; symmetry; exact G4].
    Qed.

    (** Interior of the superlink: the loop of [numba_solve_internals]. *)
    Lemma internals_exact a z L Nd cI ci cI' ci' :
      chain_transport (C k) dt a z L Nd ->
      (forall j, (j <= n)%nat -> p_min P <= Nd j <= p_max P) ->
      (forall j, (j < n)%nat -> p_min P <= L (S j) <= p_max P) ->
      q_internals_superlink P (su_f u) (su_b u) (Nd 0%nat) (Nd n) i1 I1 n (cI, ci) = (cI', ci') ->
      (forall j, (j <= n)%nat -> cI' (I1 + j)%nat = Nd j) /\ (forall j, (j < n)%nat -> ci' (i1 + j)%nat = L (S j)).
    Proof.
      intros HT BN BL. pose proof (transport_interior _ _ _ _ HT) as HI. pose proof n_pos as Hn.
      destruct (strict_signs (C k) Cw Cd) as [S1 _].
      unfold q_internals_superlink.
      set (cI0 := upd (upd cI I1 (Nd 0%nat)) (I1 + n)%nat (Nd n)).
      set (Inv := fun m (s : arr * arr) => (m <= n - 1)%nat ->
        (forall j, (n - m <= j <= n)%nat -> fst s (I1 + j)%nat = Nd j) /\ fst s I1 = Nd 0%nat /\
        (forall j, (n - m <= j < n)%nat -> snd s (i1 + j)%nat = L (S j))).
      match goal with |- context [for_n ?m ?f ?x] => assert (HV : Inv (n - 1)%nat (for_n m f x)) end.
      { apply (for_n_inv Inv).
        - intros _. cbn [fst snd]. split; [|split].
          + intros j Hj. assert (j = n) as -> by lia. unfold cI0. now rewrite upd_eq.
          + unfold cI0. rewrite upd_neq, upd_eq by lia. reflexivity.
          + intros j Hj. lia.
        - intros m [cIm cim] Hm IH Hm'. specialize (IH ltac:(lia)). cbn [fst snd] in IH. destruct IH as (V1 & V2 & V3).
          unfold q_internal_step.
          set (j0 := (n - S m)%nat).
          replace (i1 + n - 1 - m)%nat with (i1 + j0)%nat by (unfold j0; lia).
          replace (I1 + n - 1 - m)%nat with (I1 + j0)%nat by (unfold j0; lia).
          replace (I1 + j0 + 1)%nat with (I1 + S j0)%nat by lia.
          rewrite (V1 (S j0)) by (unfold j0; lia).
          rewrite !upd_eq. cbn [fst snd].
          assert (E1 : q_c_i_f (Nd (S j0)) (Nd 0%nat) (fU (su_f u) (I1 + j0)%nat) (fV (su_f u) (I1 + j0)%nat) (fW (su_f u) (I1 + j0)%nat) = L (S j0)).
          { unfold q_c_i_f. symmetry. apply forward_relation; auto. unfold j0; lia. }
          assert (E2 : q_c_I_b (L (S j0)) (Nd n) (bX (su_b u) (I1 + j0)%nat) (bY (su_b u) (I1 + j0)%nat) (bZ (su_b u) (I1 + j0)%nat) = Nd j0).
          { unfold q_c_I_b. destruct (bwd_bounds j0 ltac:(unfold j0; lia)) as (_ & _ & _ & BP).
            destruct (S1 (S j0) ltac:(cbn; fold n; unfold j0; lia)) as [Sa _]. specialize (BP Sa).
            rewrite safe_divide_nz by lra.
            rewrite (backward_relation L Nd HI j0) by (unfold j0; lia). field. lra. }
          rewrite E1, E2. rewrite !limit_id by (first [apply BN|apply BL]; unfold j0; lia).
          split; [|split].
          + intros j Hj. destruct (Nat.eq_dec j j0) as [->|]; [now rewrite upd_eq|].
            rewrite !upd_neq by lia. apply V1. unfold j0 in *. lia.
          + rewrite !upd_neq by (unfold j0; lia). exact V2.
          + intros j Hj. destruct (Nat.eq_dec j j0) as [->|]; [now rewrite upd_eq|].
            rewrite !upd_neq by lia. apply V3. unfold j0 in *. lia. }
      destruct (for_n _ _ _) as [cIf cif] eqn:EF.
      specialize (HV ltac:(lia)). cbn [fst snd] in HV. destruct HV as (V1 & V2 & V3).
      injection 1 as <- <-. split; intros j Hj.
      - destruct j as [|j]; [now rewrite Nat.add_0_r|]. apply V1; lia.
      - destruct j as [|j].
        + rewrite Nat.add_0_r, upd_eq. unfold q_c_i_b. rewrite V2.
          rewrite (backward_relation L Nd HI 0%nat) by lia. now rewrite Nat.add_0_r.
        + rewrite upd_neq by lia. apply V3; lia.
    Qed.
  End Super.

  (** The loop writes only the superlink's own entries. *)
  Lemma internals_frame f b c1 cN i1 I1 n cI ci cI' ci' :
    (1 <= n)%nat -> q_internals_superlink P f b c1 cN i1 I1 n (cI, ci) = (cI', ci') ->
    (forall I, (I < I1 \/ I1 + n < I)%nat -> cI' I = cI I) /\ (forall i, (i < i1 \/ i1 + n <= i)%nat -> ci' i = ci i).
  Proof.
    intros Hn. unfold q_internals_superlink.
    set (Inv := fun m (s : arr * arr) => (m <= n - 1)%nat ->
      (forall I, (I < I1 \/ I1 + n < I)%nat -> fst s I = cI I) /\ (forall i, (i < i1 \/ i1 + n <= i)%nat -> snd s i = ci i)).
    match goal with |- context [for_n ?m ?f ?x] => assert (HV : Inv (n - 1)%nat (for_n m f x)) end.
    { apply (for_n_inv Inv).
      - intros _. cbn [fst snd]. split; intros; auto. rewrite !upd_neq by lia. reflexivity.
      - intros m [cIm cim] Hm IH Hm'. specialize (IH ltac:(lia)). cbn [fst snd] in IH. destruct IH as (V1 & V2).
        unfold q_internal_step. cbn [fst snd]. split; intros; rewrite !upd_neq by lia; auto. }
    destruct (for_n _ _ _) as [cIf cif]. specialize (HV ltac:(lia)). cbn [fst snd] in HV. destruct HV as (V1 & V2).
    injection 1 as <- <-. split; auto. intros i Hi. rewrite upd_neq by lia. auto.
  Qed.

  (** The whole step: the reported concentrations are the solution of every chain between the reported superjunction
      concentrations, provided that solution respects the limits. *)
  Lemma finish_exact sol :
    (forall j, (j < n_M N)%nat -> p_min P <= sol j <= p_max P) ->
    (forall k, (k < n_K N)%nat -> chain_wet (C k) /\ chain_conserves (C k) dt /\ chain_diffuses (C k)) ->
    (forall k L Nd, (k < n_K N)%nat -> chain_transport (C k) dt (sol (n_Ju N k)) (sol (n_Jd N k)) L Nd ->
       (forall j, (j <= n_nk N k)%nat -> p_min P <= Nd j <= p_max P) /\
       (forall j, (j <= S (n_nk N k))%nat -> p_min P <= L j <= p_max P)) ->
    let c' := q_finish N P u c sol in
    (forall j, (j < n_M N)%nat -> c_j c' j = sol j) /\
    (forall k L Nd, (k < n_K N)%nat -> chain_transport (C k) dt (sol (n_Ju N k)) (sol (n_Jd N k)) L Nd ->
       (forall j, (j <= S (n_nk N k))%nat -> pieces_of N c' k j = L j) /\
       (forall j, (j <= n_nk N k)%nat -> junctions_of N c' k j = Nd j)).
  Proof.
    intros HS HC HB. cbv zeta. unfold q_finish.
    set (cj := fun j => q_clip P (sol j)).
    assert (Ej : forall j, (j < n_M N)%nat -> cj j = sol j) by (intros; unfold cj; apply clip_id; auto).
    assert (HT : forall k L Nd, (k < n_K N)%nat -> chain_transport (C k) dt (sol (n_Ju N k)) (sol (n_Jd N k)) L Nd ->
      chain_transport (C k) dt (cj (n_Ju N k)) (cj (n_Jd N k)) L Nd).
    { intros k L Nd Hk. destruct (wf_ends N HW k Hk). now rewrite !Ej. }
    destruct (q_solve_internals _ _ _ _ _ _ _) as [cI ci] eqn:ES.
    cbn [c_j]. split; auto.
    intros k L Nd Hk H0. destruct (HB k L Nd Hk H0) as [BN BL]. pose proof (HT k L Nd Hk H0) as H1.
    destruct (HC k Hk) as (W1 & W2 & W3).
    destruct (ends_exact k Hk W1 W2 W3 cj L Nd H1) as (G1 & G2 & G3 & G4).
    destruct (wf_layout N HW) as [Hn Hl]. pose proof (Hn k Hk) as Hnk.
    assert (IN : (forall j, (j <= n_nk N k)%nat -> cI (n_I1 N k + j)%nat = Nd j) /\
                 (forall j, (j < n_nk N k)%nat -> ci (n_i1 N k + j)%nat = L (S j))).
    { unfold q_solve_internals in ES.
      pose (Inv := fun m (s : arr * arr) => (m <= n_K N)%nat -> (k < m)%nat ->
        (forall j, (j <= n_nk N k)%nat -> fst s (n_I1 N k + j)%nat = Nd j) /\
        (forall j, (j < n_nk N k)%nat -> snd s (n_i1 N k + j)%nat = L (S j))).
      match type of ES with for_n ?m ?f ?x = _ => assert (HV : Inv (n_K N) (for_n m f x)) end.
      { apply (for_n_inv Inv); [intros _ Hlt; lia|].
        intros m s Hm IH _ Hkm.
        destruct s as [cIm cim]. destruct (q_internals_superlink P _ _ _ _ (n_i1 N m) (n_I1 N m) (n_nk N m) (cIm, cim)) as [cI2 ci2] eqn:E2.
        cbn [fst snd]. destruct (Nat.eq_dec k m) as [<-|].
        - rewrite G3, G4 in E2.
          rewrite (clip_id P (Nd 0%nat)) in E2 by (apply BN; lia). rewrite (clip_id P (Nd (n_nk N k))) in E2 by (apply BN; lia).
          apply (internals_exact k Hk W1 W2 W3 _ _ L Nd cIm cim cI2 ci2 H1); auto; intros; apply BL; lia.
        - destruct (IH ltac:(lia) ltac:(lia)) as [V1 V2]. cbn [fst snd] in V1, V2.
          destruct (internals_frame _ _ _ _ _ _ _ _ _ _ _ (Hn m Hm) E2) as [F1 F2].
          destruct (Hl k m ltac:(lia) Hm) as [L1 L2].
          split; intros j Hj; [rewrite F1 by lia|rewrite F2 by lia]; auto. }
      rewrite ES in HV. apply HV; auto. }
    destruct IN as [V1 V2]. split; intros j Hj.
    - unfold pieces_of. cbn [c_u c_i c_d]. destruct j as [|j].
      + rewrite along_0, G1. apply clip_id. apply BL; lia.
      + destruct (Nat.eq_dec j (n_nk N k)) as [->|].
        * rewrite along_end, G2. apply clip_id. apply BL; lia.
        * rewrite along_mid by lia. rewrite V2 by lia. apply limit_id. apply BL; lia.
    - unfold junctions_of. cbn [c_I]. rewrite V1 by auto. apply limit_id. apply BN; lia.
  Qed.
End Step.
