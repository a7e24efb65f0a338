(** Bounds on the solutions of the transport equations. *)
From Verif Require Import Prelude M_Coeffs M_Recurrence M_Assembly M_Step M_Quality S_Superlink S_Network S_Step S_Quality
  L_Forward L_Assembly L_Sweep L_Quality L_QualityStep L_QualityNet.

(** A balance [s (c - c') + r c = E] seen from a bound B ([sg] = 1: upper, [sg] = -1: lower). *)
Lemma exchange sg B s r c cp E :
  s * (c - cp) + r * c = E -> 0 <= s -> sg * (cp - B) <= 0 -> 0 <= r * (sg * B) ->
  (s + r) * (sg * (c - B)) <= sg * E.
Proof.
  intros <- Hs Hp Hr. assert (0 <= s * - (sg * (cp - B))) by (apply Rmult_le_pos; lra). lra.
Qed.

Section Chain.
  Variables (C : transport_chain) (dt : R).
  Hypothesis Hdt : 0 < dt.
  Hypothesis Hw : chain_wet C.
  Hypothesis Hc : chain_conserves C dt.
  Variables (a z : R) (L Nd : arr).
  Hypothesis HT : chain_transport C dt a z L Nd.

  Lemma piece_exchange j : (j <= ch_n C + 1)%nat ->
    ch_dx C j * ch_A C j / dt * (L j - ch_cp C j) + ch_K C j * (ch_dx C j * ch_A C j) * L j
    = - pa C j * (left_of a Nd j - L j) + - pc C j * (right_of (ch_n C) z Nd j - L j).
  Proof.
    intros Hj. destruct HT as [H1 _]. specialize (H1 j Hj). apply (piece_balance_row C dt Hdt Hw) in H1; auto.
    pose proof (piece_sum C dt Hdt Hw Hc j Hj) as ES. unfold piece_row in H1.
    fold (left_of a Nd j) in H1. fold (right_of (ch_n C) z Nd j) in H1.
    assert (EG : pg C dt j = ch_dx C j * ch_A C j / dt * ch_cp C j) by (unfold pg, q_gamma; field; lra).
    assert (G : (pa C j + pb C dt j + pc C j) * L j = (ch_dx C j * ch_A C j / dt + ch_K C j * (ch_dx C j * ch_A C j)) * L j)
      by (now rewrite ES).
    lra.
  Qed.
  Lemma node_exchange j : (j <= ch_n C)%nat ->
    ch_AS C j * ch_h C j / dt * (Nd j - ch_cIp C j) + ch_Q0 C j * (Nd j - ch_c0 C j) + ch_KI C j * (ch_AS C j * ch_h C j) * Nd j
    = - nka C j * (L j - Nd j) + - nmu C j * (L (j + 1)%nat - Nd j).
  Proof.
    intros Hj. destruct HT as [_ H1]. specialize (H1 j Hj). apply (junction_balance_row C dt Hdt Hw) in H1; auto.
    pose proof (node_sum C dt Hdt Hw Hc j Hj) as ES. unfold node_row in H1. replace (S j) with (j + 1)%nat in H1 by lia.
    assert (EG : net C dt j = ch_c0 C j * ch_Q0 C j + ch_AS C j * ch_h C j / dt * ch_cIp C j) by (unfold net; field; lra).
    assert (G : (nka C j + nla C dt j + nmu C j) * Nd j
                = (ch_Q0 C j + ch_AS C j * ch_h C j / dt + ch_KI C j * (ch_AS C j * ch_h C j)) * Nd j) by (now rewrite ES).
    lra.
  Qed.
  Variables (sg B : R).
  Hypothesis Hp : forall j, (j <= ch_n C + 1)%nat -> sg * (ch_cp C j - B) <= 0 /\ 0 <= ch_K C j * (sg * B).
  Hypothesis Hn : forall j, (j <= ch_n C)%nat ->
    sg * (ch_cIp C j - B) <= 0 /\ sg * (ch_c0 C j - B) <= 0 /\ 0 <= ch_KI C j * (sg * B).

  Lemma piece_exchange_bound j : (j <= ch_n C + 1)%nat ->
    let s := ch_dx C j * ch_A C j / dt + ch_K C j * (ch_dx C j * ch_A C j) in
    0 < s /\ 0 <= - pa C j /\ 0 <= - pc C j /\
    s * (sg * (L j - B)) <= - pa C j * (sg * (left_of a Nd j - B) - sg * (L j - B))
                            + - pc C j * (sg * (right_of (ch_n C) z Nd j - B) - sg * (L j - B)).
  Proof.
    intros Hj. cbv zeta. destruct (piece_signs C dt Hdt Hw Hc j Hj) as (S1 & S2 & _).
    destruct Hw as (H1 & _ & _). destruct (H1 j Hj) as (Hdx & HA & _ & HK). destruct (Hp j Hj) as [P1 P2].
    assert (V : 0 < ch_dx C j * ch_A C j) by now apply Rmult_lt_0_compat.
    assert (0 < ch_dx C j * ch_A C j / dt) by now apply quot_pos.
    assert (0 <= ch_K C j * (ch_dx C j * ch_A C j)) by (apply Rmult_le_pos; lra).
    split; [lra|]. split; [lra|]. split; [lra|].
    eapply Rle_trans; [apply (exchange _ _ _ _ _ _ _ (piece_exchange j Hj)); auto; try lra|].
    - replace (ch_K C j * (ch_dx C j * ch_A C j) * (sg * B)) with (ch_dx C j * ch_A C j * (ch_K C j * (sg * B))) by ring.
      apply Rmult_le_pos; lra.
    - right. ring.
  Qed.
  Lemma node_exchange_bound j : (j <= ch_n C)%nat ->
    let s := ch_AS C j * ch_h C j / dt + ch_Q0 C j + ch_KI C j * (ch_AS C j * ch_h C j) in
    0 <= s /\ 0 <= - nka C j /\ 0 <= - nmu C j /\ 0 < s + - nka C j + - nmu C j /\
    s * (sg * (Nd j - B)) <= - nka C j * (sg * (L j - B) - sg * (Nd j - B))
                             + - nmu C j * (sg * (L (j + 1)%nat - B) - sg * (Nd j - B)).
  Proof.
    intros Hj. cbv zeta. destruct (chain_node_signs C dt Hdt Hw Hc j Hj) as (S1 & S2 & S3 & S4).
    pose proof (node_sum C dt Hdt Hw Hc j Hj) as ES.
    destruct Hw as (_ & H2 & _). destruct (H2 j Hj) as (AS & Hh & HK & HQ). destruct (Hn j Hj) as (N1 & N2 & N3).
    assert (V : 0 <= ch_AS C j * ch_h C j) by (apply Rmult_le_pos; lra).
    assert (0 <= ch_AS C j * ch_h C j / dt) by (apply quot_nonneg; auto).
    assert (0 <= ch_KI C j * (ch_AS C j * ch_h C j)) by (apply Rmult_le_pos; lra).
    split; [lra|]. split; [lra|]. split; [lra|]. split; [lra|].
    pose proof (node_exchange j Hj) as EN.
    assert (0 <= ch_AS C j * ch_h C j / dt * - (sg * (ch_cIp C j - B))) by (apply Rmult_le_pos; lra).
    assert (0 <= ch_Q0 C j * - (sg * (ch_c0 C j - B))) by (apply Rmult_le_pos; lra).
    assert (0 <= ch_KI C j * (ch_AS C j * ch_h C j) * (sg * B)).
    { replace (ch_KI C j * (ch_AS C j * ch_h C j) * (sg * B)) with (ch_AS C j * ch_h C j * (ch_KI C j * (sg * B))) by ring.
      apply Rmult_le_pos; lra. }
    assert (E : sg * (- nka C j * (L j - Nd j) + - nmu C j * (L (j + 1)%nat - Nd j))
                = - nka C j * (sg * (L j - B) - sg * (Nd j - B)) + - nmu C j * (sg * (L (j + 1)%nat - B) - sg * (Nd j - B))) by ring.
    rewrite <- E, <- EN. lra.
  Qed.

  (** Bound along one chain between bounded ends. *)
  Lemma chain_max : sg * (a - B) <= 0 -> sg * (z - B) <= 0 ->
    (forall j, (j <= ch_n C + 1)%nat -> sg * (L j - B) <= 0) /\ (forall j, (j <= ch_n C)%nat -> sg * (Nd j - B) <= 0).
  Proof.
    intros Ha Hz.
    set (e := mkCtl 0 (fun _ => O) (fun _ => O)).
    destruct (max_principle 2 1 (fun _ => 0%nat) (fun _ => 1%nat) (fun _ => ch_n C) (fun _ => true) e e e
      (fun j => match j with O => sg * (a - B) | _ => sg * (z - B) end)
      (fun _ j => sg * (L j - B)) (fun _ j => sg * (Nd j - B))
      (fun _ j => ch_dx C j * ch_A C j / dt + ch_K C j * (ch_dx C j * ch_A C j)) (fun _ j => - pa C j) (fun _ j => - pc C j)
      (fun _ j => ch_AS C j * ch_h C j / dt + ch_Q0 C j + ch_KI C j * (ch_AS C j * ch_h C j))
      (fun _ j => - nka C j) (fun _ j => - nmu C j)
      zeros zeros zeros zeros zeros zeros zeros zeros zeros) as (_ & R1 & R2).
    - intros k j Hk Hj. destruct (piece_exchange_bound j Hj) as (A1 & A2 & A3 & A4).
      split; [auto|]. split; [auto|]. split; [auto|]. eapply Rle_trans; [exact A4|]. right.
      unfold right_of. destruct j; cbn [left_of]; destruct (Nat.leb _ _); reflexivity.
    - intros k j Hk Hj. apply (node_exchange_bound j Hj).
    - discriminate.
    - intros [|j] Hj _; auto.
    - repeat split; simpl in *; lia.
    - unfold zeros. repeat split; intros; lra.
    - split; intros j Hj; [apply (R1 0%nat)|apply (R2 0%nat)]; auto.
  Qed.
End Chain.

(** The weights of a superjunction's neighbours. *)
Definition c_f (Q : arr) (m : nat) : R := Q m * q_omega_ge (Q m).
Definition c_b (Q : arr) (m : nat) : R := - Q m * (1 - q_omega_ge (Q m)).
Lemma c_f_pos Q m : 0 <= c_f Q m.
Proof. unfold c_f. destruct (omega_ge_case (Q m)) as [[? ->]|[? ->]]; lra. Qed.
Lemma c_b_pos Q m : 0 <= c_b Q m.
Proof. unfold c_b. destruct (omega_ge_case (Q m)) as [[? ->]|[? ->]]; lra. Qed.

Lemma controls_exchange C Q v j :
  controls_net C Q v j = ctl_exchange v C (c_f Q) (c_b Q) j + controls_flow C Q j * v j.
Proof.
  unfold controls_net, ctl_exchange, controls_flow. rewrite Rmult_minus_distr_r, <- !sum_if_scal_r.
  set (A := sum_if _ (fun m => control_flux _ _ _) _). set (A' := sum_if (fun m => Nat.eqb (t_Ju C m) j) (fun m => control_flux _ _ _) _).
  assert (E1 : A = sum_if (fun m => Nat.eqb (t_Jd C m) j) (fun m => c_f Q m * (v (t_Ju C m) - v j)) (t_n C)
                   + sum_if (fun m => Nat.eqb (t_Jd C m) j) (fun k => Q k * v j) (t_n C)).
  { rewrite <- sum_if_plus. apply sum_n_ext. intros m Hm. destruct (Nat.eqb_spec (t_Jd C m) j) as [<-|]; auto.
    rewrite control_flux_ge. unfold c_f. ring. }
  assert (E2 : A' = sum_if (fun m => Nat.eqb (t_Ju C m) j) (fun k => Q k * v j) (t_n C)
                   - sum_if (fun m => Nat.eqb (t_Ju C m) j) (fun m => c_b Q m * (v (t_Jd C m) - v j)) (t_n C)).
  { unfold sum_if. rewrite <- sum_n_minus. apply sum_n_ext. intros m Hm. destruct (Nat.eqb_spec (t_Ju C m) j) as [<-|]; [|lra].
    rewrite control_flux_ge. unfold c_b. ring. }
  rewrite E1, E2. lra.
Qed.

Lemma ctl_exchange_side v C f b j sg B :
  sg * ctl_exchange v C f b j = ctl_exchange (fun i => sg * (v i - B)) C f b j.
Proof.
  unfold ctl_exchange. rewrite Rmult_plus_distr_l. unfold sum_if. rewrite <- !sum_n_scal.
  f_equal; apply sum_n_ext; intros m Hm; destruct (Nat.eqb _ _); ring.
Qed.

Section Net.
  Variables (N : network) (P : wq_par) (CO CW CP : wq_ctl) (F : wq_flow) (c : wq_state).
  Variables (c_bc c_0j Q_0j c_0I Q_0I : arr) (dt : R).
  Hypothesis Hdt : 0 < dt.
  Hypothesis HE : q_ends_in N CO CW CP.
  Hypothesis HWet : network_wet N P F Q_0j Q_0I.
  Hypothesis HCon : network_conserves N P CO CW CP F Q_0j Q_0I dt.

  Lemma w_u_pos k : (k < n_K N)%nat -> 0 <= w_u N P F k.
  Proof.
    intros Hk. destruct (nw_chain _ _ _ _ _ HWet k Hk c c_0I) as [(H1 & _) _].
    destruct (H1 0%nat ltac:(lia)) as (Hdx & HA & HD & _). unfold superlink_chain in *. cbn in Hdx, HA, HD.
    unfold w_u, d_u. assert (0 <= 2 * p_Du P k * f_Au F k / n_dxu N k) by (apply quot_nonneg; auto; apply Rmult_le_pos; lra).
    destruct (omega_ge_case (f_Quu F k)) as [[? ->]|[? ->]]; lra.
  Qed.
  Lemma w_d_pos k : (k < n_K N)%nat -> 0 <= w_d N P F k.
  Proof.
    intros Hk. destruct (nw_chain _ _ _ _ _ HWet k Hk c c_0I) as [(H1 & _) _].
    destruct (H1 (S (n_nk N k)) ltac:(simpl; lia)) as (Hdx & HA & HD & _). unfold superlink_chain in *.
    cbn [ch_dx ch_A ch_D] in Hdx, HA, HD. rewrite along_end in Hdx, HA, HD.
    unfold w_d, d_d. assert (0 <= 2 * p_Dd P k * f_Ad F k / n_dxd N k) by (apply quot_nonneg; auto; apply Rmult_le_pos; lra).
    destruct (omega_ge_case (f_Qdd F k)) as [[? ->]|[? ->]]; lra.
  Qed.
  Lemma end_lengths k : (k < n_K N)%nat -> 0 < n_dxu N k /\ 0 < n_dxd N k.
  Proof.
    intros Hk. destruct (nw_chain _ _ _ _ _ HWet k Hk c c_0I) as [(H1 & _) _]. split.
    - destruct (H1 0%nat ltac:(lia)) as (Hdx & _). exact Hdx.
    - destruct (H1 (S (n_nk N k)) ltac:(simpl; lia)) as (Hdx & _). unfold superlink_chain in *.
      cbn [ch_dx] in Hdx. now rewrite along_end in Hdx.
  Qed.

  Lemma superjunction_exchange cp cj cu cd j : (j < n_M N)%nat -> p_bc P j = false ->
    superjunction_balance N P CO CW CP F cp c_0j Q_0j dt cj cu cd j <->
    f_V F j / dt * (cj j - cp j) + Q_0j j * (cj j - c_0j j) + p_Kj P j * f_V F j * cj j
    = sum_if (fun k => Nat.eqb (n_Jd N k) j) (fun k => w_d N P F k * (cd k - cj j)) (n_K N)
      + sum_if (fun k => Nat.eqb (n_Ju N k) j) (fun k => w_u N P F k * (cu k - cj j)) (n_K N)
      + ctl_exchange cj CO (c_f (f_Qo F)) (c_b (f_Qo F)) j + ctl_exchange cj CW (c_f (f_Qw F)) (c_b (f_Qw F)) j
      + ctl_exchange cj CP (c_f (f_Qp F)) (c_b (f_Qp F)) j.
  Proof.
    intros Hj Hb. pose proof (nc_junction _ _ _ _ _ _ _ _ _ HCon j Hj Hb) as HV. unfold superjunction_conserves in HV.
    unfold superjunction_balance, storage. rewrite !controls_exchange.
    assert (ED : sum_if (fun k => Nat.eqb (n_Jd N k) j)
        (fun k => face (f_Qdd F k) (cd k) (cj (n_Jd N k)) (p_Dd P k) (f_Ad F k) (n_dxd N k)) (n_K N)
      = sum_if (fun k => Nat.eqb (n_Jd N k) j) (fun k => w_d N P F k * (cd k - cj j)) (n_K N)
        + sum_if (fun k => Nat.eqb (n_Jd N k) j) (f_Qdd F) (n_K N) * cj j).
    { rewrite <- sum_if_scal_r, <- sum_if_plus. apply sum_n_ext. intros k Hk.
      destruct (Nat.eqb_spec (n_Jd N k) j) as [<-|]; auto. destruct (end_lengths k Hk).
      rewrite face_omega_ge by lra. unfold w_d, d_d. field. lra. }
    assert (EU : sum_if (fun k => Nat.eqb (n_Ju N k) j)
        (fun k => face (f_Quu F k) (cj (n_Ju N k)) (cu k) (p_Du P k) (f_Au F k) (n_dxu N k)) (n_K N)
      = sum_if (fun k => Nat.eqb (n_Ju N k) j) (f_Quu F) (n_K N) * cj j
        - sum_if (fun k => Nat.eqb (n_Ju N k) j) (fun k => w_u N P F k * (cu k - cj j)) (n_K N)).
    { rewrite <- sum_if_scal_r. unfold sum_if. rewrite <- sum_n_minus. apply sum_n_ext. intros k Hk.
      destruct (Nat.eqb_spec (n_Ju N k) j) as [<-|]; [|lra]. destruct (end_lengths k Hk).
      rewrite face_omega_ge by lra. unfold w_u, d_u. field. lra. }
    rewrite ED, EU.
    assert (G : (f_V F j * (cj j - cp j) + (f_V F j - f_Vp F j) * cj j) / dt
                = f_V F j / dt * (cj j - cp j) + (f_V F j - f_Vp F j) / dt * cj j) by (field; lra).
    rewrite G, HV. split; intros; lra.
  Qed.

  Section Bound.
    Variables (lo hi : R) (c' : wq_state) (sg B : R).
    Hypothesis HT : network_transport N P CO CW CP F c c_bc c_0j Q_0j c_0I Q_0I dt c'.
    Hypothesis HI : inputs_within N P lo hi c_bc c_0j c_0I.
    Hypothesis HC0 : within N lo hi c.
    Hypothesis HS : forall x, lo <= x <= hi -> sg * (x - B) <= 0.
    Hypothesis HR : 0 <= sg * B \/ no_reaction N P.

    Lemma chain_side k : (k < n_K N)%nat ->
      (forall j, (j <= n_nk N k + 1)%nat -> sg * (ch_cp (superlink_chain N P F c c_0I Q_0I k) j - B) <= 0 /\
                                            0 <= ch_K (superlink_chain N P F c c_0I Q_0I k) j * (sg * B)) /\
      (forall j, (j <= n_nk N k)%nat ->
        sg * (ch_cIp (superlink_chain N P F c c_0I Q_0I k) j - B) <= 0 /\
        sg * (ch_c0 (superlink_chain N P F c c_0I Q_0I k) j - B) <= 0 /\
        0 <= ch_KI (superlink_chain N P F c c_0I Q_0I k) j * (sg * B)).
    Proof.
      intros Hk. destruct (nw_chain _ _ _ _ _ HWet k Hk c c_0I) as [(W1 & W2 & _) _].
      split; intros j Hj.
      - destruct (W1 j Hj) as (_ & _ & _ & WK). split.
        + apply HS. unfold superlink_chain. cbn [ch_cp]. destruct j as [|j]; [rewrite along_0; now apply (wi_u _ _ _ _ HC0)|].
          destruct (Nat.eq_dec j (n_nk N k)) as [->|]; [rewrite along_end; now apply (wi_d _ _ _ _ HC0)|].
          rewrite along_mid by lia. apply (wi_i _ _ _ _ HC0); auto; lia.
        + destruct HR as [HB|HB]; [apply Rmult_le_pos; auto|].
          replace (ch_K (superlink_chain N P F c c_0I Q_0I k) j) with 0; [lra|].
          unfold superlink_chain. cbn [ch_K]. destruct j as [|j]; [reflexivity|].
          destruct (Nat.eq_dec j (n_nk N k)) as [->|]; [now rewrite along_end|].
          rewrite along_mid by lia. symmetry. apply (nr_i _ _ HB); auto; lia.
      - destruct (W2 j Hj) as (_ & _ & WK & _). split; [|split].
        + apply HS. apply (wi_I _ _ _ _ HC0); auto.
        + apply HS. apply (in_I _ _ _ _ _ _ _ HI); auto.
        + destruct HR as [HB|HB]; [apply Rmult_le_pos; auto|].
          replace (ch_KI (superlink_chain N P F c c_0I Q_0I k) j) with 0; [lra|].
          symmetry. apply (nr_I _ _ HB); auto.
    Qed.

    Lemma network_side :
      (forall j, (j < n_M N)%nat -> sg * (c_j c' j - B) <= 0) /\
      (forall k j, (k < n_K N)%nat -> (j <= n_nk N k + 1)%nat -> sg * (pieces_of N c' k j - B) <= 0) /\
      (forall k j, (k < n_K N)%nat -> (j <= n_nk N k)%nat -> sg * (junctions_of N c' k j - B) <= 0).
    Proof.
      destruct HT as [TJ TC].
      pose (C := fun k => superlink_chain N P F c c_0I Q_0I k).
      refine (max_principle (n_M N) (n_K N) (n_Ju N) (n_Jd N) (n_nk N) (p_bc P) CO CW CP
        (fun j => sg * (c_j c' j - B)) (fun k j => sg * (pieces_of N c' k j - B)) (fun k j => sg * (junctions_of N c' k j - B))
        (fun k j => ch_dx (C k) j * ch_A (C k) j / dt + ch_K (C k) j * (ch_dx (C k) j * ch_A (C k) j))
        (fun k j => - pa (C k) j) (fun k j => - pc (C k) j)
        (fun k j => ch_AS (C k) j * ch_h (C k) j / dt + ch_Q0 (C k) j + ch_KI (C k) j * (ch_AS (C k) j * ch_h (C k) j))
        (fun k j => - nka (C k) j) (fun k j => - nmu (C k) j)
        (fun j => f_V F j / dt + Q_0j j + p_Kj P j * f_V F j) (w_u N P F) (w_d N P F)
        (c_f (f_Qo F)) (c_b (f_Qo F)) (c_f (f_Qw F)) (c_b (f_Qw F)) (c_f (f_Qp F)) (c_b (f_Qp F)) _ _ _ _ _ _).
      - intros k j Hk Hj. destruct (nw_chain _ _ _ _ _ HWet k Hk c c_0I) as [Cw _].
        pose proof (nc_chain _ _ _ _ _ _ _ _ _ HCon k Hk c c_0I) as Cc. destruct (chain_side k Hk) as [S1 S2].
        destruct (piece_exchange_bound (C k) dt Hdt Cw Cc _ _ _ _ (TC k Hk) sg B S1 j Hj) as (A1 & A2 & A3 & A4).
        split; [exact A1|]. split; [exact A2|]. split; [exact A3|]. eapply Rle_trans; [exact A4|]. right.
        unfold right_of. destruct j; cbn [left_of]; unfold C; cbn [superlink_chain ch_n]; destruct (Nat.leb _ _); reflexivity.
      - intros k j Hk Hj. destruct (nw_chain _ _ _ _ _ HWet k Hk c c_0I) as [Cw _].
        pose proof (nc_chain _ _ _ _ _ _ _ _ _ HCon k Hk c c_0I) as Cc. destruct (chain_side k Hk) as [S1 S2].
        exact (node_exchange_bound (C k) dt Hdt Cw Cc _ _ _ _ (TC k Hk) sg B S2 j Hj).
      - intros j Hj Hb. specialize (TJ j Hj). rewrite Hb in TJ. apply superjunction_exchange in TJ; auto.
        destruct (nw_junction _ _ _ _ _ HWet j Hj Hb) as (V & K & Q).
        assert (0 < f_V F j / dt) by now apply quot_pos.
        assert (0 <= p_Kj P j * f_V F j) by (apply Rmult_le_pos; lra).
        split; [lra|].
        rewrite <- !ctl_exchange_side. cbv beta.
        assert (0 <= f_V F j / dt * - (sg * (c_j c j - B)))
          by (apply Rmult_le_pos; [lra|]; pose proof (HS _ (wi_j _ _ _ _ HC0 j Hj)); lra).
        assert (0 <= Q_0j j * - (sg * (c_0j j - B)))
          by (apply Rmult_le_pos; [lra|]; pose proof (HS _ (in_j _ _ _ _ _ _ _ HI j Hj)); lra).
        assert (0 <= p_Kj P j * f_V F j * (sg * B)).
        { destruct HR as [HB|HB]; [apply Rmult_le_pos; auto|]. rewrite (nr_j _ _ HB) by auto. lra. }
        apply (f_equal (Rmult sg)) in TJ. rewrite !Rmult_plus_distr_l in TJ.
        assert (X1 : sg * sum_if (fun k => Nat.eqb (n_Jd N k) j) (fun k => w_d N P F k * (c_d c' k - c_j c' j)) (n_K N)
          = sum_if (fun k => Nat.eqb (n_Jd N k) j)
              (fun k => w_d N P F k * (sg * (pieces_of N c' k (n_nk N k + 1)%nat - B) - sg * (c_j c' j - B))) (n_K N)).
        { unfold sum_if. rewrite <- sum_n_scal. apply sum_n_ext. intros k Hk.
          unfold pieces_of. replace (n_nk N k + 1)%nat with (S (n_nk N k)) by lia. rewrite along_end.
          destruct (Nat.eqb _ _); ring. }
        assert (X2 : sg * sum_if (fun k => Nat.eqb (n_Ju N k) j) (fun k => w_u N P F k * (c_u c' k - c_j c' j)) (n_K N)
          = sum_if (fun k => Nat.eqb (n_Ju N k) j)
              (fun k => w_u N P F k * (sg * (pieces_of N c' k 0%nat - B) - sg * (c_j c' j - B))) (n_K N)).
        { unfold sum_if. rewrite <- sum_n_scal. apply sum_n_ext. intros k Hk.
          unfold pieces_of. rewrite along_0. destruct (Nat.eqb _ _); ring. }
        rewrite <- X1, <- X2. lra.
      - intros j Hj Hb. specialize (TJ j Hj). rewrite Hb in TJ. rewrite TJ. apply HS. now apply (in_bc _ _ _ _ _ _ _ HI).
      - exact HE.
      - split; [|split; [|split]]; intros; split; auto using c_f_pos, c_b_pos, w_u_pos, w_d_pos.
    Qed.
  End Bound.

  (** Bounds of the whole network. *)
  Lemma network_bounds lo hi c' :
    network_transport N P CO CW CP F c c_bc c_0j Q_0j c_0I Q_0I dt c' ->
    inputs_within N P lo hi c_bc c_0j c_0I -> within N lo hi c ->
    (lo <= 0 <= hi \/ no_reaction N P) -> within N lo hi c'.
  Proof.
    intros HT HI HC0 HR.
    destruct (network_side lo hi c' 1 hi HT HI HC0) as (U1 & U2 & U3); [intros; lra|destruct HR; [left; lra|auto]|].
    destruct (network_side lo hi c' (-1) lo HT HI HC0) as (L1 & L2 & L3); [intros; lra|destruct HR; [left; lra|auto]|].
    constructor; intros.
    - specialize (U1 j ltac:(auto)). specialize (L1 j ltac:(auto)). lra.
    - specialize (U3 k j ltac:(auto) ltac:(auto)). specialize (L3 k j ltac:(auto) ltac:(auto)).
      unfold junctions_of in *. lra.
    - specialize (U2 k (S j) ltac:(auto) ltac:(lia)). specialize (L2 k (S j) ltac:(auto) ltac:(lia)).
      unfold pieces_of in *. rewrite along_mid in * by auto. lra.
    - specialize (U2 k 0%nat ltac:(auto) ltac:(lia)). specialize (L2 k 0%nat ltac:(auto) ltac:(lia)).
      unfold pieces_of in *. rewrite along_0 in *. lra.
    - specialize (U2 k (S (n_nk N k)) ltac:(auto) ltac:(lia)). specialize (L2 k (S (n_nk N k)) ltac:(auto) ltac:(lia)).
      unfold pieces_of in *. rewrite along_end in *. lra.
  Qed.
End Net.
