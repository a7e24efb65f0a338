(** Transport equations of a chain as rows with coefficients of definite sign; exactness of the code's end relations;
    bounds on the solutions. *)
From Verif Require Import Prelude M_Coeffs M_Recurrence M_Assembly M_Step M_Quality S_Superlink S_Network S_Step S_Quality
  L_Forward L_Step L_Sweep.

Lemma omega_case Q : 0 < Q /\ q_omega Q = 1 \/ Q <= 0 /\ q_omega Q = 0.
Proof. unfold q_omega. destruct (Rltb_spec 0 Q); auto. right. split; auto; lra. Qed.
Lemma omega_ge_case Q : 0 <= Q /\ q_omega_ge Q = 1 \/ Q < 0 /\ q_omega_ge Q = 0.
Proof. unfold q_omega_ge. destruct (Rleb_spec 0 Q); auto. right. split; auto; lra. Qed.
Lemma face_omega Q a b D A dx : dx <> 0 ->
  face Q a b D A dx = Q * q_omega Q * a + Q * (1 - q_omega Q) * b + 2 * D * A / dx * (a - b).
Proof.
  intros Hd. unfold face, q_omega. destruct (Rltb 0 Q); field; lra.
Qed.
Lemma face_omega_ge Q a b D A dx : dx <> 0 ->
  face Q a b D A dx = Q * q_omega_ge Q * a + Q * (1 - q_omega_ge Q) * b + 2 * D * A / dx * (a - b).
Proof.
  intros Hd. unfold face, q_omega_ge. destruct (Rltb_spec 0 Q), (Rleb_spec 0 Q); try lra; try (field; lra).
  assert (Q = 0) as -> by lra. field. lra.
Qed.

Section ChainRows.
  Variables (C : transport_chain) (dt : R).

  Definition pa (j : nat) : R := q_alpha (ch_Qup C j) (q_omega (ch_Qup C j)) (ch_dx C j) (ch_D C j) (ch_A C j).
  Definition pb (j : nat) : R := q_beta dt (ch_D C j) (ch_A C j) (ch_Ap C j) (ch_dx C j) (ch_K C j) (ch_Qup C j) (ch_Qdn C j)
                                   (q_omega (ch_Qup C j)) (q_omega (ch_Qdn C j)).
  Definition pc (j : nat) : R := q_chi (ch_Qdn C j) (q_omega (ch_Qdn C j)) (ch_dx C j) (ch_D C j) (ch_A C j).
  Definition pg (j : nat) : R := q_gamma dt (ch_cp C j) (ch_A C j) (ch_dx C j).
  Definition nka (j : nat) : R := - ch_Qdn C j * q_omega (ch_Qdn C j) + - 2 * ch_D C j * ch_A C j / ch_dx C j.
  Definition nmu (j : nat) : R :=
    ch_Qup C (j + 1)%nat * (1 - q_omega (ch_Qup C (j + 1)%nat))
    + - 2 * ch_D C (j + 1)%nat * ch_A C (j + 1)%nat / ch_dx C (j + 1)%nat.
  Definition nla (j : nat) : R :=
    ch_AS C j * ch_h C j * ch_KI C j + q_omega (ch_Qup C (j + 1)%nat) * ch_Qup C (j + 1)%nat
    + - (1 - q_omega (ch_Qdn C j)) * ch_Qdn C j
    + 2 * ch_D C j * ch_A C j / ch_dx C j + 2 * ch_D C (j + 1)%nat * ch_A C (j + 1)%nat / ch_dx C (j + 1)%nat
    + ch_AS C j * (2 * ch_h C j - ch_hp C j) / dt.
  Definition net (j : nat) : R := ch_c0 C j * ch_Q0 C j + ch_AS C j * ch_h C j * ch_cIp C j / dt.

  Hypothesis Hdt : 0 < dt.
  Hypothesis Hw : chain_wet C.

  Lemma piece_balance_row a z L Nd j : (j <= ch_n C + 1)%nat ->
    piece_balance C dt a z L Nd j <-> piece_row pa pb pc pg (ch_n C) a z L Nd j.
  Proof.
    intros Hj. destruct Hw as (H1 & _ & _). destruct (H1 j Hj) as (Hdx & HA & _).
    unfold piece_balance, piece_row, storage. rewrite !face_omega by lra.
    fold (left_of a Nd j). fold (right_of (ch_n C) z Nd j).
    set (l := left_of a Nd j). set (r := right_of (ch_n C) z Nd j).
    unfold pa, pb, pc, pg, q_alpha, q_beta, q_chi, q_gamma.
    set (w1 := q_omega (ch_Qup C j)). set (w2 := q_omega (ch_Qdn C j)).
    split; intros E.
    - apply Rminus_diag_uniq. apply Rminus_diag_eq in E. rewrite <- E. field. lra.
    - apply Rminus_diag_uniq. apply Rminus_diag_eq in E. rewrite <- E. field. lra.
  Qed.

  Lemma junction_balance_row L Nd j : (j <= ch_n C)%nat ->
    junction_balance C dt L Nd j <-> node_row nka nla nmu net L Nd j.
  Proof.
    intros Hj. destruct Hw as (H1 & _ & _).
    destruct (H1 j ltac:(lia)) as (Hdx & _). destruct (H1 (j + 1)%nat ltac:(lia)) as (Hdx' & _).
    unfold junction_balance, node_row, storage. rewrite !face_omega by lra.
    unfold nka, nla, nmu, net. replace (S j) with (j + 1)%nat by lia.
    split; intros E; apply Rminus_diag_uniq; apply Rminus_diag_eq in E; rewrite <- E; field; lra.
  Qed.

  Lemma chain_rows a z L Nd :
    chain_transport C dt a z L Nd <->
    (forall j, (j <= ch_n C + 1)%nat -> piece_row pa pb pc pg (ch_n C) a z L Nd j) /\
    (forall j, (j <= ch_n C)%nat -> node_row nka nla nmu net L Nd j).
  Proof.
    unfold chain_transport. split; intros [H1 H2]; split; intros j Hj;
      ((apply piece_balance_row; auto; lia) || (apply junction_balance_row; auto; lia)).
  Qed.

  Hypothesis Hc : chain_conserves C dt.

  Lemma quot_nonneg x y : 0 <= x -> 0 < y -> 0 <= x / y.
  Proof. intros; apply Rmult_le_pos; auto; left; now apply Rinv_0_lt_compat. Qed.
  Lemma quot_pos x y : 0 < x -> 0 < y -> 0 < x / y.
  Proof. intros; apply Rmult_lt_0_compat; auto; now apply Rinv_0_lt_compat. Qed.

  Definition diff_term (j : nat) : R := 2 * ch_D C j * ch_A C j / ch_dx C j.
  Lemma diff_nonneg j : (j <= ch_n C + 1)%nat -> 0 <= diff_term j /\ (0 < ch_D C j -> 0 < diff_term j).
  Proof.
    intros Hj. destruct Hw as (H1 & _ & _). destruct (H1 j Hj) as (Hdx & HA & HD & _). unfold diff_term. split.
    - apply quot_nonneg; auto. apply Rmult_le_pos; [lra|lra].
    - intros. apply quot_pos; auto. apply Rmult_lt_0_compat; lra.
  Qed.
  Lemma pa_val j : (j <= ch_n C + 1)%nat -> pa j = - ch_Qup C j * q_omega (ch_Qup C j) - diff_term j.
  Proof.
    intros Hj. destruct Hw as (H1 & _ & _). destruct (H1 j Hj) as (Hdx & _). unfold pa, q_alpha, diff_term. field. lra.
  Qed.
  Lemma pc_val j : (j <= ch_n C + 1)%nat -> pc j = ch_Qdn C j * (1 - q_omega (ch_Qdn C j)) - diff_term j.
  Proof.
    intros Hj. destruct Hw as (H1 & _ & _). destruct (H1 j Hj) as (Hdx & _). unfold pc, q_chi, diff_term. field. lra.
  Qed.
  (** Row sums: what is stored and what reacts. *)
  Lemma piece_sum j : (j <= ch_n C + 1)%nat ->
    pa j + pb j + pc j = ch_dx C j * ch_A C j / dt + ch_K C j * (ch_dx C j * ch_A C j).
  Proof.
    intros Hj. destruct Hw as (H1 & _ & _). destruct (H1 j Hj) as (Hdx & _). destruct Hc as [Hc1 _].
    specialize (Hc1 j Hj). rewrite pa_val, pc_val by auto. unfold pb, q_beta.
    assert (E : 4 * ch_D C j * ch_A C j / ch_dx C j = 2 * diff_term j) by (unfold diff_term; field; lra).
    rewrite E.
    assert (E2 : ch_dx C j * (2 * ch_A C j - ch_Ap C j) / dt
                 = ch_dx C j * ch_A C j / dt + (ch_dx C j * ch_A C j - ch_dx C j * ch_Ap C j) / dt) by (field; lra).
    rewrite E2, Hc1. ring.
  Qed.
  Lemma nka_val j : (j <= ch_n C)%nat -> nka j = - ch_Qdn C j * q_omega (ch_Qdn C j) - diff_term j.
  Proof.
    intros Hj. destruct Hw as (H1 & _ & _). destruct (H1 j ltac:(lia)) as (Hdx & _). unfold nka, diff_term. field. lra.
  Qed.
  Lemma nmu_val j : (j <= ch_n C)%nat -> nmu j = ch_Qup C (j + 1)%nat * (1 - q_omega (ch_Qup C (j + 1)%nat)) - diff_term (j + 1).
  Proof.
    intros Hj. destruct Hw as (H1 & _ & _). destruct (H1 (j + 1)%nat ltac:(lia)) as (Hdx & _). unfold nmu, diff_term. field. lra.
  Qed.
  Lemma node_sum j : (j <= ch_n C)%nat ->
    nka j + nla j + nmu j = ch_Q0 C j + ch_AS C j * ch_h C j / dt + ch_KI C j * (ch_AS C j * ch_h C j).
  Proof.
    intros Hj. destruct Hc as [_ Hc2]. specialize (Hc2 j Hj).
    rewrite nka_val, nmu_val by auto. unfold nla. fold (diff_term j). fold (diff_term (j + 1)).
    assert (E2 : ch_AS C j * (2 * ch_h C j - ch_hp C j) / dt
                 = ch_AS C j * ch_h C j / dt + (ch_AS C j * ch_h C j - ch_AS C j * ch_hp C j) / dt) by (field; lra).
    rewrite E2, Hc2. ring.
  Qed.

  Lemma piece_signs j : (j <= ch_n C + 1)%nat -> link_signs (pa j) (pb j) (pc j).
  Proof.
    intros Hj. destruct (diff_nonneg j Hj) as [Hd _]. unfold link_signs. rewrite piece_sum by auto.
    destruct Hw as (H1 & _ & _). destruct (H1 j Hj) as (Hdx & HA & _ & HK).
    assert (0 < ch_dx C j * ch_A C j) by now apply Rmult_lt_0_compat.
    rewrite pa_val, pc_val by auto. split; [|split].
    - destruct (omega_case (ch_Qup C j)) as [[? ->]|[? ->]]; lra.
    - destruct (omega_case (ch_Qdn C j)) as [[? ->]|[? ->]]; lra.
    - assert (0 < ch_dx C j * ch_A C j / dt) by now apply quot_pos.
      assert (0 <= ch_K C j * (ch_dx C j * ch_A C j)) by (apply Rmult_le_pos; lra). lra.
  Qed.
  Lemma chain_node_signs j : (j <= ch_n C)%nat -> node_signs (nka j) (nla j) (nmu j).
  Proof.
    intros Hj. pose proof (node_sum j Hj) as ES. destruct Hw as (H1 & H2 & H3).
    destruct (diff_nonneg j ltac:(lia)) as [Hd Hd']. destruct (diff_nonneg (j + 1) ltac:(lia)) as [He He'].
    destruct (H2 j Hj) as (AS & Hh & HK & HQ).
    assert (S0 : 0 <= ch_AS C j * ch_h C j) by (apply Rmult_le_pos; lra).
    assert (S1 : 0 <= ch_AS C j * ch_h C j / dt) by (apply quot_nonneg; auto).
    assert (S2 : 0 <= ch_KI C j * (ch_AS C j * ch_h C j)) by (apply Rmult_le_pos; lra).
    pose proof (nka_val j Hj) as EK. pose proof (nmu_val j Hj) as EM.
    assert (K0 : nka j <= 0) by (rewrite EK; destruct (omega_case (ch_Qdn C j)) as [[? ->]|[? ->]]; lra).
    assert (M0 : nmu j <= 0) by (rewrite EM; destruct (omega_case (ch_Qup C (j + 1)%nat)) as [[? ->]|[? ->]]; lra).
    split; auto. split; auto. split; [lra|].
    destruct (H3 j Hj) as [X|[X|[X|[X|[X|X]]]]].
    - specialize (Hd' X). assert (nka j < 0) by (rewrite EK; destruct (omega_case (ch_Qdn C j)) as [[? ->]|[? ->]]; lra). lra.
    - specialize (He' X). assert (nmu j < 0) by (rewrite EM; destruct (omega_case (ch_Qup C (j + 1)%nat)) as [[? ->]|[? ->]]; lra). lra.
    - assert (nka j < 0) by (rewrite EK; destruct (omega_case (ch_Qdn C j)) as [[? ->]|[? ->]]; lra). lra.
    - assert (nmu j < 0) by (rewrite EM; destruct (omega_case (ch_Qup C (j + 1)%nat)) as [[? ->]|[? ->]]; lra). lra.
    - assert (0 < ch_AS C j * ch_h C j / dt) by now apply quot_pos. lra.
    - lra.
  Qed.
  Lemma strict_signs : chain_diffuses C ->
    (forall j, (j <= ch_n C + 1)%nat -> pa j < 0 /\ pc j < 0) /\ (forall j, (j <= ch_n C)%nat -> nka j < 0 /\ nmu j < 0).
  Proof.
    intros HD. split; intros j Hj.
    - destruct (diff_nonneg j Hj) as [_ Hd]. specialize (Hd (HD j Hj)). rewrite pa_val, pc_val by auto. split.
      + destruct (omega_case (ch_Qup C j)) as [[? ->]|[? ->]]; lra.
      + destruct (omega_case (ch_Qdn C j)) as [[? ->]|[? ->]]; lra.
    - destruct (diff_nonneg j ltac:(lia)) as [_ Hd]. specialize (Hd (HD j ltac:(lia))).
      destruct (diff_nonneg (j + 1) ltac:(lia)) as [_ He]. specialize (He (HD (j + 1)%nat ltac:(lia))).
      rewrite nka_val, nmu_val by auto. split.
      + destruct (omega_case (ch_Qdn C j)) as [[? ->]|[? ->]]; lra.
      + destruct (omega_case (ch_Qup C (j + 1)%nat)) as [[? ->]|[? ->]]; lra.
  Qed.

  (** The chain's equations have a solution whatever the superjunctions' concentrations. *)
  Lemma transport_solvable a z : exists L Nd, chain_transport C dt a z L Nd.
  Proof.
    destruct (chain_solvable pa pb pc pg nka nla nmu net (ch_n C) a z piece_signs chain_node_signs) as (L & Nd & H).
    exists L, Nd. now apply chain_rows.
  Qed.
End ChainRows.

(** ** End relations *)
Section Ends.
  (** Junction rows at both ends, rows of the end pieces. *)
  Variables k1 l1 m1 k2 l2 m2 e1 e2 X Y Z U V W : R.
  Variables au bu cu gu ad bd cd gd : R.
  Hypothesis N1 : node_signs k1 l1 m1.
  Hypothesis N2 : node_signs k2 l2 m2.
  Hypothesis Hk : k1 < 0.
  Hypothesis Hm : m2 < 0.
  Hypothesis HX : 0 <= X /\ 0 <= Z /\ X + Z < 1.
  Hypothesis HU : 0 <= U /\ 0 <= W /\ U + W < 1.
  Hypothesis Lu : link_signs au bu cu.
  Hypothesis Ld : link_signs ad bd cd.
  Hypothesis Hcu : cu < 0.
  Hypothesis Had : ad < 0.

  Let e := mkEnds ((- m1 * X - l1) / k1) ((e1 - m1 * Y) / k1) (- m1 * Z / k1)
                  ((- k2 * U - l2) / m2) ((e2 - k2 * V) / m2) (- k2 * W / m2).
  Let t := mkEndCoefs (- bu / cu) (- au / cu) (gu / cu) (- bd / ad) (- cd / ad) (gd / ad).

  Lemma opp_quot x y : y <> 0 -> x / y = (- x) / (- y).
  Proof. intros; field; auto. Qed.

  Lemma end_signs : 1 <= eX e + eZ e /\ eZ e <= 0 /\ 1 <= eU e + eW e /\ eW e <= 0 /\ 1 < e_thu t /\ 1 < e_thd t.
  Proof.
    destruct N1 as (A1 & A2 & A3 & A4), N2 as (B1 & B2 & B3 & B4), Lu as (C1 & C2 & C3), Ld as (D1 & D2 & D3).
    unfold e, t; simpl. split; [|split; [|split; [|split; [|split]]]].
    - replace ((- m1 * X - l1) / k1 + - m1 * Z / k1) with ((l1 + m1 * (X + Z)) / - k1) by (field; lra).
      apply Rmult_le_reg_r with (- k1); [lra|]. unfold Rdiv. rewrite Rmult_assoc, Rinv_l by lra.
      assert (m1 <= m1 * (X + Z)) by nra. lra.
    - rewrite opp_quot by lra. assert (0 <= m1 * - Z) by nra.
      assert (0 <= (m1 * - Z) / - k1) by (apply quot_nonneg; lra).
      replace (- (- m1 * Z) / - k1) with (- ((m1 * - Z) / - k1)) by (field; lra). lra.
    - replace ((- k2 * U - l2) / m2 + - k2 * W / m2) with ((l2 + k2 * (U + W)) / - m2) by (field; lra).
      apply Rmult_le_reg_r with (- m2); [lra|]. unfold Rdiv. rewrite Rmult_assoc, Rinv_l by lra.
      assert (k2 <= k2 * (U + W)) by nra. lra.
    - assert (0 <= k2 * - W) by nra.
      assert (0 <= (k2 * - W) / - m2) by (apply quot_nonneg; lra).
      replace (- k2 * W / m2) with (- ((k2 * - W) / - m2)) by (field; lra). lra.
    - apply Rmult_lt_reg_r with (- cu); [lra|]. replace (- bu / cu * - cu) with bu by (field; lra). lra.
    - apply Rmult_lt_reg_r with (- ad); [lra|]. replace (- bd / ad * - ad) with bd by (field; lra). lra.
  Qed.

  Lemma end_det : 0 < q_Dk e t.
  Proof.
    destruct end_signs as (S1 & S2 & S3 & S4 & S5 & S6). unfold q_Dk.
    set (x := eX e) in *. set (z := eZ e) in *. set (u := eU e) in *. set (w := eW e) in *.
    set (p := e_thu t) in *. set (q := e_thd t) in *.
    assert (P1 : - z * p < x * p - 1) by nra.
    assert (P2 : - w * q < u * q - 1) by nra.
    assert (0 <= - z * p) by nra. assert (0 <= - w * q) by nra.
    assert ((- z * p) * (- w * q) < (x * p - 1) * (u * q - 1)) by (apply Rmult_le_0_lt_compat; lra).
    replace ((1 - x * p) * (1 - u * q) - w * z * p * q) with ((x * p - 1) * (u * q - 1) - (- z * p) * (- w * q)) by ring. lra.
  Qed.

  (** Whatever satisfies the rows at the two ends satisfies the relations of the code. *)
  Lemma end_exact a z L0 N0 L1 Ln Nn Ln1 :
    au * a + bu * L0 + cu * N0 = gu ->
    k1 * L0 + l1 * N0 + m1 * L1 = e1 ->
    L1 = X * N0 + Y + Z * Nn ->
    Ln = U * Nn + V + W * N0 ->
    k2 * Ln + l2 * Nn + m2 * Ln1 = e2 ->
    ad * Nn + bd * Ln1 + cd * z = gd ->
    let q := q_boundary e t in
    L0 = q_rhou q * a + q_tauu q * z + q_zetu q /\
    Ln1 = q_rhod q * a + q_taud q * z + q_zetd q /\
    N0 = e_thu t * L0 + e_siu t * a + e_xiu t /\
    Nn = e_thd t * Ln1 + e_sid t * z + e_xid t.
  Proof.
    intros R1 R2 R3 R4 R5 R6.
    assert (E0 : L0 = eX e * N0 + eY e + eZ e * Nn).
    { unfold e; simpl. rewrite R3 in R2. apply Rmult_eq_reg_l with k1; [|lra].
      replace (k1 * L0) with (e1 - l1 * N0 - m1 * (X * N0 + Y + Z * Nn)) by lra. field. lra. }
    assert (E1 : Ln1 = eU e * Nn + eV e + eW e * N0).
    { unfold e; simpl. rewrite R4 in R5. apply Rmult_eq_reg_l with m2; [|lra].
      replace (m2 * Ln1) with (e2 - l2 * Nn - k2 * (U * Nn + V + W * N0)) by lra. field. lra. }
    assert (E2 : N0 = e_thu t * L0 + e_siu t * a + e_xiu t).
    { unfold t; simpl. apply Rmult_eq_reg_l with cu; [|lra].
      replace (cu * N0) with (gu - bu * L0 - au * a) by lra. field. lra. }
    assert (E3 : Nn = e_thd t * Ln1 + e_sid t * z + e_xid t).
    { unfold t; simpl. apply Rmult_eq_reg_l with ad; [|lra].
      replace (ad * Nn) with (gd - bd * Ln1 - cd * z) by lra. field. lra. }
    pose proof end_det as HD. unfold q_Dk in HD.
    cbv zeta. unfold q_boundary; cbn -[e t]. unfold q_Dk. rewrite !safe_divide_nz by lra.
    clearbody e t. destruct e as [x y zz u v w], t as [thu siu xiu thd sid xid]. simpl in *. clear e t.
    set (Dk := (1 - x * thu) * (1 - u * thd) - w * zz * thu * thd) in *.
    assert (G0 : x * N0 = x * (thu * L0 + siu * a + xiu)) by (now rewrite <- E2).
    assert (G1 : u * Nn = u * (thd * Ln1 + sid * z + xid)) by (now rewrite <- E3).
    assert (G2 : zz * Nn = zz * (thd * Ln1 + sid * z + xid)) by (now rewrite <- E3).
    assert (G3 : w * N0 = w * (thu * L0 + siu * a + xiu)) by (now rewrite <- E2).
    assert (F0 : (1 - x * thu) * L0 = x * (siu * a + xiu) + y + zz * (thd * Ln1 + sid * z + xid)) by lra.
    assert (F1 : (1 - u * thd) * Ln1 = u * (sid * z + xid) + v + w * (thu * L0 + siu * a + xiu)) by lra.
    assert (S0 : Dk * L0 = (1 - u * thd) * (x * (siu * a + xiu) + y + zz * (sid * z + xid))
                           + zz * thd * (u * (sid * z + xid) + v + w * (siu * a + xiu))).
    { replace (Dk * L0) with ((1 - u * thd) * ((1 - x * thu) * L0) - zz * thd * (w * thu * L0)) by (unfold Dk; ring).
      rewrite F0.
      replace (w * thu * L0) with ((1 - u * thd) * Ln1 - u * (sid * z + xid) - v - w * (siu * a + xiu)) by lra. ring. }
    assert (S1 : Dk * Ln1 = (1 - x * thu) * (u * (sid * z + xid) + v + w * (siu * a + xiu))
                            + w * thu * (x * (siu * a + xiu) + y + zz * (sid * z + xid))).
    { replace (Dk * Ln1) with ((1 - x * thu) * ((1 - u * thd) * Ln1) - w * thu * (zz * thd * Ln1)) by (unfold Dk; ring).
      rewrite F1.
      replace (zz * thd * Ln1) with ((1 - x * thu) * L0 - x * (siu * a + xiu) - y - zz * (sid * z + xid)) by lra. ring. }
    split; [|split; [|split]]; auto.
    - apply Rmult_eq_reg_l with Dk; [|lra]. rewrite S0. field. lra.
    - apply Rmult_eq_reg_l with Dk; [|lra]. rewrite S1. field. lra.
  Qed.
End Ends.
