From Verif Require Import Prelude M_Coeffs M_Recurrence M_Assembly M_Step S_Superlink S_Network S_Step S_Mirror S_Embed
  L_Forward L_Backward L_Coeffs L_Internals L_Assembly L_Step P_Superlink P_Assembly P_Step.

(** ** Sums over the elements at a junction, in two numberings *)
Lemma sum_n_upd f i v n : (i < n)%nat -> sum_n (upd f i v) n = sum_n f n - f i + v.
Proof.
  induction n as [|n IH]; intros Hi; [lia|]. cbn [sum_n]. destruct (Nat.eq_dec i n) as [->|].
  - rewrite upd_eq. rewrite (sum_n_ext (upd f n v) f); [lra|]. intros x Hx. apply upd_neq. lia.
  - rewrite IH by lia. rewrite upd_neq by lia. lra.
Qed.
Lemma sum_n_found m n : forall n' f f', found m n n' -> (forall k, (k < n)%nat -> f' (m k) = f k) ->
  (forall k', (k' < n')%nat -> f' k' = 0 \/ exists k, (k < n)%nat /\ m k = k') -> sum_n f' n' = sum_n f n.
Proof.
  induction n as [|n IH]; intros n' f f' [Hr Hi] He Ho; cbn [sum_n].
  - apply sum_n_0. intros k Hk. destruct (Ho k Hk) as [|(x & Hx & _)]; [auto|lia].
  - pose proof (IH n' f (upd f' (m n) 0)) as X. rewrite sum_n_upd in X by (apply Hr; lia). rewrite <- X; [rewrite (He n) by lia; lra| | |].
    + split; intros; [apply Hr; lia|apply Hi; lia].
    + intros k Hk. rewrite upd_neq; [apply He; lia|]. intros E. apply Hi in E; lia.
    + intros k' Hk'. destruct (Nat.eq_dec k' (m n)) as [->|Hne]; [left; apply upd_eq|]. rewrite upd_neq by auto.
      destruct (Ho k' Hk') as [|(x & Hx & Ex)]; [auto|]. right. exists x. split; [|auto]. assert (x <> n) by congruence. lia.
Qed.
Lemma sum_if_found m n n' p p' f f' : found m n n' -> (forall k, (k < n)%nat -> p' (m k) = p k) ->
  (forall k, (k < n)%nat -> p k = true -> f' (m k) = f k) ->
  (forall k', (k' < n')%nat -> p' k' = true -> exists k, (k < n)%nat /\ m k = k') -> sum_if p' f' n' = sum_if p f n.
Proof.
  intros Hf Hp He Hc. apply (sum_n_found m); auto.
  - intros k Hk. rewrite Hp by auto. destruct (p k) eqn:E; auto.
  - intros k' Hk'. destruct (p' k') eqn:E; auto.
Qed.

(** ** Sweeps of one superlink *)
Section One.
  Variables (a b c P A E D a' b' c' P' A' E' D' : arr) (i1 I1 i1' I1' n : nat).

  Record equal_coeffs : Prop := mkEQC {
    qc_l : forall j, (j < n)%nat -> let i := (i1 + j)%nat in let i' := (i1' + j)%nat in
      a' i' = a i /\ b' i' = b i /\ c' i' = c i /\ P' i' = P i /\ A' i' = A i;
    qc_n : forall j, (j <= n)%nat -> let I := (I1 + j)%nat in let I' := (I1' + j)%nat in E' I' = E I /\ D' I' = D I }.

  Lemma fwd_embed f f' : (1 <= n)%nat -> equal_coeffs -> fwd_eqs a b c P A E D i1 I1 n f -> fwd_eqs a' b' c' P' A' E' D' i1' I1' n f' ->
    forall j, (j < n)%nat -> fU f' (I1' + j)%nat = fU f (I1 + j)%nat /\ fV f' (I1' + j)%nat = fV f (I1 + j)%nat /\ fW f' (I1' + j)%nat = fW f (I1 + j)%nat.
  Proof.
    intros Hn [Sl Sn] [T0 U0 V0 W0 FT FU FV FW] [T0' U0' V0' W0' FT' FU' FV' FW']. induction j as [|j IH]; intros Hj.
    - rewrite !Nat.add_0_r. destruct (Sl 0%nat ltac:(lia)) as (La & Lb & Lc & LP & LA). rewrite !Nat.add_0_r in La, Lb, Lc, LP, LA.
      destruct (Sn 0%nat ltac:(lia)) as (E0 & D0). destruct (Sn 1%nat ltac:(lia)) as (E1 & D1). rewrite !Nat.add_0_r in E0, D0.
      assert (T : fT f' i1' = fT f i1) by (rewrite T0, T0', La, Lb, Lc; reflexivity).
      rewrite U0, U0', V0, V0', W0, W0', T, La, Lc, LP, LA, E0, D0, E1, D1. auto.
    - destruct (IH ltac:(lia)) as (IU & IV & IW). destruct (Sl (S j) Hj) as (La & Lb & Lc & LP & LA).
      destruct (Sn (S j) ltac:(lia)) as (E0 & D0). destruct (Sn (S (S j)) ltac:(lia)) as (E1 & D1).
      specialize (FT j Hj). specialize (FU j Hj). specialize (FV j Hj). specialize (FW j Hj).
      specialize (FT' j Hj). specialize (FU' j Hj). specialize (FV' j Hj). specialize (FW' j Hj).
      assert (T : fT f' (i1' + S j)%nat = fT f (i1 + S j)%nat) by (rewrite FT, FT', La, Lb, Lc, LA, E0, IU; reflexivity).
      rewrite FU, FU', FW, FW', T, La, Lc, LA, E0, E1, IU, IW. split; [auto|]. split; [|auto].
      rewrite La, Lc, LP, LA, E0, D0, D1, T, IU, IV in FV'. rewrite <- FV in FV'. now injection FV'.
  Qed.

  Lemma bwd_embed w w' : (1 <= n)%nat -> equal_coeffs -> bwd_eqs a b c P A E D i1 I1 n w -> bwd_eqs a' b' c' P' A' E' D' i1' I1' n w' ->
    forall j, (j < n)%nat -> bX w' (I1' + j)%nat = bX w (I1 + j)%nat /\ bY w' (I1' + j)%nat = bY w (I1 + j)%nat /\ bZ w' (I1' + j)%nat = bZ w (I1 + j)%nat.
  Proof.
    intros Hn [Sl Sn] [O0 X0 Y0 Z0 BO BX BY BZ] [O0' X0' Y0' Z0' BO' BX' BY' BZ'].
    assert (B : forall t, (t < n)%nat -> let j := (n - 1 - t)%nat in
      bX w' (I1' + j)%nat = bX w (I1 + j)%nat /\ bY w' (I1' + j)%nat = bY w (I1 + j)%nat /\ bZ w' (I1' + j)%nat = bZ w (I1 + j)%nat).
    2:{ intros j Hj. specialize (B (n - 1 - j)%nat ltac:(lia)). cbv zeta in B. now replace (n - 1 - (n - 1 - j))%nat with j in B by lia. }
    replace (i1 + n - 1)%nat with (i1 + (n - 1))%nat in * by lia. replace (I1 + n - 1)%nat with (I1 + (n - 1))%nat in * by lia.
    replace (i1' + n - 1)%nat with (i1' + (n - 1))%nat in * by lia. replace (I1' + n - 1)%nat with (I1' + (n - 1))%nat in * by lia.
    induction t as [|t IH]; intros Ht; cbv zeta.
    - rewrite Nat.sub_0_r. destruct (Sl (n - 1)%nat ltac:(lia)) as (La & Lb & Lc & LP & LA).
      destruct (Sn (n - 1)%nat ltac:(lia)) as (E0 & D0). destruct (Sn n ltac:(lia)) as (E1 & D1).
      assert (T : bO w' (i1' + (n - 1))%nat = bO w (i1 + (n - 1))%nat) by (rewrite O0, O0', La, Lb, Lc; reflexivity).
      rewrite X0, X0', Y0, Y0', Z0, Z0', T, La, Lc, LP, LA, E0, D0, E1, D1. auto.
    - specialize (IH ltac:(lia)). cbv zeta in IH. set (j := (n - 1 - S t)%nat) in *.
      replace (n - 1 - t)%nat with (S j) in IH by (unfold j; lia). destruct IH as (IU & IV & IW).
      assert (Hj : (S j < n)%nat) by (unfold j; lia).
      destruct (Sl j ltac:(lia)) as (La & Lb & Lc & LP & LA).
      destruct (Sn j ltac:(lia)) as (E0 & D0). destruct (Sn (S j) ltac:(lia)) as (E1 & D1).
      specialize (BO j ltac:(lia) Hj). specialize (BX j ltac:(lia) Hj). specialize (BY j ltac:(lia) Hj). specialize (BZ j ltac:(lia) Hj).
      specialize (BO' j ltac:(lia) Hj). specialize (BX' j ltac:(lia) Hj). specialize (BY' j ltac:(lia) Hj). specialize (BZ' j ltac:(lia) Hj).
      assert (T : bO w' (i1' + j)%nat = bO w (i1 + j)%nat) by (rewrite BO, BO', La, Lb, Lc, LA, E1, IU; reflexivity).
      rewrite BX, BX', BZ, BZ', T, La, Lc, LA, E0, E1, IU, IW. split; [auto|]. split; [|auto].
      rewrite La, Lc, LP, LA, E1, D0, D1, T, IU, IV in BY'. rewrite <- BY in BY'. now injection BY'.
  Qed.

  Lemma internals_embed f w f' w' h_1 h_e lo hi back h Q h' Q' : (1 <= n)%nat ->
    (forall j, (j < n)%nat -> fU f' (I1' + j)%nat = fU f (I1 + j)%nat /\ fV f' (I1' + j)%nat = fV f (I1 + j)%nat /\ fW f' (I1' + j)%nat = fW f (I1 + j)%nat) ->
    (forall j, (j < n)%nat -> bX w' (I1' + j)%nat = bX w (I1 + j)%nat /\ bY w' (I1' + j)%nat = bY w (I1 + j)%nat /\ bZ w' (I1' + j)%nat = bZ w (I1 + j)%nat) ->
    internals_eqs f w h_1 h_e i1 I1 n lo hi back h Q -> internals_eqs f' w' h_1 h_e i1' I1' n lo hi back h' Q' ->
    (forall j, (j <= n)%nat -> h' (I1' + j)%nat = h (I1 + j)%nat) /\ (forall j, (j < n)%nat -> Q' (i1' + j)%nat = Q (i1 + j)%nat).
  Proof.
    intros Hn EF EB [K1 K2 K3 K4 K5] [L1 L2 L3 L4 L5].
    assert (G : forall m, (m < n)%nat -> h' (I1' + (n - m))%nat = h (I1 + (n - m))%nat /\ ((1 <= m)%nat -> Q' (i1' + (n - m))%nat = Q (i1 + (n - m))%nat)).
    { induction m as [|m IH]; intros Hm.
      - rewrite Nat.sub_0_r. split; [congruence|lia].
      - destruct (IH ltac:(lia)) as [IH1 _]. set (j := (n - S m)%nat). replace (n - m)%nat with (j + 1)%nat in * by (unfold j; lia).
        assert (Hj : (1 <= j < n)%nat) by (unfold j; lia).
        destruct (EF j ltac:(lia)) as (f1 & f2 & f3). destruct (EB j ltac:(lia)) as (b1 & b2 & b3).
        assert (EQ : Q' (i1' + j)%nat = Q (i1 + j)%nat) by (rewrite K3, L3, f1, f2, f3, IH1 by lia; reflexivity).
        split; [|auto]. rewrite K4, L4, b1, b2, b3, EQ by lia. reflexivity. }
    assert (Gh : forall j, (j <= n)%nat -> h' (I1' + j)%nat = h (I1 + j)%nat).
    { intros j Hj. destruct (Nat.eq_dec j 0) as [->|].
      - rewrite !Nat.add_0_r. congruence.
      - destruct (G (n - j)%nat ltac:(lia)) as [G1 _]. now replace (n - (n - j))%nat with j in G1 by lia. }
    split; [exact Gh|]. intros j Hj. destruct (Nat.eq_dec j 0) as [->|].
    - destruct (EF 0%nat ltac:(lia)) as (f1 & f2 & f3). destruct (EB 0%nat ltac:(lia)) as (b1 & b2 & b3).
      rewrite !Nat.add_0_r in *. rewrite K5, L5, f1, f2, f3, b1, b2, b3, Gh by lia. reflexivity.
    - destruct (G (n - j)%nat ltac:(lia)) as [_ G2]. replace (n - (n - j))%nat with j in G2 by lia. apply G2; lia.
  Qed.
End One.

(** ** Coefficients of the ends *)
Definition raise_head (c : R) (h : headc) : headc := mkHead (hk h) (hl h) (hm h - hl h * c).
Definition raise_flow (c : R) (f : flowc) : flowc :=
  mkFlow (au f) (bu f) (cu f - (au f + bu f) * c) (ad f) (bd f) (cd f - (ad f + bd f) * c).

Lemma safe_divide_scale x y : safe_divide x y = x * safe_divide 1 y.
Proof. unfold safe_divide, Reqb. destruct (Req_EM_T y 0); [lra|]. field; auto. Qed.
Lemma flow_coefficients_raise c e hu hd :
  superlink_flow_coefficients e (raise_head c hu) (raise_head c hd) = raise_flow c (superlink_flow_coefficients e hu hd).
Proof.
  unfold superlink_flow_coefficients, raise_flow, raise_head. cbn [eX eY eZ eU eV eW hk hl hm au bu cu ad bd cd].
  set (Dk := D_k_star _ _ _ _ _ _). unfold alpha_uk, beta_uk, chi_uk, alpha_dk, beta_dk, chi_dk.
  rewrite (safe_divide_scale ((1 - eU e * hk hd) * _ + _) Dk), (safe_divide_scale ((1 - eX e * hk hu) * _ + _) Dk).
  rewrite (safe_divide_scale (hl hu * _) Dk), (safe_divide_scale (hl hd * _) Dk).
  rewrite (safe_divide_scale ((1 - eU e * hk hd) * (eY e + eX e * hm hu + eZ e * hm hd) + _) Dk), (safe_divide_scale ((1 - eX e * hk hu) * (eV e + eW e * hm hu + eU e * hm hd) + _) Dk).
  rewrite (safe_divide_scale (hl hu * ((1 - eX e * hk hu) * eW e + eW e * hk hu * eX e)) Dk), (safe_divide_scale (hl hd * ((1 - eX e * hk hu) * eU e + eW e * hk hu * eZ e)) Dk).
  f_equal; ring.
Qed.

Record embedded_setup (F : place) (N N' : network) (u u' : setup) : Prop := mkESu {
  eu_hu : forall k, (k < n_K N)%nat -> u_hu u' (pk F k) = raise_head (pz F) (u_hu u k);
  eu_hd : forall k, (k < n_K N)%nat -> u_hd u' (pk F k) = raise_head (pz F) (u_hd u k);
  eu_DE : forall k j, (k < n_K N)%nat -> (j <= n_nk N k)%nat -> let I := (n_I1 N k + j)%nat in let I' := (n_I1 N' (pk F k) + j)%nat in
    u_E u' I' = u_E u I /\ u_D u' I' = u_D u I;
  eu_fb : forall k j, (k < n_K N)%nat -> (j < n_nk N k)%nat -> let I := (n_I1 N k + j)%nat in let I' := (n_I1 N' (pk F k) + j)%nat in
    (fU (u_f u') I' = fU (u_f u) I /\ fV (u_f u') I' = fV (u_f u) I /\ fW (u_f u') I' = fW (u_f u) I) /\
    (bX (u_b u') I' = bX (u_b u) I /\ bY (u_b u') I' = bY (u_b u) I /\ bZ (u_b u') I' = bZ (u_b u) I) }.

Section Embed.
Variable F : place.
Variables N N' : network.
Hypothesis HN : embedded_network F N N'.
Hypothesis Hwf : well_formed N.
Hypothesis Hwf' : well_formed N'.
Hypothesis Hz : n_bcm N = BCz.

Lemma place_k k : (k < n_K N)%nat -> (pk F k < n_K N')%nat.
Proof. apply (en_k _ _ _ HN). Qed.

Section Coeffs.
Variables (G G' : geometry) (w w' : work) (st st' sv sv' : hstate) (Q0 Q0' : arr) (dt : R) (u u' : setup).
Hypothesis HG : embedded_geometry F N N' G G'.
Hypothesis Hst : embedded_state F N N' st st'.
Hypothesis Hsv : embedded_state F N N' sv sv'.
Hypothesis HQ0 : embedded_nodes F N N' Q0 Q0'.
Hypothesis Hu : setup_step N G w st sv Q0 dt = Some u.
Hypothesis Hu' : setup_step N' G' w' st' sv' Q0' dt = Some u'.

Local Notation i1 := (n_i1 N).
Local Notation I1 := (n_I1 N).
Local Notation nk := (n_nk N).
Local Notation i1' k := (n_i1 N' (pk F k)).
Local Notation I1' k := (n_I1 N' (pk F k)).
Let vel i := u_ik (h_Q st i) (g_A G i).
Let vel' i := u_ik (h_Q st' i) (g_A G' i).
Let sig i := damping (n_damp N) (vel i) (g_A G i) (g_B G i).
Let sig' i := damping (n_damp N') (vel' i) (g_A G' i) (g_B G' i).

Lemma vel_embed k j : (k < n_K N)%nat -> (j < nk k)%nat -> vel' (i1' k + j)%nat = vel (i1 k + j)%nat.
Proof.
  intros Hk Hj. unfold vel, vel'. rewrite (es_Q _ _ _ _ _ Hst k j Hk Hj). destruct (eg_links _ _ _ _ _ HG k j Hk Hj) as (-> & _ & _). reflexivity.
Qed.
Lemma sig_embed k j : (k < n_K N)%nat -> (j < nk k)%nat -> sig' (i1' k + j)%nat = sig (i1 k + j)%nat.
Proof.
  intros Hk Hj. unfold sig, sig'. rewrite (vel_embed k j Hk Hj). destruct (eg_links _ _ _ _ _ HG k j Hk Hj) as (-> & _ & ->).
  now rewrite (en_damp _ _ _ HN).
Qed.
Lemma nk_place k : (k < n_K N)%nat -> n_nk N' (pk F k) = nk k.
Proof. intros Hk. apply (en_ends _ _ _ HN k Hk). Qed.

Lemma ends_embed k j : (k < n_K N)%nat -> (j < nk k)%nat ->
  u_Ik (n_dx N') vel' (n_lstart N') (i1' k + j) = u_Ik (n_dx N) vel (n_lstart N) (i1 k + j) /\
  u_Ip1k (n_dx N') vel' (n_lend N') (i1' k + j) = u_Ip1k (n_dx N) vel (n_lend N) (i1 k + j).
Proof.
  intros Hk Hj. destruct (en_marks' _ _ _ HN (pk F k) j (place_k k Hk)) as [Ms' Me']; [rewrite nk_place; auto|]. rewrite nk_place in Me' by auto.
  destruct (en_marks _ _ _ HN k j Hk Hj) as [Ms Me].
  assert (Edx : forall x, (x < nk k)%nat -> n_dx N' (i1' k + x)%nat = n_dx N (i1 k + x)%nat)
    by (intros x Hx; apply (en_links _ _ _ HN k x Hk Hx)).
  pose proof (fun x Hx => vel_embed k x Hk Hx) as Ev.
  unfold u_Ik, u_Ip1k. rewrite Ms', Me', Ms, Me. split.
  - destruct (Nat.eqb_spec j 0); [apply Ev; auto|]. cbv zeta.
    replace (i1' k + j - 1)%nat with (i1' k + (j - 1))%nat by lia. replace (i1 k + j - 1)%nat with (i1 k + (j - 1))%nat by lia.
    rewrite !Edx, !Ev by lia. reflexivity.
  - destruct (Nat.eqb_spec j (nk k - 1)); [apply Ev; auto|]. cbv zeta. rewrite <- !Nat.add_assoc.
    rewrite !Edx, !Ev by lia. reflexivity.
Qed.

Let Fc := setup_facts_ok _ _ _ _ _ _ _ _ Hu.
Let Fc' := setup_facts_ok _ _ _ _ _ _ _ _ Hu'.

Lemma links_embed k j : (k < n_K N)%nat -> (j < nk k)%nat ->
  let i' := (i1' k + j)%nat in
  let i := (i1 k + j)%nat in
  ma (u_m u') i' = ma (u_m u) i /\ mc (u_m u') i' = mc (u_m u) i /\ mb (u_m u') i' = mb (u_m u) i /\ mP (u_m u') i' = mP (u_m u) i.
Proof.
  intros Hk Hj i' i.
  destruct Fc as [Fm _ _ _ _ _]. destruct Fc' as [Fm' _ _ _ _ _].
  destruct (link_coeffs_entries _ _ _ _ _ _ Fm) as (Ea & Ec & EP & Eb). destruct (link_coeffs_entries _ _ _ _ _ _ Fm') as (Ea' & Ec' & EP' & Eb').
  cbn [links_of l_dx l_n l_Q l_Qp l_A l_R l_B l_So l_Ac l_C l_ctrl l_start l_end l_sf] in Ea, Ec, EP, Eb, Ea', Ec', EP', Eb'.
  destruct (wf_range _ Hwf k Hk) as [R1 _]. destruct (wf_range _ Hwf' _ (place_k k Hk)) as [R1' _]. rewrite nk_place in R1' by auto.
  specialize (Ea i). specialize (Ec i). specialize (EP i). specialize (Eb i ltac:(unfold i; lia)).
  specialize (Ea' i'). specialize (Ec' i'). specialize (EP' i'). specialize (Eb' i' ltac:(unfold i'; lia)).
  change (ma (u_m u) i = a_ik (u_Ik (n_dx N) vel (n_lstart N) i) (sig i)) in Ea.
  change (mc (u_m u) i = c_ik (u_Ip1k (n_dx N) vel (n_lend N) i) (sig i)) in Ec.
  change (mP (u_m u) i = P_ik (h_Q sv i) (n_dx N i) dt (g_A G i) (n_So N i) (sig i)) in EP.
  change (b_ik (n_dx N i) dt (n_n N i) (h_Q st i) (g_A G i) (g_R G i) (n_Ac N i) (n_C N i) (ma (u_m u) i) (mc (u_m u) i)
            (n_ctrl N i) (sig i) (n_sf N i) = Some (mb (u_m u) i)) in Eb.
  change (ma (u_m u') i' = a_ik (u_Ik (n_dx N') vel' (n_lstart N') i') (sig' i')) in Ea'.
  change (mc (u_m u') i' = c_ik (u_Ip1k (n_dx N') vel' (n_lend N') i') (sig' i')) in Ec'.
  change (mP (u_m u') i' = P_ik (h_Q sv' i') (n_dx N' i') dt (g_A G' i') (n_So N' i') (sig' i')) in EP'.
  change (b_ik (n_dx N' i') dt (n_n N' i') (h_Q st' i') (g_A G' i') (g_R G' i') (n_Ac N' i') (n_C N' i') (ma (u_m u') i') (mc (u_m u') i')
            (n_ctrl N' i') (sig' i') (n_sf N' i') = Some (mb (u_m u') i')) in Eb'.
  destruct (ends_embed k j Hk Hj) as [Eu Ed]. fold i i' in Eu, Ed.
  pose proof (sig_embed k j Hk Hj) as Es. fold i i' in Es.
  destruct (eg_links _ _ _ _ _ HG k j Hk Hj) as (GA & GR & _). fold i i' in GA, GR.
  destruct (en_links _ _ _ HN k j Hk Hj) as (X1 & X2 & X3 & X4 & X5 & X6 & X7). fold i i' in X1, X2, X3, X4, X5, X6, X7.
  pose proof (es_Q _ _ _ _ _ Hst k j Hk Hj) as SQ. pose proof (es_Q _ _ _ _ _ Hsv k j Hk Hj) as VQ. fold i i' in SQ, VQ.
  rewrite Eu, Es in Ea'. rewrite Ed, Es in Ec'. rewrite Es, GA, X1, X7, VQ in EP'. rewrite Es, GA, GR, X1, X2, X3, X4, X5, X6, SQ in Eb'.
  rewrite <- Ea in Ea'. rewrite <- Ec in Ec'. rewrite Ea', Ec', Eb in Eb'. injection Eb' as Eb'.
  rewrite Ea', Ec', EP', EP, Eb'. auto.
Qed.

Lemma width_embed k j : (k < n_K N)%nat -> (j <= nk k)%nat ->
  node_width (g_B G') (n_dx N') (n_ASI N') (g_Bu G') (g_Bd G') (n_dxu N') (n_dxd N') (n_kI N') (n_fwdi N') (n_bwdi N') (n_isS N') (n_isE N') (I1' k + j)
  = node_width (g_B G) (n_dx N) (n_ASI N) (g_Bu G) (g_Bd G) (n_dxu N) (n_dxd N) (n_kI N) (n_fwdi N) (n_bwdi N) (n_isS N) (n_isE N) (I1 k + j).
Proof.
  intros Hk Hj. pose proof (proj1 (wf_layout _ Hwf) k Hk) as Hn.
  destruct (wf_chain _ Hwf' (pk F k) j (place_k k Hk)) as (K1' & K2' & K3' & K4' & K5'); [rewrite nk_place; auto|]. rewrite nk_place in K3', K4' by auto.
  destruct (wf_chain _ Hwf k j Hk Hj) as (K1 & K2 & K3 & K4 & K5).
  unfold node_width. rewrite K1', K2', K3', K1, K2, K3. rewrite (en_nodes _ _ _ HN k j Hk Hj).
  assert (Edx : forall x, (x < nk k)%nat -> n_dx N' (i1' k + x)%nat = n_dx N (i1 k + x)%nat)
    by (intros x Hx; apply (en_links _ _ _ HN k x Hk Hx)).
  assert (EB : forall x, (x < nk k)%nat -> g_B G' (i1' k + x)%nat = g_B G (i1 k + x)%nat)
    by (intros x Hx; apply (eg_links _ _ _ _ _ HG k x Hk Hx)).
  destruct (en_ends _ _ _ HN k Hk) as (_ & _ & _ & _ & _ & _ & _ & _ & Du & Dd).
  destruct (eg_ends _ _ _ _ _ HG k Hk) as (_ & _ & Bu & Bd). cbv zeta in *.
  destruct (Nat.eqb_spec j 0).
  - rewrite K4', K4 by lia. rewrite Edx, EB, Du, Bu by lia. reflexivity.
  - destruct (Nat.eqb_spec j (nk k)).
    + rewrite K5', K5 by lia. replace (i1' k + j - 1)%nat with (i1' k + (j - 1))%nat by lia. replace (i1 k + j - 1)%nat with (i1 k + (j - 1))%nat by lia.
      rewrite Edx, EB, Dd, Bd by lia. reflexivity.
    + rewrite K4', K4 by lia. replace (i1' k + j - 1)%nat with (i1' k + (j - 1))%nat by lia. replace (i1 k + j - 1)%nat with (i1 k + (j - 1))%nat by lia.
      rewrite !Edx, !EB by lia. reflexivity.
Qed.

Lemma nodes_embed k j : (k < n_K N)%nat -> (j <= nk k)%nat ->
  u_E u' (I1' k + j)%nat = u_E u (I1 k + j)%nat /\ u_D u' (I1' k + j)%nat = u_D u (I1 k + j)%nat.
Proof.
  intros Hk Hj. destruct Fc as [_ Fn _ _ _ _]. destruct Fc' as [_ Fn' _ _ _ _]. destruct (wf_range _ Hwf k Hk) as [_ R2].
  destruct (wf_range _ Hwf' _ (place_k k Hk)) as [_ R2']. rewrite nk_place in R2' by auto.
  assert (H1 : (I1 k + j < n_J N)%nat) by lia. assert (H2 : (I1' k + j < n_J N')%nat) by lia.
  destruct (node_coeffs_entries _ _ _ _ _ _ _ _ _ _ _ _ _ _ _ _ _ _ _ _ Fn _ H1) as [-> ->].
  destruct (node_coeffs_entries _ _ _ _ _ _ _ _ _ _ _ _ _ _ _ _ _ _ _ _ Fn' _ H2) as [-> ->].
  rewrite (width_embed k j Hk Hj), (HQ0 k j Hk Hj), (es_h _ _ _ _ _ Hsv k j Hk Hj). auto.
Qed.

Lemma theta_raise H z c : theta_k (H + c) (z + c) = theta_k H z.
Proof. unfold theta_k. destruct (Rleb_spec (z + c) (H + c)); destruct (Rleb_spec z H); lra. Qed.

Lemma heads_embed k : (k < n_K N)%nat ->
  u_hu u' (pk F k) = raise_head (pz F) (u_hu u k) /\ u_hd u' (pk F k) = raise_head (pz F) (u_hd u k).
Proof.
  intros Hk. destruct Fc as [_ _ _ _ Fu Fd]. destruct Fc' as [_ _ _ _ Fu' Fd'].
  specialize (Fu k Hk). specialize (Fd k Hk). specialize (Fu' _ (place_k k Hk)). specialize (Fd' _ (place_k k Hk)).
  rewrite (en_bcm _ _ _ HN), Hz in Fu', Fd'. rewrite Hz in Fu, Fd.
  destruct (en_ends _ _ _ HN k Hk) as (_ & _ & J1 & J2 & z1 & z2 & C1 & C2 & _ & _).
  destruct (eg_ends _ _ _ _ _ HG k Hk) as (A1 & A2 & _ & _).
  destruct (es_Qe _ _ _ _ _ Hst k Hk) as (q1 & q2). destruct (wf_ends _ Hwf k Hk) as [W1 W2].
  pose proof (es_H _ _ _ _ _ Hst) as EH. cbv zeta in *.
  unfold upstream_head_coefficients, downstream_head_coefficients in *.
  rewrite J1, z1, C1, A1, q1, EH, theta_raise in Fu' by auto. rewrite J2, z2, C2, A2, q2, EH, theta_raise in Fd' by auto.
  injection Fu as <-. injection Fd as <-. injection Fu' as <-. injection Fd' as <-.
  unfold raise_head. cbn [hk hl hm]. split; f_equal; ring.
Qed.

Lemma setup_embed : embedded_setup F N N' u u'.
Proof.
  assert (CO : forall k, (k < n_K N)%nat ->
    equal_coeffs (ma (u_m u)) (mb (u_m u)) (mc (u_m u)) (mP (u_m u)) (g_A G) (u_E u) (u_D u)
                 (ma (u_m u')) (mb (u_m u')) (mc (u_m u')) (mP (u_m u')) (g_A G') (u_E u') (u_D u') (i1 k) (I1 k) (i1' k) (I1' k) (nk k)).
  { intros k Hk. constructor; cbv zeta; intros j Hj; [|apply nodes_embed; auto].
    destruct (links_embed k j Hk Hj) as (L1 & L2 & L3 & L4). destruct (eg_links _ _ _ _ _ HG k j Hk Hj) as (L5 & _). auto 10. }
  destruct Fc as [_ _ Ff Fb _ _]. destruct Fc' as [_ _ Ff' Fb' _ _].
  pose proof (forward_recurrence_ok _ _ _ _ _ _ _ _ _ _ _ _ _ (wf_layout _ Hwf) Ff) as FE.
  pose proof (forward_recurrence_ok _ _ _ _ _ _ _ _ _ _ _ _ _ (wf_layout _ Hwf') Ff') as FE'.
  pose proof (backward_recurrence_ok _ _ _ _ _ _ _ _ _ _ _ _ _ _ _ (wf_layout _ Hwf) (fun k _ => conj eq_refl eq_refl) Fb) as BE.
  pose proof (backward_recurrence_ok _ _ _ _ _ _ _ _ _ _ _ _ _ _ _ (wf_layout _ Hwf') (fun k _ => conj eq_refl eq_refl) Fb') as BE'.
  constructor.
  - intros k Hk. apply heads_embed; auto.
  - intros k Hk. apply heads_embed; auto.
  - intros k j Hk Hj. apply nodes_embed; auto.
  - intros k j Hk Hj I I'. specialize (CO k Hk). pose proof (proj1 (wf_layout _ Hwf) k Hk) as Hn.
    pose proof (FE' _ (place_k k Hk)) as fe'. pose proof (BE' _ (place_k k Hk)) as be'. rewrite nk_place in fe', be' by auto.
    split; [exact (fwd_embed _ _ _ _ _ _ _ _ _ _ _ _ _ _ _ _ _ _ _ _ _ Hn CO (FE k Hk) fe' j Hj)
           |exact (bwd_embed _ _ _ _ _ _ _ _ _ _ _ _ _ _ _ _ _ _ _ _ _ Hn CO (BE k Hk) be' j Hj)].
Qed.
End Coeffs.

(** ** The new state *)
Variables (u u' : setup).
Hypothesis HU : embedded_setup F N N' u u'.

Lemma flow_embed k : (k < n_K N)%nat -> flow_coeffs N' u' (pk F k) = raise_flow (pz F) (flow_coeffs N u k).
Proof.
  intros Hk. unfold flow_coeffs. rewrite (eu_hu _ _ _ _ _ HU k Hk), (eu_hd _ _ _ _ _ HU k Hk), <- flow_coefficients_raise. f_equal.
  rewrite (en_end_o _ _ _ HN), (nk_place k Hk). pose proof (proj1 (wf_layout _ Hwf) k Hk) as Hn.
  destruct (eu_fb _ _ _ _ _ HU k 0%nat Hk ltac:(lia)) as [_ (b1 & b2 & b3)].
  destruct (eu_fb _ _ _ _ _ HU k (n_nk N k - 1)%nat Hk ltac:(lia)) as [(f1 & f2 & f3) _].
  destruct (eu_DE _ _ _ _ _ HU k 0%nat Hk ltac:(lia)) as [e0 d0]. destruct (eu_DE _ _ _ _ _ HU k (n_nk N k) Hk ltac:(lia)) as [e1 d1].
  rewrite !Nat.add_0_r in b1, b2, b3, e0, d0. unfold end_coeffs.
  replace (n_I1 N k + (n_nk N k - 1))%nat with (n_I1 N k + n_nk N k - 1)%nat in * by lia.
  replace (n_I1 N' (pk F k) + (n_nk N k - 1))%nat with (n_I1 N' (pk F k) + n_nk N k - 1)%nat in * by lia.
  destruct (n_end_o N); rewrite b1, b2, b3, f1, f2, f3, ?e0, ?d0, ?e1, ?d1; reflexivity.
Qed.

Lemma limit_raise z mx H c : limit_head (z + c) mx (H + c) = limit_head z mx H + c.
Proof. unfold limit_head. unfold Rmin, Rmax. repeat destruct (Rle_dec _ _); lra. Qed.

Lemma solve_embed st st' H H' : (forall j, (j < n_M N)%nat -> H' (pj F j) = H j + pz F) ->
  embedded_state F N N' (M_Step.solve_step N u st H) (M_Step.solve_step N' u' st' H').
Proof.
  intros HH.
  set (L := fun j => limit_head (n_zj N j) (n_maxj N j) (H j)). set (L' := fun j => limit_head (n_zj N' j) (n_maxj N' j) (H' j)).
  assert (EL : forall j, (j < n_M N)%nat -> L' (pj F j) = L j + pz F).
  { intros j Hj. unfold L, L'. destruct (en_sup _ _ _ HN j Hj) as (_ & -> & ->). rewrite HH by auto. apply limit_raise. }
  set (Q := fun k => solve_superlink_flows (flow_coeffs N u k) (L (n_Ju N k)) (L (n_Jd N k))).
  set (Q' := fun k => solve_superlink_flows (flow_coeffs N' u' k) (L' (n_Ju N' k)) (L' (n_Jd N' k))).
  set (h := fun k => solve_superlink_depths (u_hu u k) (u_hd u k) (fst (Q k)) (snd (Q k)) (L (n_Ju N k)) (L (n_Jd N k))).
  set (h' := fun k => solve_superlink_depths (u_hu u' k) (u_hd u' k) (fst (Q' k)) (snd (Q' k)) (L' (n_Ju N' k)) (L' (n_Jd N' k))).
  assert (EQ : forall k, (k < n_K N)%nat -> fst (Q' (pk F k)) = fst (Q k) /\ snd (Q' (pk F k)) = snd (Q k)).
  { intros k Hk. unfold Q, Q'. rewrite (flow_embed k Hk). destruct (wf_ends _ Hwf k Hk) as [W1 W2].
    destruct (en_ends _ _ _ HN k Hk) as (_ & _ & -> & -> & _). rewrite !EL by auto. unfold solve_superlink_flows, raise_flow.
    cbn [fst snd au bu cu ad bd cd]. split; ring. }
  assert (Eh : forall k, (k < n_K N)%nat -> fst (h' (pk F k)) = fst (h k) /\ snd (h' (pk F k)) = snd (h k)).
  { intros k Hk. unfold h, h'. destruct (EQ k Hk) as [-> ->]. rewrite (eu_hu _ _ _ _ _ HU k Hk), (eu_hd _ _ _ _ _ HU k Hk).
    destruct (wf_ends _ Hwf k Hk) as [W1 W2]. destruct (en_ends _ _ _ HN k Hk) as (_ & _ & -> & -> & _). rewrite !EL by auto.
    unfold solve_superlink_depths, raise_head. cbn [fst snd hk hl hm]. split; ring. }
  destruct (numba_solve_internals (h_h st, h_Q st) (fun k => fst (h k)) (fun k => snd (h k)) (u_f u) (u_b u)
              (n_i1 N) (n_I1 N) (n_nk N) (n_K N) (n_min N) (n_maxk N) (n_back N)) as [x y] eqn:EI.
  destruct (numba_solve_internals (h_h st', h_Q st') (fun k => fst (h' k)) (fun k => snd (h' k)) (u_f u') (u_b u')
              (n_i1 N') (n_I1 N') (n_nk N') (n_K N') (n_min N') (n_maxk N') (n_back N')) as [x' y'] eqn:EI'.
  assert (Es : M_Step.solve_step N u st H = mkHState L (fun k => fst (Q k)) (fun k => snd (Q k)) (fun I => if Rltb (x I) (n_min N) then n_min N else x I) y).
  { unfold M_Step.solve_step, solve_internals. cbv zeta.
    change (numba_solve_internals (h_h st, h_Q st) _ _ _ _ _ _ _ _ _ _ _) with
      (numba_solve_internals (h_h st, h_Q st) (fun k => fst (h k)) (fun k => snd (h k)) (u_f u) (u_b u)
              (n_i1 N) (n_I1 N) (n_nk N) (n_K N) (n_min N) (n_maxk N) (n_back N)). rewrite EI. reflexivity. }
  assert (Es' : M_Step.solve_step N' u' st' H' = mkHState L' (fun k => fst (Q' k)) (fun k => snd (Q' k)) (fun I => if Rltb (x' I) (n_min N') then n_min N' else x' I) y').
  { unfold M_Step.solve_step, solve_internals. cbv zeta.
    change (numba_solve_internals (h_h st', h_Q st') _ _ _ _ _ _ _ _ _ _ _) with
      (numba_solve_internals (h_h st', h_Q st') (fun k => fst (h' k)) (fun k => snd (h' k)) (u_f u') (u_b u')
              (n_i1 N') (n_I1 N') (n_nk N') (n_K N') (n_min N') (n_maxk N') (n_back N')). rewrite EI'. reflexivity. }
  rewrite Es, Es'. clear Es Es'. rewrite (en_min _ _ _ HN).
  pose proof (numba_solve_internals_eqs _ _ _ _ _ _ _ _ _ _ _ _ _ _ (wf_layout _ Hwf) EI) as IE.
  pose proof (numba_solve_internals_eqs _ _ _ _ _ _ _ _ _ _ _ _ _ _ (wf_layout _ Hwf') EI') as IE'.
  assert (RI : forall k, (k < n_K N)%nat ->
    (forall j, (j <= n_nk N k)%nat -> x' (n_I1 N' (pk F k) + j)%nat = x (n_I1 N k + j)%nat) /\
    (forall j, (j < n_nk N k)%nat -> y' (n_i1 N' (pk F k) + j)%nat = y (n_i1 N k + j)%nat)).
  { intros k Hk. specialize (IE k Hk). specialize (IE' _ (place_k k Hk)). cbv beta in IE, IE'. destruct (Eh k Hk) as [E1 E2]. rewrite E1, E2 in IE'.
    destruct (en_ends _ _ _ HN k Hk) as (n1 & n2 & _). rewrite n1, n2, (en_min _ _ _ HN), (en_back _ _ _ HN) in IE'.
    pose proof (proj1 (wf_layout _ Hwf) k Hk) as Hn.
    exact (internals_embed _ _ _ _ _ _ _ _ _ _ _ _ _ _ _ _ _ _ Hn (fun j Hj => proj1 (eu_fb _ _ _ _ _ HU k j Hk Hj))
             (fun j Hj => proj2 (eu_fb _ _ _ _ _ HU k j Hk Hj)) IE IE'). }
  constructor; cbn [h_H h_Qu h_Qd h_h h_Q]; auto.
  - intros k j Hk Hj. cbn [h_h]. destruct (RI k Hk) as [X _]. rewrite X by auto. reflexivity.
  - intros k j Hk Hj. destruct (RI k Hk) as [_ X]. apply X; auto.
Qed.
End Embed.
