From Verif Require Import Prelude M_Numerics M_Coeffs M_Recurrence M_Assembly M_Step M_Geometry M_Storage M_Controls M_Simulation M_Model
  S_Numerics S_Geometry S_Superlink S_Network S_Step S_Simulation S_Model S_Replay L_Forward L_Backward L_Coeffs L_Assembly L_Step P_Assembly
  P_Superlink P_Wellposed P_Step P_Limits P_Controls L_Model P_Replay.

(** ** Results do not depend on what the arrays held before *)
Lemma conveying_no_old c h0 h1 old old' : conveying c -> section_geometry c h0 h1 old = section_geometry c h0 h1 old'.
Proof.
  destruct c as [s|]; simpl; [|reflexivity]. unfold hydraulic_geometry.
  destruct (shape s) as [|[|[|[|[|[|[|[|[|[|[|n]]]]]]]]]]]; simpl; intros; try contradiction; reflexivity.
Qed.

Lemma all_entries_agree {A : Type} n (d d' : nat -> A) f f' r r' :
  all_entries n d f = Some r -> all_entries n d' f' = Some r' -> (forall k, (k < n)%nat -> f k = f' k) ->
  forall k, (k < n)%nat -> r k = r' k.
Proof.
  intros E E' H k Hk. pose proof (all_entries_spec _ _ _ _ E k Hk) as S. pose proof (all_entries_spec _ _ _ _ E' k Hk) as S'.
  cbv beta in S, S'. rewrite H in S by auto. rewrite S in S'. now injection S'.
Qed.

Lemma for_n_rel {S : Type} (P : S -> S -> Prop) n body body' (s s' : S) :
  P s s' -> (forall i x x', (i < n)%nat -> P x x' -> P (body i x) (body' i x')) -> P (for_n n body s) (for_n n body' s').
Proof.
  intros H0 H. assert (G : forall m, (m <= n)%nat -> P (for_n m body s) (for_n m body' s')).
  { induction m as [|m IH]; intros Hm; simpl; auto. apply H; [lia|]. apply IH; lia. }
  apply G; lia.
Qed.

Section Relate.
Variable D : design.
Local Notation N := (d_net D).
Hypothesis HD : sound D.
Hypothesis HT : tabled D.

(** ** Geometry *)
Definition same_geometry (G G' : geometry) : Prop :=
  (forall i, (i < n_L N)%nat -> g_A G i = g_A G' i /\ g_R G i = g_R G' i /\ g_B G i = g_B G' i) /\
  (forall k, (k < n_K N)%nat -> g_Au G k = g_Au G' k /\ g_Ru G k = g_Ru G' k /\ g_Bu G k = g_Bu G' k /\
                                g_Ad G k = g_Ad G' k /\ g_Rd G k = g_Rd G' k /\ g_Bd G k = g_Bd G' k) /\
  (forall j, (j < n_M N)%nat -> g_Asj G j = g_Asj G' j).

Lemma geometries_alike b b' g g' : alike D b b' -> geometries D b = Some g -> geometries D b' = Some g' ->
  same_geometry (geometry_of g) (geometry_of g').
Proof.
  intros Al E E'. destruct (geometries_inv D _ _ E) as (El & Eu & Ed & EA & _). destruct (geometries_inv D _ _ E') as (El' & Eu' & Ed' & EA' & _).
  destruct Al as [Hst _ _ _ Hu Hd]. destruct Hst as [SH _ Sh _].
  destruct HD as [Wf Z Mn Ln Nd En St Or We Pu]. destruct HT as [TI _ _].
  assert (A1 : forall i, (i < n_L N)%nat -> b_gl g i = b_gl g' i).
  { apply (all_entries_agree _ _ _ _ _ _ _ El El'). intros i Hi. cbv beta zeta. pose proof (TI i Hi).
    rewrite (Sh (d_Ik D i)), (Sh (d_Ik D i + 1)%nat) by lia. apply conveying_no_old. apply Ln; auto. }
  assert (A2 : forall k, (k < n_K N)%nat -> b_gu g k = b_gu g' k).
  { apply (all_entries_agree _ _ _ _ _ _ _ Eu Eu'). intros k Hk. cbv beta.
    destruct (wf_range _ Wf k Hk). destruct (wf_ends _ Wf k Hk). pose proof (proj1 (wf_layout _ Wf) k Hk).
    rewrite (Sh (n_I1 N k)), (SH (n_Ju N k)), (Hu k) by (auto; lia). apply conveying_no_old. apply Ln; lia. }
  assert (A3 : forall k, (k < n_K N)%nat -> b_gd g k = b_gd g' k).
  { apply (all_entries_agree _ _ _ _ _ _ _ Ed Ed'). intros k Hk. cbv beta.
    destruct (wf_range _ Wf k Hk). destruct (wf_ends _ Wf k Hk). pose proof (proj1 (wf_layout _ Wf) k Hk).
    rewrite (Sh (n_I1 N k + n_nk N k)%nat), (SH (n_Jd N k)), (Hd k) by (auto; lia). apply conveying_no_old. apply Ln; lia. }
  assert (A4 : forall j, (j < n_M N)%nat -> b_As g j = b_As g' j).
  { apply (all_entries_agree _ _ _ _ _ _ _ EA EA'). intros j Hj. cbv beta. rewrite (SH j) by auto. reflexivity. }
  split; [|split].
  - intros i Hi. cbn. rewrite (A1 i Hi). auto.
  - intros k Hk. cbn. rewrite (A2 k Hk), (A3 k Hk). auto 10.
  - intros j Hj. cbn. auto.
Qed.

(** ** Coefficients *)
Record same_setup (u u' : setup) : Prop := mkSame {
  ss_hu : forall k, (k < n_K N)%nat -> u_hu u k = u_hu u' k;
  ss_hd : forall k, (k < n_K N)%nat -> u_hd u k = u_hd u' k;
  ss_DE : forall k j, (k < n_K N)%nat -> (j <= n_nk N k)%nat ->
    u_D u (n_I1 N k + j)%nat = u_D u' (n_I1 N k + j)%nat /\ u_E u (n_I1 N k + j)%nat = u_E u' (n_I1 N k + j)%nat;
  ss_f : forall k j, (k < n_K N)%nat -> (j < n_nk N k)%nat ->
    fU (u_f u) (n_I1 N k + j)%nat = fU (u_f u') (n_I1 N k + j)%nat /\ fV (u_f u) (n_I1 N k + j)%nat = fV (u_f u') (n_I1 N k + j)%nat /\
    fW (u_f u) (n_I1 N k + j)%nat = fW (u_f u') (n_I1 N k + j)%nat;
  ss_b : forall k j, (k < n_K N)%nat -> (j < n_nk N k)%nat ->
    bX (u_b u) (n_I1 N k + j)%nat = bX (u_b u') (n_I1 N k + j)%nat /\ bY (u_b u) (n_I1 N k + j)%nat = bY (u_b u') (n_I1 N k + j)%nat /\
    bZ (u_b u) (n_I1 N k + j)%nat = bZ (u_b u') (n_I1 N k + j)%nat }.

Lemma setup_alike G G' w w' st st' sv sv' Q0 dt u u' :
  same_geometry G G' -> same_state N st st' -> same_state N sv sv' ->
  setup_step N G w st sv Q0 dt = Some u -> setup_step N G' w' st' sv' Q0 dt = Some u' -> same_setup u u'.
Proof.
  intros (GL & GE & GS) Hst Hsv Eu Eu'. destruct Hst as [SH SQe Sh SQ]. destruct Hsv as [VH VQe Vh VQ].
  destruct HD as [Wf Z Mn Ln Nd En St Or We Pu]. destruct HT as [TI TL _].
  pose proof (setup_facts_ok _ _ _ _ _ _ _ _ Eu) as [Fm Fn Ff Fb Fhu Fhd].
  pose proof (setup_facts_ok _ _ _ _ _ _ _ _ Eu') as [Fm' Fn' Ff' Fb' Fhu' Fhd'].
  destruct (link_coeffs_entries _ _ _ _ _ _ Fm) as (Ea & Ec & EP & Eb). destruct (link_coeffs_entries _ _ _ _ _ _ Fm') as (Ea' & Ec' & EP' & Eb').
  cbn [links_of l_dx l_n l_Q l_Qp l_A l_R l_B l_So l_Ac l_C l_ctrl l_start l_end l_sf] in Ea, Ec, EP, Eb, Ea', Ec', EP', Eb'.
  assert (Uv : forall i, (i < n_L N)%nat -> u_ik (h_Q st i) (g_A G i) = u_ik (h_Q st' i) (g_A G' i)).
  { intros i Hi. destruct (GL i Hi) as (-> & _ & _). rewrite (SQ i) by auto. reflexivity. }
  assert (Us : forall i, (i < n_L N)%nat -> damping (n_damp N) (u_ik (h_Q st i) (g_A G i)) (g_A G i) (g_B G i)
                                          = damping (n_damp N) (u_ik (h_Q st' i) (g_A G' i)) (g_A G' i) (g_B G' i)).
  { intros i Hi. rewrite Uv by auto. destruct (GL i Hi) as (-> & _ & ->). reflexivity. }
  assert (Ma : forall i, (i < n_L N)%nat -> ma (u_m u) i = ma (u_m u') i).
  { intros i Hi. rewrite Ea, Ea'. rewrite Us by auto. f_equal. unfold u_Ik. destruct (n_lstart N i); [auto|].
    cbv zeta. rewrite (Uv i), (Uv (i - 1)%nat) by lia. reflexivity. }
  assert (Mc : forall i, (i < n_L N)%nat -> mc (u_m u) i = mc (u_m u') i).
  { intros i Hi. rewrite Ec, Ec'. rewrite Us by auto. f_equal. unfold u_Ip1k. destruct (n_lend N i) eqn:El; [auto|].
    cbv zeta. destruct (TL i Hi) as [T|T]; [congruence|]. rewrite (Uv i), (Uv (i + 1)%nat) by lia. reflexivity. }
  assert (MP : forall i, (i < n_L N)%nat -> mP (u_m u) i = mP (u_m u') i).
  { intros i Hi. rewrite EP, EP'. rewrite Us by auto. destruct (GL i Hi) as (-> & _ & _). rewrite VQ by auto. reflexivity. }
  assert (Mb : forall i, (i < n_L N)%nat -> mb (u_m u) i = mb (u_m u') i).
  { intros i Hi. specialize (Eb i Hi). specialize (Eb' i Hi). rewrite Us, Ma, Mc in Eb by auto.
    destruct (GL i Hi) as (X1 & X2 & _). rewrite X1, X2, SQ in Eb by auto. rewrite Eb in Eb'. now injection Eb'. }
  assert (DE : forall k j, (k < n_K N)%nat -> (j <= n_nk N k)%nat ->
    u_D u (n_I1 N k + j)%nat = u_D u' (n_I1 N k + j)%nat /\ u_E u (n_I1 N k + j)%nat = u_E u' (n_I1 N k + j)%nat).
  { intros k j Hk Hj. destruct (wf_range _ Wf k Hk) as [R1 R2]. pose proof (proj1 (wf_layout _ Wf) k Hk) as R3.
    assert (HI : (n_I1 N k + j < n_J N)%nat) by lia.
    destruct (node_coeffs_entries _ _ _ _ _ _ _ _ _ _ _ _ _ _ _ _ _ _ _ _ Fn _ HI) as [-> ->].
    destruct (node_coeffs_entries _ _ _ _ _ _ _ _ _ _ _ _ _ _ _ _ _ _ _ _ Fn' _ HI) as [-> ->].
    assert (NW : node_width (g_B G) (n_dx N) (n_ASI N) (g_Bu G) (g_Bd G) (n_dxu N) (n_dxd N) (n_kI N) (n_fwdi N) (n_bwdi N) (n_isS N) (n_isE N) (n_I1 N k + j)
               = node_width (g_B G') (n_dx N) (n_ASI N) (g_Bu G') (g_Bd G') (n_dxu N) (n_dxd N) (n_kI N) (n_fwdi N) (n_bwdi N) (n_isS N) (n_isE N) (n_I1 N k + j)).
    { unfold node_width. destruct (wf_chain _ Wf k j Hk Hj) as (K1 & K2 & K3 & K4 & K5). rewrite K1, K2, K3.
      destruct (GE k Hk) as (_ & _ & Bu & _ & _ & Bd).
      destruct (Nat.eqb_spec j 0).
      - rewrite K4 by lia. rewrite Bu. destruct (GL (n_i1 N k + j)%nat ltac:(lia)) as (_ & _ & ->). reflexivity.
      - destruct (Nat.eqb_spec j (n_nk N k)).
        + rewrite K5 by lia. rewrite Bd. destruct (GL (n_i1 N k + j - 1)%nat ltac:(lia)) as (_ & _ & ->). reflexivity.
        + rewrite K4 by lia. destruct (GL (n_i1 N k + j)%nat ltac:(lia)) as (_ & _ & ->).
          destruct (GL (n_i1 N k + j - 1)%nat ltac:(lia)) as (_ & _ & ->). reflexivity. }
    rewrite NW, Vh by auto. auto. }
  constructor; auto.
  - intros k Hk. pose proof (Fhu k Hk) as X. pose proof (Fhu' k Hk) as X'. destruct (GE k Hk) as (A1 & A2 & _).
    destruct (wf_ends _ Wf k Hk). destruct (SQe k Hk) as [q _]. destruct (VQe k Hk) as [q' _].
    rewrite A1, A2, q, q', SH in X by auto. rewrite X in X'. now injection X'.
  - intros k Hk. pose proof (Fhd k Hk) as X. pose proof (Fhd' k Hk) as X'. destruct (GE k Hk) as (_ & _ & _ & A1 & A2 & _).
    destruct (wf_ends _ Wf k Hk). destruct (SQe k Hk) as [_ q]. destruct (VQe k Hk) as [_ q'].
    rewrite A1, A2, q, q', SH in X by auto. rewrite X in X'. now injection X'.
  - intros k j Hk Hj. destruct (wf_range _ Wf k Hk) as [R1 R2]. pose proof (proj1 (wf_layout _ Wf) k Hk) as R3.
    pose proof (forward_recurrence_ok _ _ _ _ _ _ _ _ _ _ _ _ _ (wf_layout _ Wf) Ff k Hk) as [T0 U0 V0 W0 FT FU FV FW].
    pose proof (forward_recurrence_ok _ _ _ _ _ _ _ _ _ _ _ _ _ (wf_layout _ Wf) Ff' k Hk) as [T0' U0' V0' W0' FT' FU' FV' FW'].
    assert (AG : forall i, (i < n_L N)%nat -> g_A G i = g_A G' i) by (intros i Hi; apply (GL i Hi)).
    induction j as [|j IH].
    + rewrite Nat.add_0_r. destruct (DE k 0%nat Hk ltac:(lia)) as [d0 e0]. destruct (DE k 1%nat Hk ltac:(lia)) as [d1 e1].
      rewrite Nat.add_0_r in d0, e0.
      assert (T : fT (u_f u) (n_i1 N k) = fT (u_f u') (n_i1 N k)) by (rewrite T0, T0', Ma, Mb, Mc by lia; reflexivity).
      rewrite U0, U0', V0, V0', W0, W0', T, Ma, Mc, MP, AG, d0, e0, d1, e1 by lia. auto.
    + destruct (IH ltac:(lia)) as (I1' & I2' & I3'). clear IH.
      destruct (DE k (S j) Hk ltac:(lia)) as [d0 e0]. destruct (DE k (S (S j)) Hk ltac:(lia)) as [d1 e1].
      specialize (FT j ltac:(lia)). specialize (FU j ltac:(lia)). specialize (FV j ltac:(lia)). specialize (FW j ltac:(lia)).
      specialize (FT' j ltac:(lia)). specialize (FU' j ltac:(lia)). specialize (FV' j ltac:(lia)). specialize (FW' j ltac:(lia)).
      assert (T : fT (u_f u) (n_i1 N k + S j)%nat = fT (u_f u') (n_i1 N k + S j)%nat).
      { rewrite FT, FT', Ma, Mb, Mc, AG, e0, I1' by lia. reflexivity. }
      rewrite FU, FU', FW, FW', T, Ma, Mc, AG, e0, e1, I1', I3' by lia. split; [auto|]. split; [|auto].
      rewrite Ma, Mc, MP, AG, d0, d1, e0, I1', I2', T in FV by lia. rewrite <- FV in FV'. now injection FV'.
  - intros k j Hk Hj. destruct (wf_range _ Wf k Hk) as [R1 R2]. pose proof (proj1 (wf_layout _ Wf) k Hk) as R3.
    pose proof (backward_recurrence_ok _ _ _ _ _ _ _ _ _ _ _ _ _ _ _ (wf_layout _ Wf) (fun k _ => conj eq_refl eq_refl) Fb k Hk) as [O0 X0 Y0 Z0 BO BX BY BZ].
    pose proof (backward_recurrence_ok _ _ _ _ _ _ _ _ _ _ _ _ _ _ _ (wf_layout _ Wf) (fun k _ => conj eq_refl eq_refl) Fb' k Hk) as [O0' X0' Y0' Z0' BO' BX' BY' BZ'].
    assert (AG : forall i, (i < n_L N)%nat -> g_A G i = g_A G' i) by (intros i Hi; apply (GL i Hi)).
    assert (B : forall t, (t < n_nk N k)%nat -> let j := (n_nk N k - 1 - t)%nat in
      bX (u_b u) (n_I1 N k + j)%nat = bX (u_b u') (n_I1 N k + j)%nat /\ bY (u_b u) (n_I1 N k + j)%nat = bY (u_b u') (n_I1 N k + j)%nat /\
      bZ (u_b u) (n_I1 N k + j)%nat = bZ (u_b u') (n_I1 N k + j)%nat).
    2:{ specialize (B (n_nk N k - 1 - j)%nat ltac:(lia)). cbv zeta in B. replace (n_nk N k - 1 - (n_nk N k - 1 - j))%nat with j in B by lia. exact B. }
    induction t as [|t IH]; intros Ht; cbv zeta.
    + replace (n_I1 N k + (n_nk N k - 1 - 0))%nat with (n_I1 N k + n_nk N k - 1)%nat by lia.
      destruct (DE k (n_nk N k - 1)%nat Hk ltac:(lia)) as [d0 e0]. destruct (DE k (n_nk N k) Hk ltac:(lia)) as [d1 e1].
      replace (n_I1 N k + (n_nk N k - 1))%nat with (n_I1 N k + n_nk N k - 1)%nat in d0, e0 by lia.
      assert (T : bO (u_b u) (n_i1 N k + n_nk N k - 1)%nat = bO (u_b u') (n_i1 N k + n_nk N k - 1)%nat)
        by (rewrite O0, O0', Ma, Mb, Mc by lia; reflexivity).
      rewrite X0, X0', Y0, Y0', Z0, Z0', T, Ma, Mc, MP, AG, d0, e0, d1, e1 by lia. auto.
    + specialize (IH ltac:(lia)). cbv zeta in IH. set (j' := (n_nk N k - 1 - S t)%nat) in *.
      replace (n_nk N k - 1 - t)%nat with (S j') in IH by (unfold j'; lia). destruct IH as (I1' & I2' & I3').
      assert (Hj' : (S j' < n_nk N k)%nat) by (unfold j'; lia).
      destruct (DE k j' Hk ltac:(lia)) as [d0 e0]. destruct (DE k (S j') Hk ltac:(lia)) as [d1 e1].
      specialize (BO j' ltac:(lia) Hj'). specialize (BX j' ltac:(lia) Hj'). specialize (BY j' ltac:(lia) Hj'). specialize (BZ j' ltac:(lia) Hj').
      specialize (BO' j' ltac:(lia) Hj'). specialize (BX' j' ltac:(lia) Hj'). specialize (BY' j' ltac:(lia) Hj'). specialize (BZ' j' ltac:(lia) Hj').
      assert (T : bO (u_b u) (n_i1 N k + j')%nat = bO (u_b u') (n_i1 N k + j')%nat).
      { rewrite BO, BO', Ma, Mb, Mc, AG, e1, I1' by lia. reflexivity. }
      rewrite BX, BX', BZ, BZ', T, Ma, Mc, AG, e0, e1, I1', I3' by lia. split; [auto|]. split; [|auto].
      rewrite Ma, Mc, MP, AG, d0, d1, e1, I1', I2', T in BY by lia. rewrite <- BY in BY'. now injection BY'.
Qed.

Lemma flow_coeffs_alike u u' k : same_setup u u' -> (k < n_K N)%nat -> flow_coeffs N u k = flow_coeffs N u' k.
Proof.
  intros [Hu Hd DE Sf Sb] Hk. pose proof (proj1 (wf_layout _ (sd_wf _ HD)) k Hk) as R3.
  unfold flow_coeffs. rewrite Hu, Hd by auto. f_equal. unfold end_coeffs.
  destruct (Sb k 0%nat Hk ltac:(lia)) as (x & y & z). rewrite Nat.add_0_r in x, y, z.
  destruct (Sf k (n_nk N k - 1)%nat Hk ltac:(lia)) as (p & q & r).
  replace (n_I1 N k + (n_nk N k - 1))%nat with (n_I1 N k + n_nk N k - 1)%nat in p, q, r by lia.
  destruct (DE k 0%nat Hk ltac:(lia)) as [d0 e0]. destruct (DE k (n_nk N k) Hk ltac:(lia)) as [d1 e1]. rewrite Nat.add_0_r in d0, e0.
  rewrite x, y, z, p, q, r, d0, e0, d1, e1. reflexivity.
Qed.

(** ** New state *)
Lemma solve_alike u u' st st' H H' : same_setup u u' -> same_state N st st' -> (forall j, (j < n_M N)%nat -> H j = H' j) ->
  same_state N (M_Step.solve_step N u st H) (M_Step.solve_step N u' st' H').
Proof.
  intros Su Hst HH. destruct HD as [Wf Z Mn Ln Nd En St Or We Pu].
  assert (EH : forall j, (j < n_M N)%nat -> limit_head (n_zj N j) (n_maxj N j) (H j) = limit_head (n_zj N j) (n_maxj N j) (H' j)).
  { intros j Hj. now rewrite HH. }
  set (L := fun j => limit_head (n_zj N j) (n_maxj N j) (H j)). set (L' := fun j => limit_head (n_zj N j) (n_maxj N j) (H' j)).
  set (Q := fun k => solve_superlink_flows (flow_coeffs N u k) (L (n_Ju N k)) (L (n_Jd N k))).
  set (Q' := fun k => solve_superlink_flows (flow_coeffs N u' k) (L' (n_Ju N k)) (L' (n_Jd N k))).
  assert (EQ : forall k, (k < n_K N)%nat -> Q k = Q' k).
  { intros k Hk. unfold Q, Q'. destruct (wf_ends _ Wf k Hk). rewrite (flow_coeffs_alike u u' k Su Hk). unfold L, L'. rewrite !EH by auto. reflexivity. }
  set (h := fun k => solve_superlink_depths (u_hu u k) (u_hd u k) (fst (Q k)) (snd (Q k)) (L (n_Ju N k)) (L (n_Jd N k))).
  set (h' := fun k => solve_superlink_depths (u_hu u' k) (u_hd u' k) (fst (Q' k)) (snd (Q' k)) (L' (n_Ju N k)) (L' (n_Jd N k))).
  assert (Eh : forall k, (k < n_K N)%nat -> h k = h' k).
  { intros k Hk. unfold h, h'. destruct (wf_ends _ Wf k Hk). rewrite EQ by auto. rewrite (ss_hu _ _ Su k Hk), (ss_hd _ _ Su k Hk).
    unfold L, L'. rewrite !EH by auto. reflexivity. }
  set (P := fun (x x' : arr * arr) => (forall I, (I < n_J N)%nat -> fst x I = fst x' I) /\ (forall i, (i < n_L N)%nat -> snd x i = snd x' i)).
  assert (RI : P (numba_solve_internals (h_h st, h_Q st) (fun k => fst (h k)) (fun k => snd (h k)) (u_f u) (u_b u)
                    (n_i1 N) (n_I1 N) (n_nk N) (n_K N) (n_min N) (n_maxk N) (n_back N))
                 (numba_solve_internals (h_h st', h_Q st') (fun k => fst (h' k)) (fun k => snd (h' k)) (u_f u') (u_b u')
                    (n_i1 N) (n_I1 N) (n_nk N) (n_K N) (n_min N) (n_maxk N) (n_back N))).
  { unfold numba_solve_internals. apply for_n_rel.
    { destruct Hst as [_ _ Sh SQ]. split; auto. }
    intros k [x y] [x' y'] Hk [PX PY]. cbn [fst snd] in PX, PY. rewrite Eh by auto.
    destruct (wf_range _ Wf k Hk) as [R1 R2]. pose proof (proj1 (wf_layout _ Wf) k Hk) as R3.
    unfold internals_superlink.
    set (hu := fst (h' k)). set (hd := snd (h' k)).
    set (x1 := upd (upd x (n_I1 N k) hu) (n_I1 N k + n_nk N k)%nat hd). set (x1' := upd (upd x' (n_I1 N k) hu) (n_I1 N k + n_nk N k)%nat hd).
    assert (P1 : P (x1, y) (x1', y')).
    { split; cbn [fst snd]; auto. intros I HI. unfold x1, x1', upd. destruct (Nat.eqb I (n_I1 N k + n_nk N k)); auto. destruct (Nat.eqb I (n_I1 N k)); auto. }
    assert (P2 : P (for_n (n_nk N k - 1) (fun j s => internals_next (u_f u) (u_b u) hu hd (n_min N) (n_maxk N k) (n_i1 N k + n_nk N k - 1 - j)%nat
                       (n_I1 N k + n_nk N k - 1 - j)%nat s) (x1, y))
                   (for_n (n_nk N k - 1) (fun j s => internals_next (u_f u') (u_b u') hu hd (n_min N) (n_maxk N k) (n_i1 N k + n_nk N k - 1 - j)%nat
                       (n_I1 N k + n_nk N k - 1 - j)%nat s) (x1', y'))).
    { apply for_n_rel; auto. intros j [p q] [p' q'] Hj [PP PQ]. cbn [fst snd] in PP, PQ. unfold internals_next.
      destruct (ss_f _ _ Su k (n_nk N k - 1 - j)%nat Hk ltac:(lia)) as (f1 & f2 & f3).
      destruct (ss_b _ _ Su k (n_nk N k - 1 - j)%nat Hk ltac:(lia)) as (b1 & b2 & b3).
      replace (n_I1 N k + (n_nk N k - 1 - j))%nat with (n_I1 N k + n_nk N k - 1 - j)%nat in f1, f2, f3, b1, b2, b3 by lia.
      rewrite !upd_eq. rewrite f1, f2, f3, b1, b2, b3. rewrite (PP (n_I1 N k + n_nk N k - 1 - j + 1)%nat) by lia.
      split; cbn [fst snd]; intros t Ht; unfold upd.
      - destruct (Nat.eqb t (n_I1 N k + n_nk N k - 1 - j)); auto.
      - destruct (Nat.eqb t (n_i1 N k + n_nk N k - 1 - j)); auto. }
    destruct (for_n (n_nk N k - 1) (fun j s => internals_next (u_f u) _ _ _ _ _ _ _ s) (x1, y)) as [p q].
    destruct (for_n (n_nk N k - 1) (fun j s => internals_next (u_f u') _ _ _ _ _ _ _ s) (x1', y')) as [p' q'].
    destruct P2 as [PP PQ]. cbn [fst snd] in PP, PQ.
    destruct (ss_f _ _ Su k 0%nat Hk ltac:(lia)) as (f1 & f2 & f3). destruct (ss_b _ _ Su k 0%nat Hk ltac:(lia)) as (b1 & b2 & b3).
    rewrite Nat.add_0_r in f1, f2, f3, b1, b2, b3.
    destruct (n_back N); split; cbn [fst snd]; auto; intros t Ht; unfold upd; destruct (Nat.eqb t (n_i1 N k)); auto.
    - rewrite b1, b2, b3, (PP (n_I1 N k)) by lia. reflexivity.
    - rewrite f1, f2, f3, (PP (n_I1 N k + 1)%nat) by lia. reflexivity. }
  unfold M_Step.solve_step. fold L L'.
  change (same_state N
    (mkHState L (fun k => fst (Q k)) (fun k => snd (Q k))
       (fst (solve_internals (n_back N) (h_h st, h_Q st) (fun k => fst (h k)) (fun k => snd (h k)) (u_f u) (u_b u) (n_i1 N) (n_I1 N) (n_nk N) (n_K N) (n_min N) (n_maxk N)))
       (snd (solve_internals (n_back N) (h_h st, h_Q st) (fun k => fst (h k)) (fun k => snd (h k)) (u_f u) (u_b u) (n_i1 N) (n_I1 N) (n_nk N) (n_K N) (n_min N) (n_maxk N))))
    (mkHState L' (fun k => fst (Q' k)) (fun k => snd (Q' k))
       (fst (solve_internals (n_back N) (h_h st', h_Q st') (fun k => fst (h' k)) (fun k => snd (h' k)) (u_f u') (u_b u') (n_i1 N) (n_I1 N) (n_nk N) (n_K N) (n_min N) (n_maxk N)))
       (snd (solve_internals (n_back N) (h_h st', h_Q st') (fun k => fst (h' k)) (fun k => snd (h' k)) (u_f u') (u_b u') (n_i1 N) (n_I1 N) (n_nk N) (n_K N) (n_min N) (n_maxk N))))).
  unfold solve_internals.
  destruct (numba_solve_internals (h_h st, h_Q st) _ _ _ _ _ _ _ _ _ _ _) as [a b]. destruct (numba_solve_internals (h_h st', h_Q st') _ _ _ _ _ _ _ _ _ _ _) as [a' b'].
  destruct RI as [RA RB]. cbn [fst snd] in *.
  constructor; cbn [h_H h_Qu h_Qd h_h h_Q]; auto.
  - intros k Hk. rewrite EQ by auto. auto.
  - intros I HI. rewrite RA by auto. reflexivity.
Qed.

(** ** Controls and the assembled system *)
Lemma volumes_alike st st' d d' V V' : same_state N st st' ->
  storage_volumes D st d = Some V -> storage_volumes D st' d' = Some V' -> forall j, (j < n_M N)%nat -> V j = V' j.
Proof.
  intros [SH _ _ _] E E'. apply (all_entries_agree _ _ _ _ _ _ _ E E'). intros j Hj. cbv beta. now rewrite SH.
Qed.

Lemma orifice_areas_alike st st' uo d d' A A' : same_state N st st' ->
  orifice_areas D st uo d = Some A -> orifice_areas D st' uo d' = Some A' -> forall o, (o < o_n (d_or D))%nat -> A o = A' o.
Proof.
  intros [SH _ _ _] E E'. apply (all_entries_agree _ _ _ _ _ _ _ E E'). intros o Ho. cbv beta zeta.
  destruct (proj1 (sd_or _ HD) o Ho). rewrite !SH by auto. pose proof (tb_or _ HT o Ho) as C.
  destruct (d_ocode D o) as [|[|[|[|[|[|[|[|[|[|n]]]]]]]]]]; try lia; reflexivity.
Qed.

Definition same_controls (C C' : controls) : Prop :=
  c_n C = c_n C' /\ c_Ju C = c_Ju C' /\ c_Jd C = c_Jd C' /\
  (forall k, (k < c_n C)%nat -> c_a C k = c_a C' k /\ c_b C k = c_b C' k /\ c_c C k = c_c C' k).

Lemma controls_entry C C' i j : same_controls C C' ->
  entry (n_bc N) 0 (diag_C C) (c_Ju C) (c_Jd C) (c_a C) (c_b C) (c_n C) i j
  = entry (n_bc N) 0 (diag_C C') (c_Ju C') (c_Jd C') (c_a C') (c_b C') (c_n C') i j.
Proof.
  intros (En & Eu & Ed & Ec). unfold entry, diag_C. rewrite <- En, <- Eu, <- Ed. destruct (n_bc N i); [reflexivity|].
  f_equal; [f_equal|].
  - destruct (Nat.eqb i j); [|reflexivity]. f_equal; apply sum_if_ext; intros k Hk; destruct (Ec k Hk) as (A1 & A2 & A3); split; auto; intros _; congruence.
  - apply sum_if_ext; intros k Hk; destruct (Ec k Hk) as (A1 & A2 & A3); split; auto.
  - apply sum_if_ext; intros k Hk; destruct (Ec k Hk) as (A1 & A2 & A3); split; auto.
Qed.
Lemma controls_rhs C C' j : same_controls C C' -> rhs_C C j = rhs_C C' j.
Proof.
  intros (En & Eu & Ed & Ec). unfold rhs_C. rewrite <- En, <- Eu, <- Ed.
  f_equal; apply sum_if_ext; intros k Hk; destruct (Ec k Hk) as (A1 & A2 & A3); split; auto; intros _; congruence.
Qed.

(** What a pass works on after [_setup_step]. *)
Record prepared (b b' : body) : Prop := mkPrepared {
  pr_al : alike D b b';
  pr_cf : same_setup (b_cf b) (b_cf b');
  pr_V : forall j, (j < n_M N)%nat -> b_Vs b j = b_Vs b' j;
  pr_A : forall o, (o < o_n (d_or D))%nat -> b_Ao b o = b_Ao b' o;
  pr_M : forall i j, (i < n_M N)%nat -> (j < n_M N)%nat ->
    system_matrix (o_n (d_or D)) (w_n (d_we D)) (p_n (d_pu D)) (b_sys b) i j
    = system_matrix (o_n (d_or D)) (w_n (d_we D)) (p_n (d_pu D)) (b_sys b') i j;
  pr_b : forall j, (j < n_M N)%nat -> s_b (b_sys b) j = s_b (b_sys b') j }.

Lemma setup_body_alike i dt sv sv' b b' b1 b1' : alike D b b' -> same_state N sv sv' -> reached D (b_sys b) -> reached D (b_sys b') ->
  setup_body D i dt sv b = Some b1 -> setup_body D i dt sv' b' = Some b1' -> prepared b1 b1'.
Proof.
  intros Al Hsv Rc Rc' E E'.
  destruct (setup_body_inv D _ _ _ _ _ E) as (bg & Vs & Ao & u & Eg & EV & EO & Eu & Eb).
  destruct (setup_body_inv D _ _ _ _ _ E') as (bg' & Vs' & Ao' & u' & Eg' & EV' & EO' & Eu' & Eb').
  pose proof (geometries_alike _ _ _ _ Al Eg Eg') as SG.
  destruct Al as [Hst AQo AQw AQp Au Ad].
  pose proof (setup_alike _ _ _ _ _ _ _ _ _ _ _ _ SG Hst Hsv Eu Eu') as SU.
  pose proof (volumes_alike _ _ _ _ _ _ Hst EV EV') as SV.
  pose proof (orifice_areas_alike _ _ _ _ _ _ _ Hst EO EO') as SA.
  pose proof (st_H _ _ _ Hst) as SH.
  unfold controls_of in Eb, Eb'.
  set (CO := orifice_controls (with_areas D Ao) (b_Qo b) (i_uo i) (h_H (b_st b)) (n_zj N)) in *.
  set (CO' := orifice_controls (with_areas D Ao') (b_Qo b') (i_uo i) (h_H (b_st b')) (n_zj N)) in *.
  set (CW := weir_controls (d_we D) (b_Qw b) (i_uw i) (h_H (b_st b)) (n_zj N)) in *.
  set (CW' := weir_controls (d_we D) (b_Qw b') (i_uw i) (h_H (b_st b')) (n_zj N)) in *.
  set (CP := pump_controls (d_pu D) (b_Qp b) (i_up i) (h_H (b_st b)) (n_zj N)) in *.
  set (CP' := pump_controls (d_pu D) (b_Qp b') (i_up i) (h_H (b_st b')) (n_zj N)) in *.
  assert (S1 : same_controls CO CO').
  { split; [reflexivity|]. split; [reflexivity|]. split; [reflexivity|]. intros k Hk. cbn in Hk. destruct (proj1 (sd_or _ HD) k Hk).
    cbn. rewrite !SH, AQo, SA by auto. auto. }
  assert (S2 : same_controls CW CW').
  { split; [reflexivity|]. split; [reflexivity|]. split; [reflexivity|]. intros k Hk. cbn in Hk. destruct (sd_we _ HD k Hk).
    cbn [c_a c_b c_c CW CW' weir_controls from_coeffs]. rewrite !SH, AQw by auto. auto. }
  assert (S3 : same_controls CP CP').
  { split; [reflexivity|]. split; [reflexivity|]. split; [reflexivity|]. intros k Hk. cbn in Hk. destruct (proj1 (sd_pu _ HD) k Hk).
    cbn [c_a c_b c_c CP CP' pump_controls from_coeffs]. rewrite !SH, AQp by auto. auto. }
  set (K := superlinks_of N (geometry_of bg) u) in *. set (K' := superlinks_of N (geometry_of bg') u') in *.
  destruct SG as (GL & GE & GS). cbn [g_Asj geometry_of] in GS.
  assert (SK : forall k, (k < n_K N)%nat -> k_au K k = k_au K' k /\ k_bu K k = k_bu K' k /\ k_cu K k = k_cu K' k /\
    k_ad K k = k_ad K' k /\ k_bd K k = k_bd K' k /\ k_cd K k = k_cd K' k /\ xi_u K dt k = xi_u K' dt k /\ xi_d K dt k = xi_d K' dt k).
  { intros k Hk. unfold K, K', xi_u, xi_d, superlinks_of. cbn [k_au k_bu k_cu k_ad k_bd k_cd k_dxu k_Bu k_thu k_dxd k_Bd k_thd].
    rewrite (flow_coeffs_alike u u' k SU Hk), (ss_hu _ _ SU k Hk), (ss_hd _ _ SU k Hk).
    destruct (GE k Hk) as (_ & _ & -> & _ & _ & ->). auto 10. }
  assert (Rk : forall CO CW CP u bg s, c_n CO = o_n (d_or D) -> c_Ju CO = o_Ju (d_or D) -> c_Jd CO = o_Jd (d_or D) ->
     c_n CW = w_n (d_we D) -> c_Ju CW = w_Ju (d_we D) -> c_Jd CW = w_Jd (d_we D) ->
     c_n CP = p_n (d_pu D) -> c_Ju CP = p_Ju (d_pu D) -> c_Jd CP = p_Jd (d_pu D) ->
     reached D s -> clean_system (n_M N) (n_bc N) (superlinks_of N (geometry_of bg) u) CO CW CP s).
  { clear. intros CO CW CP u bg s o1 o2 o3 w1 w2 w3 p1 p2 p3 Hr. apply reachable_clean.
    refine (reachable_transfer _ _ _ _ _ _ _ _ _ _ _ _ Hr).
    split; [reflexivity|]. split; [reflexivity|]. split; [reflexivity|]. cbn [map]. rewrite o1, o2, o3, w1, w2, w3, p1, p2, p3. split; [|split]; reflexivity. }
  destruct (assembly_ok (n_M N) (n_bc N) K CO CW CP (b_As bg) (h_H sv) (i_Hbc i) (i_Qin i) dt (b_sys b)) as (_ & En & Er); [apply Rk; auto|].
  destruct (assembly_ok (n_M N) (n_bc N) K' CO' CW' CP' (b_As bg') (h_H sv') (i_Hbc i) (i_Qin i) dt (b_sys b')) as (_ & En' & Er'); [apply Rk; auto|].
  assert (EnA : forall x y, (x < n_M N)%nat -> entry (n_bc N) 1 (diag_A K (b_As bg) dt) (k_Ju K) (k_Jd K) (k_ad K) (k_bu K) (k_n K) x y
              = entry (n_bc N) 1 (diag_A K' (b_As bg') dt) (k_Ju K') (k_Jd K') (k_ad K') (k_bu K') (k_n K') x y).
  { intros x y Hx. unfold entry, diag_A. change (k_n K') with (k_n K). change (k_Ju K') with (k_Ju K). change (k_Jd K') with (k_Jd K).
    change (k_n K) with (n_K N). destruct (n_bc N x); [reflexivity|]. rewrite (GS x Hx).
    f_equal; [f_equal|].
    - destruct (Nat.eqb x y); [|reflexivity]. f_equal. f_equal; apply sum_if_ext; intros k Hk;
        destruct (SK k Hk) as (A1 & A2 & A3 & A4 & A5 & A6 & A7 & A8); split; auto; intros _; congruence.
    - apply sum_if_ext; intros k Hk; destruct (SK k Hk) as (A1 & A2 & A3 & A4 & A5 & A6 & A7 & A8); split; auto.
    - apply sum_if_ext; intros k Hk; destruct (SK k Hk) as (A1 & A2 & A3 & A4 & A5 & A6 & A7 & A8); split; auto. }
  pose proof (st_H _ _ _ Hsv) as VH.
  assert (RK : forall j, rhs_K K (h_H sv) dt j = rhs_K K' (h_H sv') dt j).
  { intros j. unfold rhs_K. change (k_n K') with (k_n K). change (k_Ju K') with (k_Ju K). change (k_Jd K') with (k_Jd K).
    change (k_n K) with (n_K N). f_equal; apply sum_if_ext; intros k Hk; destruct (SK k Hk) as (A1 & A2 & A3 & A4 & A5 & A6 & A7 & A8);
      destruct (wf_ends _ (sd_wf _ HD) k Hk); split; auto; intros _.
    - rewrite A3, A7. f_equal. f_equal. apply VH; auto.
    - rewrite A6, A8. f_equal. f_equal. apply VH; auto. }
  subst b1 b1'. constructor; cbn [b_cf b_Vs b_Ao b_sys]; auto.
  - constructor; cbn [b_st b_Qo b_Qw b_Qp b_thu b_thd]; auto; intros k Hk; destruct (wf_ends _ (sd_wf _ HD) k Hk); rewrite SH by auto; reflexivity.
  - intros x y Hx Hy. destruct (En x y Hx) as (P1 & P2 & P3 & P4). destruct (En' x y Hx) as (P1' & P2' & P3' & P4').
    unfold system_matrix. destruct (negb _).
    + rewrite P1, P2, P3, P4, P1', P2', P3', P4'. rewrite EnA by auto. rewrite (controls_entry CO CO'), (controls_entry CW CW'), (controls_entry CP CP') by auto. reflexivity.
    + rewrite P1, P1'. apply EnA; auto.
  - intros j Hj. rewrite Er, Er'. destruct (n_bc N j); [reflexivity|].
    rewrite RK, (controls_rhs CO CO'), (controls_rhs CW CW'), (controls_rhs CP CP') by auto. rewrite (GS j Hj), (VH j Hj). reflexivity.
Qed.

(** Two linear solvers find the same heads: the system has only one solution. *)
Lemma solve_body_alike slv slv' i dt b b' b1 b1' : solver (n_M N) slv -> solver (n_M N) slv' -> prepared b b' -> solvable D b -> solvable D b' ->
  solve_body D slv i dt b = Some b1 -> solve_body D slv' i dt b' = Some b1' -> alike D b1 b1'.
Proof.
  intros Hs Hs' [Al Cf V Ao Mx Rb] [Ex Un] [Ex' Un'] E E'. unfold solve_body in E, E'.
  destruct (Hs _ _ Ex Un) as (H & EH & SH). destruct (Hs' _ _ Ex' Un') as (H' & EH' & SH').
  rewrite EH in E. rewrite EH' in E'. cbn [bind] in E, E'. injection E as <-. injection E' as <-.
  assert (HH : forall j, (j < n_M N)%nat -> H j = H' j).
  { apply Un; auto. intros j Hj. unfold row_holds. rewrite Rb by auto. etransitivity; [|exact (SH' j Hj)].
    apply sum_n_ext. intros x Hx. rewrite Mx by auto. reflexivity. }
  destruct Al as [Hst AQo AQw AQp Au Ad]. pose proof (solve_alike _ _ _ _ _ _ Cf Hst HH) as S2.
  constructor; cbn [b_st b_Qo b_Qw b_Qp b_thu b_thd]; auto.
  - intros o Ho. destruct (Nat.eqb_spec (o_n (d_or D)) 0); [lia|]. destruct (proj1 (sd_or _ HD) o Ho) as [J1 J2]. cbv beta. rewrite (HH _ J1), (HH _ J2), !V, Ao by auto. reflexivity.
  - intros w Hw. destruct (Nat.eqb_spec (w_n (d_we D)) 0); [lia|]. destruct (sd_we _ HD w Hw) as [J1 J2]. cbv beta. rewrite (HH _ J1), (HH _ J2). reflexivity.
  - intros p Hp. destruct (Nat.eqb_spec (p_n (d_pu D)) 0); [lia|]. destruct (proj1 (sd_pu _ HD) p Hp) as [J1 J2]. cbv beta. rewrite (HH _ J1), (HH _ J2). reflexivity.
Qed.
End Relate.
