From Verif Require Import Prelude M_Coeffs M_Recurrence M_Assembly M_Step S_Superlink S_Network S_Step
  L_Forward L_Backward L_Pivots L_Internals L_Coeffs L_Boundary L_Assembly L_Dominance L_Linear
  P_Superlink P_Assembly P_Wellposed.

Lemma all_entries_spec {A : Type} n (d : nat -> A) f r :
  all_entries n d f = Some r -> forall k, (k < n)%nat -> f k = Some (r k).
Proof.
  unfold all_entries. intros E.
  revert E. refine (for_opt_inv (fun m r => forall k, (k < m)%nat -> f k = Some (r k)) _ _ _ _ _ _).
  - intros; lia.
  - intros i a b Hi IH Eq k Hk. cbv beta in Eq. unfold bind in Eq.
    destruct (f i) as [v|] eqn:Ev; [|discriminate]. injection Eq as <-.
    destruct (Nat.eq_dec k i) as [->|]; [now rewrite upd_eq|]. rewrite upd_neq by auto. apply IH; lia.
Qed.

Lemma all_entries_total {A : Type} n (d : nat -> A) f :
  (forall k, (k < n)%nat -> exists v, f k = Some v) -> exists r, all_entries n d f = Some r.
Proof.
  intros H. unfold all_entries.
  destruct (for_opt_total (fun _ _ => True) n (fun k a => do v <- f k; Some (upd a k v)) d) as [r [E _]]; eauto.
  intros k a Hk _. destruct (H k Hk) as [v ->]. simpl. eauto.
Qed.

(** What [setup_step] computed. *)
Record setup_facts (N : network) (G : geometry) (w : work) (st sv : hstate) (Q0 : arr) (dt : R) (u : setup) : Prop := mkSF {
  sf_m : link_coeffs (n_damp N) (links_of N G st sv) dt (n_L N) (w_b w) = Some (u_m u);
  sf_n : numba_node_coeffs (w_D w) (w_E w) Q0 (g_B G) (h_h sv) (n_dx N) (n_ASI N) (g_Bu G) (g_Bd G)
           (n_dxu N) (n_dxd N) (n_kI N) dt (n_fwdi N) (n_bwdi N) (n_isS N) (n_isE N) (n_J N) = (u_D u, u_E u);
  sf_f : numba_forward_recurrence (w_f w) (ma (u_m u)) (mb (u_m u)) (mc (u_m u)) (mP (u_m u)) (g_A G) (u_E u) (u_D u)
           (n_K N) (n_nk N) (n_I1 N) (n_i1 N) = Some (u_f u);
  sf_b : numba_backward_recurrence (w_w w) (ma (u_m u)) (mb (u_m u)) (mc (u_m u)) (mP (u_m u)) (g_A G) (u_E u) (u_D u)
           (n_K N) (n_nk N) (fun k => n_I1 N k + n_nk N k - 1)%nat (fun k => n_i1 N k + n_nk N k - 1)%nat = Some (u_b u);
  sf_hu : forall k, (k < n_K N)%nat ->
    upstream_head_coefficients (n_bcm N) (h_H st (n_Ju N k)) (n_zu N k) (h_Qu st k) (h_Qu sv k) (n_dxu N k) (g_Au G k)
         (n_Cu N k) (g_Ru G k) (n_nu N k) (n_sfu N k) (n_Su N k) dt = Some (u_hu u k);
  sf_hd : forall k, (k < n_K N)%nat ->
    downstream_head_coefficients (n_bcm N) (h_H st (n_Jd N k)) (n_zd N k) (h_Qd st k) (h_Qd sv k) (n_dxd N k) (g_Ad G k)
         (n_Cd N k) (g_Rd G k) (n_nd N k) (n_sfd N k) (n_Sd N k) dt = Some (u_hd u k) }.

Lemma setup_facts_ok N G w st sv Q0 dt u :
  setup_step N G w st sv Q0 dt = Some u -> setup_facts N G w st sv Q0 dt u.
Proof.
  unfold setup_step. intros Eq.
  destruct (link_coeffs _ _ _ _ _) as [m|] eqn:Em; [|discriminate]. cbn [bind] in Eq.
  destruct (numba_node_coeffs _ _ _ _ _ _ _ _ _ _ _ _ _ _ _ _ _ _) as [D E] eqn:EDE.
  destruct (numba_forward_recurrence _ _ _ _ _ _ _ _ _ _ _ _) as [f|] eqn:Ef; [|discriminate]. cbn [bind] in Eq.
  destruct (numba_backward_recurrence _ _ _ _ _ _ _ _ _ _ _ _) as [b|] eqn:Eb; [|discriminate]. cbn [bind] in Eq.
  match type of Eq with bind ?x _ = _ => destruct x as [hu|] eqn:Ehu; [|discriminate] end. cbn [bind] in Eq.
  match type of Eq with bind ?x _ = _ => destruct x as [hd|] eqn:Ehd; [|discriminate] end. cbn [bind] in Eq.
  injection Eq as <-.
  constructor; auto.
  - exact (all_entries_spec _ _ _ _ Ehu).
  - exact (all_entries_spec _ _ _ _ Ehd).
Qed.

Section Setup.
  Variables (N : network) (G : geometry) (w : work) (st sv : hstate) (Q0 : arr) (dt : R).
  Hypothesis Hwf : well_formed N.
  Hypothesis Hwet : wet N G.
  Hypothesis Hdt : 0 < dt.
  Hypothesis Hz : ends_mild N G st dt.

  Let L := links_of N G st sv.
  Lemma wet_links_defined : forall i, (i < n_L N)%nat ->
    0 < l_A L i /\ 0 < l_R L i /\ 0 < l_dx L i /\ 0 < l_n L i /\
    friction_defined (l_sf L i) (l_Q L i) (l_A L i) (l_R L i) (l_n L i) /\
    (l_ctrl L i = true -> 0 <= l_C L i /\ l_Ac L i <> 0) /\ 0 < l_B L i.
  Proof.
    intros i Hi. destruct (wet_links _ _ Hwet i Hi) as (H1 & H2 & H3 & H4 & H5 & H6 & H7).
    repeat (split; [first [assumption|left; assumption]|]). assumption.
  Qed.

  Lemma upstream_total k : (k < n_K N)%nat -> exists h,
    upstream_head_coefficients (n_bcm N) (h_H st (n_Ju N k)) (n_zu N k) (h_Qu st k) (h_Qu sv k) (n_dxu N k) (g_Au G k)
      (n_Cu N k) (g_Ru G k) (n_nu N k) (n_sfu N k) (n_Su N k) dt = Some h.
  Proof.
    intros Hk. unfold upstream_head_coefficients. destruct Hz as [->|HM]; [eauto|].
    destruct (HM k Hk) as ((X1 & X2 & X3 & X4) & _). destruct (n_bcm N); [eauto|].
    unfold kappa_uk. rewrite friction_defined_ok by auto. cbn [bind]. eauto.
  Qed.
  Lemma downstream_total k : (k < n_K N)%nat -> exists h,
    downstream_head_coefficients (n_bcm N) (h_H st (n_Jd N k)) (n_zd N k) (h_Qd st k) (h_Qd sv k) (n_dxd N k) (g_Ad G k)
      (n_Cd N k) (g_Rd G k) (n_nd N k) (n_sfd N k) (n_Sd N k) dt = Some h.
  Proof.
    intros Hk. unfold downstream_head_coefficients. destruct Hz as [->|HM]; [eauto|].
    destruct (HM k Hk) as (_ & (X1 & X2 & X3 & X4) & _). destruct (n_bcm N); [eauto|].
    unfold kappa_dk. rewrite friction_defined_ok by auto. cbn [bind]. eauto.
  Qed.

  Lemma setup_total : exists u, setup_step N G w st sv Q0 dt = Some u.
  Proof.
    destruct Hwf as [Hl Hc Hr He]. pose proof wet_links_defined as W1. destruct Hwet as [_ W2 W3 W4]. unfold setup_step.
    destruct (numba_node_coeffs (w_D w) (w_E w) Q0 (g_B G) (h_h sv) (n_dx N) (n_ASI N) (g_Bu G) (g_Bd G)
           (n_dxu N) (n_dxd N) (n_kI N) dt (n_fwdi N) (n_bwdi N) (n_isS N) (n_isE N) (n_J N)) as [D E] eqn:EDE.
    destruct (C19_sweeps_never_divide_by_zero (n_damp N) (links_of N G st sv) dt (n_L N) (w_b w) Q0 (h_h sv) (n_ASI N)
      (g_Bu G) (g_Bd G) (n_dxu N) (n_dxd N) (n_kI N) (n_fwdi N) (n_bwdi N) (n_isS N) (n_isE N) (n_J N) (w_D w) (w_E w)
      (n_K N) (n_nk N) (n_i1 N) (n_I1 N) (w_f w) (w_w w) D E) as (m & f & b & Em & Ef & Eb & _); auto.
    rewrite Em. cbn [bind]. simpl l_A in Ef, Eb. rewrite Ef. cbn [bind]. rewrite Eb. cbn [bind].
    match goal with |- context [bind ?x _] => destruct x as [hu|] eqn:Ehu end.
    2:{ exfalso. match type of Ehu with all_entries ?n ?d ?f = _ => destruct (all_entries_total n d f) as [r Er] end.
        - intros k Hk. apply upstream_total; auto.
        - congruence. }
    cbn [bind].
    match goal with |- context [bind ?x _] => destruct x as [hd|] eqn:Ehd end.
    2:{ exfalso. match type of Ehd with all_entries ?n ?d ?f = _ => destruct (all_entries_total n d f) as [r Er] end.
        - intros k Hk. apply downstream_total; auto.
        - congruence. }
    cbn [bind]. eauto.
  Qed.

  Variable u : setup.
  Hypothesis Hu : setup_step N G w st sv Q0 dt = Some u.
  Let F := setup_facts_ok _ _ _ _ _ _ _ _ Hu.

  Lemma setup_signs :
    (forall k, (k < n_K N)%nat -> wet_superlink (ma (u_m u)) (mb (u_m u)) (mc (u_m u)) (g_A G) (u_E u) (n_i1 N k) (n_I1 N k) (n_nk N k)) /\
    (forall k j, (k < n_K N)%nat -> (j < n_nk N k)%nat ->
       fT (u_f u) (n_i1 N k + j)%nat <> 0 /\ bO (u_b u) (n_i1 N k + j)%nat <> 0 /\ bX (u_b u) (n_I1 N k + j)%nat <> 0).
  Proof.
    destruct Hwf as [Hl Hc Hr He]. pose proof wet_links_defined as W1. destruct Hwet as [_ W2 W3 W4]. destruct F as [Fm Fn Ff Fb _ _].
    destruct (C19_sweeps_never_divide_by_zero (n_damp N) (links_of N G st sv) dt (n_L N) (w_b w) Q0 (h_h sv) (n_ASI N)
      (g_Bu G) (g_Bd G) (n_dxu N) (n_dxd N) (n_kI N) (n_fwdi N) (n_bwdi N) (n_isS N) (n_isE N) (n_J N) (w_D w) (w_E w)
      (n_K N) (n_nk N) (n_i1 N) (n_I1 N) (w_f w) (w_w w) (u_D u) (u_E u)) as (m & f & b & Em & Ef & Eb & HW & S); auto.
    rewrite Fm in Em. injection Em as <-. simpl l_A in *. rewrite Ff in Ef. injection Ef as <-. rewrite Fb in Eb. injection Eb as <-.
    split; auto. intros k j Hk Hj. destruct (S k j Hk Hj) as (A1 & _ & _ & A2 & A3 & _). lra.
  Qed.

  Lemma setup_head_signs k : (k < n_K N)%nat ->
    hk (u_hu u k) <= 0 /\ 0 <= hk (u_hd u k) /\ 0 <= hl (u_hu u k) /\ 0 <= hl (u_hd u k).
  Proof.
    intros Hk. destruct F as [_ _ _ _ Fhu Fhd]. destruct (wet_loss _ _ Hwet k Hk) as [C1 C2].
    destruct (wet_ends _ _ Hwet k Hk) as (_ & _ & _ & Hdx).
    pose proof (Fhu k Hk) as Z1. pose proof (Fhd k Hk) as Z2.
    destruct (n_bcm N) eqn:EM.
    - exact (zahner_signs _ _ _ _ _ _ _ _ _ _ _ _ _ _ _ _ _ _ _ _ _ _ _ _ _ C1 C2 Z1 Z2).
    - destruct Hz as [EZ|HM]; [congruence|]. destruct (HM k Hk) as (X1 & X2 & X3).
      exact (momentum_signs _ _ _ _ _ _ _ _ _ _ _ _ _ _ _ _ _ _ _ _ _ _ _ _ _ Hdt C1 C2 Hdx X1 X2 X3 Z1 Z2).
  Qed.

  Lemma setup_det k : (k < n_K N)%nat ->
    let e := end_coeffs (n_end_o N) (u_f u) (u_b u) (u_E u) (u_D u) (n_I1 N k) (n_I1 N k + n_nk N k - 1) (n_I1 N k + n_nk N k) in
    D_k_star (eX e) (hk (u_hu u k)) (eU e) (hk (u_hd u k)) (eZ e) (eW e) <> 0.
  Proof.
    intros Hk e. destruct F as [_ _ Ff Fb _ _]. destruct setup_signs as [HW _]. destruct (setup_head_signs k Hk) as (S1 & S2 & _).
    pose proof (C20_wet_superlink_determinant_at_least_one _ _ _ _ _ _ _ _ _ _ _ _ _ _ _ (n_end_o N) _ _
                  (wf_layout _ Hwf) HW Ff Fb k Hk S1 S2) as X. fold e in X. lra.
  Qed.

  Lemma setup_ordered : superlinks_ordered (superlinks_of N G u).
  Proof.
    intros k Hk. simpl in Hk. destruct F as [_ _ Ff Fb _ _]. destruct setup_signs as [HW _].
    exact (ordered_conductances _ _ _ _ _ _ _ _ _ _ _ _ _ _ _ (n_end_o N) _ _ (wf_layout _ Hwf) HW Ff Fb k Hk (setup_head_signs k Hk)).
  Qed.

  Lemma setup_theta k : (k < n_K N)%nat ->
    hl (u_hu u k) = above (h_H st (n_Ju N k)) (n_zu N k) /\
    hm (u_hu u k) = - above (h_H st (n_Ju N k)) (n_zu N k) * n_zu N k
      + (match n_bcm N with BCz => 0 | BCb => h_Qu sv k * n_dxu N k / g / g_Au G k / dt + n_dxu N k * n_Su N k end) /\
    hl (u_hd u k) = above (h_H st (n_Jd N k)) (n_zd N k) /\
    hm (u_hd u k) = - above (h_H st (n_Jd N k)) (n_zd N k) * n_zd N k
      + (match n_bcm N with BCz => 0 | BCb => - h_Qd sv k * n_dxd N k / g / g_Ad G k / dt - n_dxd N k * n_Sd N k end).
  Proof.
    intros Hk. destruct F as [_ _ _ _ Fhu Fhd].
    pose proof (Fhu k Hk) as Z1. pose proof (Fhd k Hk) as Z2. clear - Z1 Z2.
    unfold upstream_head_coefficients, downstream_head_coefficients in *.
    destruct (n_bcm N).
    - injection Z1 as <-. injection Z2 as <-. cbn [hl hm]. unfold above, theta_k. repeat split; ring.
    - destruct (kappa_uk _ _ _ _ _ _ _ _) as [ku|]; [|discriminate]. destruct (kappa_dk _ _ _ _ _ _ _ _) as [kd|]; [|discriminate].
      cbn [bind] in *. injection Z1 as <-. injection Z2 as <-. cbn [hl hm]. unfold mu_uk, mu_dk, above, theta_k. repeat split; ring.
  Qed.
End Setup.

Lemma limit_head_id z m H : z <= H <= z + m -> limit_head z m H = H.
Proof. intros. unfold limit_head. rewrite Rmax_left by lra. apply Rmin_left; lra. Qed.
