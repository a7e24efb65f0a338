(** Lemmas for C85: steady flow on a network, control flows at an unchanged state. *)
From Coq Require Import ZArith.
From Verif Require Import Prelude M_Numerics M_Coeffs M_Recurrence M_Assembly M_Step M_Geometry M_Storage M_Controls M_Simulation M_Model
  S_Numerics S_Geometry S_Superlink S_Network S_Step S_Controls S_Simulation S_Model S_Object S_Replay
  L_Forward L_Backward L_Pivots L_Internals L_Coeffs L_Boundary L_Assembly L_Dominance L_Linear L_Step
  P_Superlink P_Assembly P_Wellposed P_Step P_Limits P_Controls P_Simulation L_Model L_Gauss P_Model P_Replay P_Object L_Relate P_Advection.
From Verif Require Import S_Steady.

(** ** One network, two lengths of step *)
Section Net.
Variables (N : network) (G : geometry) (st : hstate) (Q0 : arr).
Hypothesis Hwf : well_formed N.
Hypothesis Hwet : wet N G.
Hypothesis Hz : n_bcm N = BCz.
Hypothesis Hend : n_end_o N = false.
Local Notation Q k := (flow_along N st k).

(** The state satisfies the equations whose coefficients are [u]. *)
Definition carried (u : setup) : Prop := forall k, (k < n_K N)%nat ->
  superlink_solution (ma (u_m u)) (mb (u_m u)) (mc (u_m u)) (mP (u_m u)) (g_A G) (u_E u) (u_D u)
    (n_i1 N k) (n_I1 N k) (n_nk N k) (Q k) (fun j => h_h st (n_I1 N k + j)%nat) /\
  h_h st (n_I1 N k) = hk (u_hu u k) * h_Qu st k + hl (u_hu u k) * h_H st (n_Ju N k) + hm (u_hu u k) /\
  h_h st (n_I1 N k + n_nk N k)%nat = hk (u_hd u k) * h_Qd st k + hl (u_hd u k) * h_H st (n_Jd N k) + hm (u_hd u k).

Lemma along_0 k : Q k 0%nat = h_Qu st k.
Proof. reflexivity. Qed.
Lemma along_link k j : (j < n_nk N k)%nat -> Q k (j + 1)%nat = h_Q st (n_i1 N k + j)%nat.
Proof.
  intros Hj. unfold flow_along, local_flows. destruct (Nat.eqb_spec (j + 1) 0); [lia|]. destruct (Nat.leb_spec (j + 1) (n_nk N k)); [|lia].
  f_equal. lia.
Qed.
Lemma along_last k : Q k (n_nk N k + 1)%nat = h_Qd st k.
Proof.
  unfold flow_along, local_flows. destruct (Nat.eqb_spec (n_nk N k + 1) 0); [lia|]. destruct (Nat.leb_spec (n_nk N k + 1) (n_nk N k)); [lia|]. reflexivity.
Qed.

(** Equations without the terms that describe change. *)
Lemma carried_momentum w dt u : dt <> 0 -> setup_step N G w st st Q0 dt = Some u -> forall k j, (k < n_K N)%nat -> (j < n_nk N k)%nat ->
  let i := (n_i1 N k + j)%nat in
  exists t, friction_slope (h_Q st i) (n_dx N i) (g_A G i) (g_R G i) (n_n N i) (n_sf N i) = Some t /\
  (ma (u_m u) i * Q k j + mb (u_m u) i * Q k (j + 1)%nat + mc (u_m u) i * Q k (j + 2)%nat
     = mP (u_m u) i + 9.81 * g_A G i * (h_h st (n_I1 N k + j)%nat - h_h st (n_I1 N k + (j + 1))%nat) <->
   ma (u_m u) i * (Q k j - Q k (j + 1)%nat) + mc (u_m u) i * (Q k (j + 2)%nat - Q k (j + 1)%nat)
     + (t + (if n_ctrl N i then n_C N i * g_A G i * Rabs (h_Q st i) / n_Ac N i ^ 2 else 0)) * Q k (j + 1)%nat
   = 9.81 * g_A G i * (n_So N i * n_dx N i + h_h st (n_I1 N k + j)%nat - h_h st (n_I1 N k + (j + 1))%nat)).
Proof.
  intros Hdt Hu k j Hk Hj i. pose proof (setup_facts_ok _ _ _ _ _ _ _ _ Hu) as [Fm _ _ _ _ _].
  destruct (link_coeffs_entries _ _ _ _ _ _ Fm) as (_ & _ & EP & Eb). destruct (wf_range _ Hwf k Hk) as [R1 R2].
  specialize (Eb i ltac:(unfold i; lia)). specialize (EP i). cbv zeta in EP, Eb. unfold b_ik in Eb.
  cbn [links_of l_dx l_n l_sf l_Q l_Qp l_A l_R l_B l_So l_Ac l_C l_ctrl] in EP, Eb.
  destruct (friction_slope (h_Q st i) (n_dx N i) (g_A G i) (g_R G i) (n_n N i) (n_sf N i)) as [t|]; [|discriminate]. cbn [bind] in Eb.
  exists t. split; [reflexivity|]. set (sg := damping _ _ _ _) in *.
  assert (Eb' : mb (u_m u) i = n_dx N i / dt * sg + t + (if n_ctrl N i then n_C N i * g_A G i * Rabs (h_Q st i) / n_Ac N i ^ 2 else 0)
                  - ma (u_m u) i - mc (u_m u) i) by congruence.
  rewrite Eb', EP. rewrite along_link by exact Hj. fold i. unfold P_ik, g.
  set (l := if n_ctrl N i then _ else _).
  replace (h_Q st i * n_dx N i / dt * sg) with (n_dx N i / dt * sg * h_Q st i) by (field; auto).
  split; intros X; lra.
Qed.
Lemma carried_continuity w dt u : dt <> 0 -> setup_step N G w st st Q0 dt = Some u -> forall k j, (k < n_K N)%nat -> (j <= n_nk N k)%nat ->
  let I := (n_I1 N k + j)%nat in
  (u_E u I * h_h st I - u_D u I = Q k j - Q k (j + 1)%nat <-> Q k (j + 1)%nat = Q k j + Q0 I).
Proof.
  intros Hdt Hu k j Hk Hj I. pose proof (setup_facts_ok _ _ _ _ _ _ _ _ Hu) as [_ Fn _ _ _ _]. destruct (wf_range _ Hwf k Hk) as [R1 R2].
  destruct (node_coeffs_entries _ _ _ _ _ _ _ _ _ _ _ _ _ _ _ _ _ _ _ _ Fn I ltac:(unfold I; lia)) as [-> ->].
  match goal with |- ?w / dt * ?h - (?q + ?w * (?h / dt)) = _ <-> _ => replace (w / dt * h - (q + w * (h / dt))) with (- q) by (field; auto) end.
  split; intros; lra.
Qed.

Lemma advection_unique l s v v' s1 v1 v1' : (l < n_L N)%nat -> (n_lend N l = true \/ (l + 1 < n_L N)%nat) ->
  advection N G st l s v v' -> advection N G st l s1 v1 v1' -> s = s1 /\ v = v1 /\ v' = v1'.
Proof.
  intros Hl He (A1 & A2 & A3) (B1 & B2 & B3). unfold on_the_line in *. destruct (wet_links _ _ Hwet l Hl) as (PA & _ & Px & _ & _ & _ & PB).
  destruct (wet_links _ _ Hwet (l - 1)%nat ltac:(lia)) as (_ & _ & Px' & _).
  split; [|split].
  - destruct (n_damp N); [|lra]. destruct A3 as (F & F0 & EF & K0 & K1 & K2). destruct B3 as (F' & F0' & EF' & K0' & K1' & K2').
    assert (E : F = F').
    { assert (X : Rsqr F = Rsqr F').
      { apply Rmult_eq_reg_r with (9.81 * g_A G l); [|lra]. unfold Rsqr. replace (F * F) with (F ^ 2) by ring. replace (F' * F') with (F' ^ 2) by ring. lra. }
      apply Rsqr_inj; auto. }
    subst F'. destruct (Rle_dec F (1 / 2)); [rewrite K0, K0' by auto; reflexivity|]. destruct (Rle_dec F 1).
    + rewrite K1, K1' by lra. reflexivity.
    + rewrite K2, K2' by lra. reflexivity.
  - destruct (n_lstart N l); [congruence|]. apply Rmult_eq_reg_r with (n_dx N l / 2 - - (n_dx N (l - 1)%nat / 2)); lra.
  - destruct (n_lend N l); [congruence|]. destruct He as [He|He]; [discriminate|]. destruct (wet_links _ _ Hwet (l + 1)%nat He) as (_ & _ & Px2 & _).
    apply Rmult_eq_reg_r with (n_dx N (l + 1)%nat / 2 - - (n_dx N l / 2)); lra.
Qed.

Hypothesis Hlast : forall l, (l < n_L N)%nat -> n_lend N l = true \/ (l + 1 < n_L N)%nat.
(** The laws of steady flow on the network. *)
Definition net_steady : Prop :=
  (forall k j, (k < n_K N)%nat -> (j <= n_nk N k)%nat -> Q k (j + 1)%nat = Q k j + Q0 (n_I1 N k + j)%nat) /\
  (forall k j, (k < n_K N)%nat -> (j < n_nk N k)%nat ->
    let l := (n_i1 N k + j)%nat in
    exists s v v', advection N G st l s v v' /\
      s * (Rmax v 0 * (Q k (j + 1)%nat - Q k j) + Rmax (- v') 0 * (Q k (j + 1)%nat - Q k (j + 2)%nat))
      + (friction_law (n_sf N l) (h_Q st l) (n_dx N l) (g_A G l) (g_R G l) (n_n N l)
         + (if n_ctrl N l then n_C N l * g_A G l * Rabs (h_Q st l) / n_Ac N l ^ 2 else 0)) * h_Q st l
      = 9.81 * g_A G l * (n_So N l * n_dx N l + h_h st (n_I1 N k + j)%nat - h_h st (n_I1 N k + (j + 1))%nat)) /\
  (forall k, (k < n_K N)%nat ->
    h_h st (n_I1 N k) = above (h_H st (n_Ju N k)) (n_zu N k) * (h_H st (n_Ju N k) - n_zu N k) - end_loss (n_Cu N k) (h_Qu st k) (g_Au G k) /\
    h_h st (n_I1 N k + n_nk N k)%nat
      = above (h_H st (n_Jd N k)) (n_zd N k) * (h_H st (n_Jd N k) - n_zd N k) + end_loss (n_Cd N k) (h_Qd st k) (g_Ad G k)).

Lemma link_iff w dt u : dt <> 0 -> setup_step N G w st st Q0 dt = Some u -> forall k j, (k < n_K N)%nat -> (j < n_nk N k)%nat ->
  let l := (n_i1 N k + j)%nat in
  (ma (u_m u) l * Q k j + mb (u_m u) l * Q k (j + 1)%nat + mc (u_m u) l * Q k (j + 2)%nat
     = mP (u_m u) l + 9.81 * g_A G l * (h_h st (n_I1 N k + j)%nat - h_h st (n_I1 N k + (j + 1))%nat) <->
   exists s v v', advection N G st l s v v' /\
      s * (Rmax v 0 * (Q k (j + 1)%nat - Q k j) + Rmax (- v') 0 * (Q k (j + 1)%nat - Q k (j + 2)%nat))
      + (friction_law (n_sf N l) (h_Q st l) (n_dx N l) (g_A G l) (g_R G l) (n_n N l)
         + (if n_ctrl N l then n_C N l * g_A G l * Rabs (h_Q st l) / n_Ac N l ^ 2 else 0)) * h_Q st l
      = 9.81 * g_A G l * (n_So N l * n_dx N l + h_h st (n_I1 N k + j)%nat - h_h st (n_I1 N k + (j + 1))%nat)).
Proof.
  intros Hdt Hu k j Hk Hj l. destruct (wf_range _ Hwf k Hk) as [R1 R2]. assert (Hl : (l < n_L N)%nat) by (unfold l; lia).
  destruct (carried_momentum w dt u Hdt Hu k j Hk Hj) as (t & Et & X). cbv zeta in X. fold l in Et, X.
  destruct (wet_links _ _ Hwet l Hl) as (PA & PR & Px & Pn & Psf & _ & PB). rewrite friction_law_ok in Et by auto.
  assert (Et' : t = friction_law (n_sf N l) (h_Q st l) (n_dx N l) (g_A G l) (g_R G l) (n_n N l)) by congruence. subst t. clear Et.
  pose proof (setup_facts_ok _ _ _ _ _ _ _ _ Hu) as [Fm _ _ _ _ _].
  destruct (C16_advection _ _ _ _ _ _ l Fm PA ltac:(cbn; lra) Px) as (s & v & v' & Ea & Ec & V1 & V2 & V3). cbv zeta in V1, V2, V3.
  cbn [links_of l_dx l_A l_B l_Q l_start l_end] in V1, V2, V3.
  assert (AD : advection N G st l s v v').
  { destruct (wet_links _ _ Hwet (l - 1)%nat ltac:(lia)) as (PA' & _ & Px' & _). split; [|split; [|exact V3]].
    - destruct (n_lstart N l); auto.
    - destruct (n_lend N l) eqn:E; auto. destruct (Hlast l Hl) as [|Hl']; [congruence|].
      destruct (wet_links _ _ Hwet (l + 1)%nat Hl') as (PA2 & _ & Px2 & _). auto. }
  assert (Y : (ma (u_m u) l * (Q k j - Q k (j + 1)%nat) + mc (u_m u) l * (Q k (j + 2)%nat - Q k (j + 1)%nat)
     = s * (Rmax v 0 * (Q k (j + 1)%nat - Q k j) + Rmax (- v') 0 * (Q k (j + 1)%nat - Q k (j + 2)%nat)))) by (rewrite Ea, Ec; ring).
  rewrite Y in X. rewrite (along_link k j Hj) in X. fold l in X. rewrite (along_link k j Hj). fold l.
  split.
  - intros E. apply X in E. exists s, v, v'. split; [exact AD|]. rewrite (along_link k j Hj) in *. exact E.
  - intros (s1 & v1 & v1' & AD1 & E). apply X. destruct (advection_unique l s v v' s1 v1 v1' Hl (Hlast l Hl) AD AD1) as (-> & -> & ->).
    rewrite (along_link k j Hj) in *. exact E.
Qed.

Lemma ends_iff w dt u : setup_step N G w st st Q0 dt = Some u -> forall k, (k < n_K N)%nat ->
  hk (u_hu u k) * h_Qu st k + hl (u_hu u k) * h_H st (n_Ju N k) + hm (u_hu u k)
    = above (h_H st (n_Ju N k)) (n_zu N k) * (h_H st (n_Ju N k) - n_zu N k) - end_loss (n_Cu N k) (h_Qu st k) (g_Au G k) /\
  hk (u_hd u k) * h_Qd st k + hl (u_hd u k) * h_H st (n_Jd N k) + hm (u_hd u k)
    = above (h_H st (n_Jd N k)) (n_zd N k) * (h_H st (n_Jd N k) - n_zd N k) + end_loss (n_Cd N k) (h_Qd st k) (g_Ad G k).
Proof.
  intros Hu k Hk. pose proof (setup_facts_ok _ _ _ _ _ _ _ _ Hu) as [_ _ _ _ Fhu Fhd]. specialize (Fhu k Hk). specialize (Fhd k Hk).
  rewrite Hz in Fhu, Fhd. unfold upstream_head_coefficients in Fhu. unfold downstream_head_coefficients in Fhd.
  assert (E1 : u_hu u k = mkHead (gamma_uk (h_Qu st k) (n_Cu N k) (g_Au G k)) (above (h_H st (n_Ju N k)) (n_zu N k)) (- above (h_H st (n_Ju N k)) (n_zu N k) * n_zu N k))
    by (symmetry; exact (f_equal (fun o => match o with Some x => x | None => u_hu u k end) Fhu)).
  assert (E2 : u_hd u k = mkHead (gamma_dk (h_Qd st k) (n_Cd N k) (g_Ad G k)) (above (h_H st (n_Jd N k)) (n_zd N k)) (- above (h_H st (n_Jd N k)) (n_zd N k) * n_zd N k))
    by (symmetry; exact (f_equal (fun o => match o with Some x => x | None => u_hd u k end) Fhd)).
  rewrite E1, E2. cbn [hk hl hm]. unfold gamma_uk, gamma_dk, end_loss.
  assert (X : forall A, A <> 0 -> 2 * A ^ 2 * g <> 0).
  { intros A HA. unfold g. assert (0 < A ^ 2) by (replace (A ^ 2) with (Rsqr A) by (unfold Rsqr; ring); now apply Rsqr_pos_lt). lra. }
  split.
  - destruct (Req_EM_T (g_Au G k) 0) as [->|HA].
    + unfold safe_divide. destruct (Reqb_spec (2 * 0 ^ 2 * g) 0) as [_|F]; [ring|]. exfalso. apply F. ring.
    + rewrite safe_divide_nz by auto. unfold g. field; repeat split; auto; lra.
  - destruct (Req_EM_T (g_Ad G k) 0) as [->|HA].
    + unfold safe_divide. destruct (Reqb_spec (2 * 0 ^ 2 * g) 0) as [_|F]; [ring|]. exfalso. apply F. ring.
    + rewrite safe_divide_nz by auto. unfold g. field; repeat split; auto; lra.
Qed.

Lemma carried_iff w dt u : dt <> 0 -> setup_step N G w st st Q0 dt = Some u -> (carried u <-> net_steady).
Proof.
  intros Hdt Hu. split.
  - intros C. split; [|split].
    + intros k j Hk Hj. apply (carried_continuity w dt u Hdt Hu k j Hk Hj). destruct (C k Hk) as ([_ CC] & _). exact (CC j Hj).
    + intros k j Hk Hj. apply (link_iff w dt u Hdt Hu k j Hk Hj). destruct (C k Hk) as ([CM _] & _). exact (CM j Hj).
    + intros k Hk. destruct (C k Hk) as (_ & C1 & C2). destruct (ends_iff w dt u Hu k Hk) as [<- <-]. auto.
  - intros (S1 & S2 & S3) k Hk. split; [split|].
    + intros j Hj. apply (link_iff w dt u Hdt Hu k j Hk Hj). exact (S2 k j Hk Hj).
    + intros j Hj. apply (carried_continuity w dt u Hdt Hu k j Hk Hj). exact (S1 k j Hk Hj).
    + destruct (ends_iff w dt u Hu k Hk) as [-> ->]. auto.
Qed.

(** Such a state reproduces itself. *)
Lemma carried_ends w dt u : 0 < dt -> setup_step N G w st st Q0 dt = Some u -> carried u -> forall k, (k < n_K N)%nat ->
  solve_superlink_flows (flow_coeffs N u k) (h_H st (n_Ju N k)) (h_H st (n_Jd N k)) = (h_Qu st k, h_Qd st k) /\
  solve_superlink_depths (u_hu u k) (u_hd u k) (h_Qu st k) (h_Qd st k) (h_H st (n_Ju N k)) (h_H st (n_Jd N k))
    = (h_h st (n_I1 N k), h_h st (n_I1 N k + n_nk N k)%nat).
Proof.
  intros Hdt Hu C k Hk. pose proof (setup_facts_ok _ _ _ _ _ _ _ _ Hu) as [Fm Fn Ff Fb Fhu Fhd].
  destruct (setup_signs N G w st st Q0 dt Hwf Hwet Hdt u Hu) as [HW HP]. destruct (C k Hk) as (HS & C1 & C2).
  pose proof (proj1 (wf_layout _ Hwf) k Hk) as Hnk.
  pose proof (forward_recurrence_ok _ _ _ _ _ _ _ _ _ _ _ _ _ (wf_layout _ Hwf) Ff k Hk) as HF.
  assert (HB : bwd_eqs (ma (u_m u)) (mb (u_m u)) (mc (u_m u)) (mP (u_m u)) (g_A G) (u_E u) (u_D u) (n_i1 N k) (n_I1 N k) (n_nk N k) (u_b u)).
  { eapply backward_recurrence_ok; [apply (wf_layout _ Hwf)| |exact Fb|exact Hk]. intros; cbv beta; lia. }
  apply boundary_unique.
  - exact (setup_det N G w st st Q0 dt Hwf Hwet Hdt (or_introl Hz) u Hu k Hk).
  - pose proof (end_meaning _ _ _ _ _ _ _ _ _ _ _ _ Hnk HF HB (fun j Hj => proj1 (HP k j Hk Hj))
                   (fun j Hj => proj1 (proj2 (HP k j Hk Hj))) (n_end_o N) _ _ HS) as EM.
    cbv beta zeta in EM. rewrite Nat.add_0_r in EM. destruct EM as [E1 E2]. rewrite Hend in *.
    rewrite along_0 in E1. rewrite along_last in E2. unfold end_equations. repeat split; assumption.
Qed.

Lemma carried_same w dt u H : 0 < dt -> setup_step N G w st st Q0 dt = Some u -> carried u -> all_in_superlinks N -> unlimited N st ->
  (forall j, (j < n_M N)%nat -> H j = h_H st j) -> same_state N (M_Step.solve_step N u st H) st.
Proof.
  intros Hdt Hu C [CL CJ] [UH Ulo Uhi] EH.
  pose proof (setup_facts_ok _ _ _ _ _ _ _ _ Hu) as [Fm Fn Ff Fb Fhu Fhd].
  destruct (setup_signs N G w st st Q0 dt Hwf Hwet Hdt u Hu) as [HW HP].
  pose proof (carried_ends w dt u Hdt Hu C) as CE.
  set (st' := M_Step.solve_step N u st H).
  assert (XH : forall j, (j < n_M N)%nat -> h_H st' j = h_H st j).
  { intros j Hj. unfold st', M_Step.solve_step. cbn [h_H]. rewrite EH by auto. apply limit_head_id. specialize (UH j Hj). lra. }
  assert (XQ : forall k, (k < n_K N)%nat -> h_Qu st' k = h_Qu st k /\ h_Qd st' k = h_Qd st k).
  { intros k Hk. destruct (wf_ends _ Hwf k Hk) as [J1 J2].
    assert (X : solve_superlink_flows (flow_coeffs N u k) (h_H st' (n_Ju N k)) (h_H st' (n_Jd N k)) = (h_Qu st' k, h_Qd st' k)) by reflexivity.
    rewrite !XH in X by auto. destruct (CE k Hk) as [E1 _]. rewrite E1 in X. split; symmetry; [exact (f_equal fst X)|exact (f_equal snd X)]. }
  assert (XD : forall k, (k < n_K N)%nat -> end_depths N u st' k = (h_h st (n_I1 N k), h_h st (n_I1 N k + n_nk N k)%nat)).
  { intros k Hk. destruct (wf_ends _ Hwf k Hk) as [J1 J2]. unfold end_depths.
    destruct (XQ k Hk) as [-> ->]. rewrite !XH by auto. apply CE; auto. }
  assert (HF : forall k, (k < n_K N)%nat -> fwd_eqs (ma (u_m u)) (mb (u_m u)) (mc (u_m u)) (mP (u_m u)) (g_A G) (u_E u) (u_D u)
                 (n_i1 N k) (n_I1 N k) (n_nk N k) (u_f u)).
  { intros k Hk. exact (forward_recurrence_ok _ _ _ _ _ _ _ _ _ _ _ _ _ (wf_layout _ Hwf) Ff k Hk). }
  assert (HB : forall k, (k < n_K N)%nat -> bwd_eqs (ma (u_m u)) (mb (u_m u)) (mc (u_m u)) (mP (u_m u)) (g_A G) (u_E u) (u_D u)
                 (n_i1 N k) (n_I1 N k) (n_nk N k) (u_b u)).
  { intros k Hk. eapply backward_recurrence_ok; [apply (wf_layout _ Hwf)| |exact Fb|exact Hk]. intros; cbv beta; lia. }
  assert (RG : forall k j, (k < n_K N)%nat -> (j <= n_nk N k)%nat -> (n_I1 N k + j < n_J N)%nat).
  { intros k j Hk Hj. destruct (wf_range _ Hwf k Hk). lia. }
  destruct (numba_solve_internals (h_h st, h_Q st) (fun k => fst (end_depths N u st' k)) (fun k => snd (end_depths N u st' k))
     (u_f u) (u_b u) (n_i1 N) (n_I1 N) (n_nk N) (n_K N) (n_min N) (n_maxk N) (n_back N)) as [h1 Q1] eqn:ES.
  pose proof (solve_internals_correct _ _ _ _ _ _ _ (n_K N) (n_nk N) (n_i1 N) (n_I1 N) (u_f u) (u_b u)
     (fun k => fst (end_depths N u st' k)) (fun k => snd (end_depths N u st' k))
     (fun k => Q k) (fun k j => h_h st (n_I1 N k + j)%nat) (n_min N) (n_maxk N) (n_back N) (h_h st, h_Q st) h1 Q1
     (wf_layout _ Hwf) HF HB HP) as IC'.
  specialize (IC' ltac:(intros k Hk; split; [exact (proj1 (C k Hk))|]; rewrite XD by auto; simpl; rewrite Nat.add_0_r; auto)
                  ltac:(intros k j Hk J1 J2; split; [apply Rlt_le, Ulo, RG; auto; lia|apply Rlt_le, Uhi; auto]) ES).
  assert (SI : solve_internals (n_back N) (h_h st, h_Q st) (fun k => fst (end_depths N u st' k)) (fun k => snd (end_depths N u st' k))
     (u_f u) (u_b u) (n_i1 N) (n_I1 N) (n_nk N) (n_K N) (n_min N) (n_maxk N)
     = (fun I => if Rltb (h1 I) (n_min N) then n_min N else h1 I, Q1)) by (unfold solve_internals; rewrite ES; reflexivity).
  assert (Eh : forall I, h_h st' I = if Rltb (h1 I) (n_min N) then n_min N else h1 I)
    by (intros I; exact (f_equal (fun p => fst p I) SI)).
  assert (EQ : h_Q st' = Q1) by exact (f_equal snd SI).
  constructor; auto.
  - intros I HI. destruct (CJ I HI) as (k & j & Hk & Hj & ->). rewrite Eh. destruct (IC' k Hk) as [X _]. rewrite X by auto.
    specialize (Ulo _ (RG k j Hk Hj)). destruct (Rltb_spec (h_h st (n_I1 N k + j)%nat) (n_min N)); lra.
  - intros i Hi. destruct (CL i Hi) as (k & j & Hk & Hj & ->). rewrite EQ. destruct (IC' k Hk) as [_ X]. rewrite X by auto. now apply along_link.
Qed.

(** A state that reproduces itself satisfies the equations. *)
Lemma same_carried w dt u H : 0 < dt -> setup_step N G w st st Q0 dt = Some u -> unlimited N st ->
  same_state N (M_Step.solve_step N u st H) st -> carried u /\ (forall j, (j < n_M N)%nat -> H j = h_H st j).
Proof.
  intros Hdt Hu [UH Ulo Uhi] [SH SQe Sh SQ]. set (st' := M_Step.solve_step N u st H) in *.
  assert (XH : forall j, (j < n_M N)%nat -> H j = h_H st j).
  { intros j Hj. specialize (SH j Hj). specialize (UH j Hj). revert SH. unfold st', M_Step.solve_step. cbn [h_H].
    unfold limit_head, Rmin, Rmax. destruct (Rle_dec (H j) (n_zj N j)); destruct (Rle_dec _ (n_zj N j + n_maxj N j)); intros; lra. }
  split; [|exact XH].
  assert (RG : forall k j, (k < n_K N)%nat -> (j <= n_nk N k)%nat -> (n_I1 N k + j < n_J N)%nat).
  { intros k j Hk Hj. destruct (wf_range _ Hwf k Hk). lia. }
  assert (DI : depths_inside N u st').
  { destruct (numba_solve_internals (h_h st, h_Q st) (fun k => fst (end_depths N u st' k)) (fun k => snd (end_depths N u st' k))
     (u_f u) (u_b u) (n_i1 N) (n_I1 N) (n_nk N) (n_K N) (n_min N) (n_maxk N) (n_back N)) as [h1 Q1] eqn:ES.
    assert (SI : solve_internals (n_back N) (h_h st, h_Q st) (fun k => fst (end_depths N u st' k)) (fun k => snd (end_depths N u st' k))
       (u_f u) (u_b u) (n_i1 N) (n_I1 N) (n_nk N) (n_K N) (n_min N) (n_maxk N)
       = (fun I => if Rltb (h1 I) (n_min N) then n_min N else h1 I, Q1)) by (unfold solve_internals; rewrite ES; reflexivity).
    assert (Eh : forall I, h_h st' I = if Rltb (h1 I) (n_min N) then n_min N else h1 I)
      by (intros I; exact (f_equal (fun p => fst p I) SI)).
    intros k Hk. pose proof (numba_solve_internals_eqs _ _ _ _ _ _ _ _ _ _ _ _ _ _ (wf_layout _ Hwf) ES k Hk) as IE.
    pose proof (ie_first _ _ _ _ _ _ _ _ _ _ _ _ IE) as F1. pose proof (ie_last _ _ _ _ _ _ _ _ _ _ _ _ IE) as F2.
    pose proof (RG k 0%nat Hk ltac:(lia)) as R0. rewrite Nat.add_0_r in R0. pose proof (RG k (n_nk N k) Hk ltac:(lia)) as R1.
    split; [|split].
    - pose proof (Ulo _ R0) as X. rewrite <- (Sh _ R0), Eh, F1 in X. destruct (Rltb_spec (fst (end_depths N u st' k)) (n_min N)); lra.
    - pose proof (Ulo _ R1) as X. rewrite <- (Sh _ R1), Eh, F2 in X. destruct (Rltb_spec (snd (end_depths N u st' k)) (n_min N)); lra.
    - intros j J1 J2. assert (R2 : (n_I1 N k + j < n_J N)%nat) by (apply RG; auto; lia). rewrite (Sh _ R2). split; [apply Ulo; auto|apply Uhi; auto]. }
  intros k Hk. destruct (wf_ends _ Hwf k Hk) as [J1 J2]. destruct (SQe k Hk) as [Q1 Q2]. destruct (wf_range _ Hwf k Hk) as [L1 L2].
  destruct (reported_solution N G w st st Q0 dt u H Hwf Hwet Hdt (or_introl Hz) Hend Hu DI k Hk) as ([RM RC] & D1 & D2). cbv zeta in *. fold st' in RM, RC, D1, D2.
  assert (EL : forall j, local_flows (h_Q st') (n_i1 N k) (n_nk N k) (h_Qu st' k) (h_Qd st' k) j = Q k j).
  { intros j. unfold flow_along, local_flows. destruct (Nat.eqb_spec j 0); [exact Q1|]. destruct (Nat.leb_spec j (n_nk N k)); [|exact Q2]. apply SQ. lia. }
  split; [split|].
  - intros j Hj. specialize (RM j Hj). rewrite !EL in RM. rewrite (Sh (n_I1 N k + j)%nat), (Sh (n_I1 N k + (j + 1))%nat) in RM by (apply RG; auto; lia). exact RM.
  - intros j Hj. specialize (RC j Hj). rewrite !EL in RC. rewrite (Sh (n_I1 N k + j)%nat) in RC by (apply RG; auto; lia). exact RC.
  - unfold end_depths, solve_superlink_depths in D1, D2. cbn [fst snd] in D1, D2.
    rewrite Q1, (SH _ J1), (Sh (n_I1 N k)) in D1 by lia. rewrite Q2, (SH _ J2), (Sh (n_I1 N k + n_nk N k)%nat) in D2 by lia. auto.
Qed.
End Net.

(** ** Control flows at an unchanged state *)
Lemma linearised_fixed law Q Hu Hd q : linearises law Q Hu Hd q -> Q = law -> q Hu Hd = law.
Proof.
  intros (_ & Z & L) ->. destruct (Req_dec law 0) as [E|E]; [rewrite (Z E); lra|]. specialize (L E).
  apply Rmult_eq_reg_r with (Rabs law); [exact L|]. now apply Rabs_no_R0.
Qed.

Lemma pump_head_clip H_u H_d M m : m <= M -> Rmax m (Rmin M (H_d - H_u)) = pump_head H_u H_d M m.
Proof.
  intros Hm. unfold pump_head, Rmax, Rmin. destruct (Rltb_spec M (H_d - H_u)); destruct (Rle_dec M (H_d - H_u));
    match goal with |- context [Rltb ?x ?y] => destruct (Rltb_spec x y) end; match goal with |- context [Rle_dec ?x ?y] => destruct (Rle_dec x y) end; lra.
Qed.
(** A flow on the pump curve is what the pump discharges, and what its linearisation around it yields. *)
Lemma pump_fixed Q H_u H_d u z_inv z_p dH_max dH_min a b c : 0 <= u -> 0 < b -> 0 < c -> dH_min <= dH_max <= a ->
  let dH := Rmax dH_min (Rmin dH_max (H_d - H_u)) in
  (H_u <= z_inv + z_p -> Q = 0) -> (z_inv + z_p < H_u -> 0 <= Q /\ b * fpow Q c = u * (a - dH)) ->
  pump_discharge H_u H_d u z_inv z_p dH_max dH_min a b c = Q /\ linear_pump Q H_u H_d u z_inv z_p dH_max dH_min a b c H_u H_d = Q.
Proof.
  intros Hu Hb Hc Hm dH Z L. unfold dH in L. clear dH. destruct (Rle_dec H_u (z_inv + z_p)) as [Hd|Hd].
  - specialize (Z Hd). split.
    + unfold pump_discharge. destruct (Rltb_spec (z_inv + z_p) H_u); [lra|]. cbn [negb]. now rewrite Z.
    + rewrite (proj1 (proj2 (linear_pump_law Q H_u H_d u z_inv z_p dH_max dH_min a b c Hu Hb Hc (proj1 Hm)))); auto.
  - destruct (L ltac:(lra)) as [Q0 E].
    assert (D : pump_discharge H_u H_d u z_inv z_p dH_max dH_min a b c = Q).
    { unfold pump_discharge. destruct (Rltb_spec (z_inv + z_p) H_u); [|lra]. cbn [negb]. rewrite pump_head_clip in E by lra.
      set (d := pump_head H_u H_d dH_max dH_min) in *.
      replace (u / b * (a - d)) with (fpow Q c) by (apply Rmult_eq_reg_l with b; [|lra]; rewrite E; field; lra).
      destruct (Req_dec Q 0) as [->|HQ].
      - assert (X : forall y, 0 < y -> fpow 0 y = 0) by (intros y Hy; unfold fpow; destruct (Reqb_spec 0 0); [|lra]; destruct (Reqb_spec y 0); lra).
        rewrite (X c) by auto. apply X. apply Rmult_lt_0_compat; [lra|now apply Rinv_0_lt_compat].
      - assert (HP : 0 < Q) by lra. unfold fpow at 2. destruct (Reqb_spec Q 0); [lra|].
        unfold fpow. destruct (Reqb_spec (Rpower Q c) 0) as [F|_]; [pose proof (exp_pos (c * ln Q)); unfold Rpower in F; lra|].
        rewrite Rpower_mult. replace (c * (1 / c)) with 1 by (field; lra). now apply Rpower_1. }
    split; [exact D|]. destruct (Req_dec Q 0) as [EQ|HQ].
    + rewrite EQ in *. clear EQ. unfold linear_pump, pump_flow_coefficients. destruct (Rltb_spec (z_inv + z_p) H_u); [|lra]. cbn [negb].
      rewrite pump_head_clip in E by lra.
      assert (X : fpow 0 c = 0) by (unfold fpow; destruct (Reqb_spec 0 0); [|lra]; destruct (Reqb_spec c 0); lra). rewrite X, Rmult_0_r in E.
      assert (Eg : gamma_p 0 b c u * (a - pump_head H_u H_d dH_max dH_min) = 0).
      { destruct (Rmult_integral _ _ (eq_sym E)) as [E0|E0]; rewrite E0; [|ring]. unfold gamma_p, safe_divide. destruct (Reqb _ 0); [ring|unfold Rdiv; ring]. }
      destruct (Rltb dH_min (H_d - H_u) && Rltb (H_d - H_u) dH_max)%bool eqn:E1.
      * apply andb_true_iff in E1. destruct E1 as [E1 E2]. apply Rltb_true in E1, E2. rewrite pump_head_id in Eg by lra. lra.
      * lra.
    + apply (proj2 (proj2 (linear_pump_law Q H_u H_d u z_inv z_p dH_max dH_min a b c Hu Hb Hc (proj1 Hm)))); auto; lra.
Qed.
Lemma pump_on_curve H_u H_d u z_inv z_p dH_max dH_min a b c : 0 <= u -> 0 < b -> 0 < c -> dH_min <= dH_max <= a ->
  let Q := pump_discharge H_u H_d u z_inv z_p dH_max dH_min a b c in
  let dH := Rmax dH_min (Rmin dH_max (H_d - H_u)) in
  (H_u <= z_inv + z_p -> Q = 0) /\ (z_inv + z_p < H_u -> 0 <= Q /\ b * fpow Q c = u * (a - dH)).
Proof.
  intros Hu Hb Hc Hm Q dH. unfold dH. rewrite pump_head_clip by lra. unfold Q, pump_discharge. pose proof (pump_head_range H_u H_d dH_max dH_min ltac:(lra)) as Hr.
  set (d := pump_head H_u H_d dH_max dH_min) in *. split; intros L; (destruct (Rltb_spec (z_inv + z_p) H_u); [|]); cbn [negb]; try lra.
  assert (X0 : 0 <= u / b * (a - d)).
  { apply Rmult_le_pos; [|lra]. apply Rmult_le_pos; [auto|left; now apply Rinv_0_lt_compat]. }
  split; [apply P_Controls.fpow_nonneg; exact X0|].
  assert (Y : u * (a - d) = b * (u / b * (a - d))) by (field; lra). rewrite Y. clear Y. f_equal. set (x := u / b * (a - d)) in *.
  destruct (Req_dec x 0) as [->|Hx].
  - assert (X : forall y, 0 < y -> fpow 0 y = 0) by (intros y Hy; unfold fpow; destruct (Reqb_spec 0 0); [|lra]; destruct (Reqb_spec y 0); lra).
    rewrite (X (1 / c)), X; auto. apply Rmult_lt_0_compat; [lra|now apply Rinv_0_lt_compat].
  - unfold fpow at 2. destruct (Reqb_spec x 0); [lra|]. unfold fpow.
    destruct (Reqb_spec (Rpower x (1 / c)) 0) as [F|_]; [pose proof (exp_pos (1 / c * ln x)); unfold Rpower in F; lra|].
    rewrite Rpower_mult. replace (1 / c * c) with 1 by (field; lra). apply Rpower_1. lra.
Qed.

(** The volume limit of an orifice. *)
Lemma orifice_limit_off q H_u H_d Vu Vd dt : 0 < dt -> Rabs q * dt < (if Rltb H_d H_u then Vu else Vd) -> limit_orifice q H_u H_d Vu Vd dt = q.
Proof.
  intros Hdt HV. unfold limit_orifice. set (V := if Rltb H_d H_u then Vu else Vd) in *.
  assert (X : Rabs q <= V / dt).
  { apply (Rmult_le_reg_r dt); auto. unfold Rdiv. rewrite Rmult_assoc, Rinv_l, Rmult_1_r by lra. lra. }
  rewrite Rmin_left by exact X. unfold sign, Rabs. destruct (Rcase_abs q); destruct (Rltb_spec q 0); destruct (Rltb_spec 0 q); lra.
Qed.
Lemma orifice_limit_inactive q H_u H_d Vu Vd dt : 0 < dt ->
  Rabs (limit_orifice q H_u H_d Vu Vd dt) * dt < (if Rltb H_d H_u then Vu else Vd) -> limit_orifice q H_u H_d Vu Vd dt = q.
Proof.
  intros Hdt HV. destruct (Rlt_dec (Rabs q * dt) (if Rltb H_d H_u then Vu else Vd)) as [L|L]; [now apply orifice_limit_off|]. exfalso. revert HV.
  unfold limit_orifice. set (V := if Rltb H_d H_u then Vu else Vd) in *. intros HV.
  assert (X : V / dt <= Rabs q).
  { apply (Rmult_le_reg_r dt); auto. unfold Rdiv. rewrite Rmult_assoc, Rinv_l, Rmult_1_r by lra. lra. }
  rewrite Rmin_right in HV by exact X.
  destruct (Req_dec q 0) as [Z|Z].
  { rewrite Z, Rabs_R0 in L. unfold sign in HV. rewrite Z in HV. destruct (Rltb_spec 0 0); [lra|]. rewrite Rmult_0_l, Rabs_R0 in HV. lra. }
  assert (S : Rabs (sign q) = 1).
  { unfold sign. destruct (Rltb_spec q 0); [rewrite Rabs_left; lra|]. destruct (Rltb_spec 0 q); [rewrite Rabs_right; lra|lra]. }
  rewrite Rabs_mult, S, Rmult_1_l in HV. pose proof (Rle_abs (V / dt)).
  assert (V / dt * dt = V) by (field; lra).
  assert (V / dt * dt <= Rabs (V / dt) * dt) by (apply Rmult_le_compat_r; lra). lra.
Qed.
