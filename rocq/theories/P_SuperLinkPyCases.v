(** C67, continued: momentum coefficients of the two classes, generated networks, and concrete cases. *)
From Verif Require Import Prelude M_Coeffs M_Recurrence M_Layout M_SuperLinkPy S_Superlink S_Layout L_Coeffs L_Forward
  L_Backward L_Pivots P_Layout P_SuperLinkPy.
From Coq Require Import List.
Import ListNotations.

(** The networks the constructor builds are numbered as the sweeps assume. *)
Lemma generated_numbered n NK : (1 <= n)%nat -> numbered NK (generated_tables n NK).
Proof.
  intros Hn. destruct (C38_generated_tables_form_chains n NK Hn) as (HL & HC & _ & _ & HE & HN). cbv zeta in *.
  set (T := generated_tables n NK) in *. constructor.
  - exact HL.
  - intros k Hk. destruct (HE k Hk) as (-> & H1 & H2 & H3). auto.
  - intros k j Hk Hj. destruct (HC k j Hk Hj) as (_ & H1 & H2 & _). auto.
  - intros k j Hk Hj. destruct (HC k j Hk ltac:(lia)) as (_ & _ & _ & H3 & _).
    destruct (HE k Hk) as (En & _). destruct (HN k j Hk ltac:(lia)) as (H1 & H2 & _). auto.
Qed.

(** ** Momentum coefficients *)

(** In links with Manning friction and no control structure, without damping and in the first pass of a step, both
    classes compute the same momentum coefficients. *)
Theorem C67_momentum_coefficients_agree :
  forall L before after dt NL b0 m i,
  (forall i, 0 <= l_A L i) ->
  link_coeffs false L dt NL b0 = Some m -> (i < NL)%nat ->
  l_sf L i = 0%nat -> l_ctrl L i = false -> l_Qp L i = l_Q L i ->
  (l_start L i = false -> before i = (i - 1)%nat) -> (l_end L i = false -> after i = (i + 1)%nat) ->
  py_link_coeffs false L before after dt i = Some (ma m i, mb m i, mc m i, mP m i).
Proof.
  intros L before after dt NL b0 m i HA E Hi Hsf Hc HQ Hb Ha.
  destruct (link_coeffs_entries false L dt NL b0 m E) as (Ea & Ec & EP & Eb). specialize (Eb i Hi).
  assert (HU : forall j, py_u_ik (l_Q L j) (l_A L j) = u_ik (l_Q L j) (l_A L j)).
  { intros j. unfold py_u_ik, u_ik, safe_divide. specialize (HA j). destruct (Rltb_spec 0 (l_A L j)).
    - reflexivity.
    - destruct (Reqb_spec 0 0); [|lra]. destruct (Reqb_spec (l_A L j) 0); [reflexivity|lra]. }
  assert (E1 : py_u_Ik (l_dx L) (fun i => py_u_ik (l_Q L i) (l_A L i)) (l_start L) before i =
               u_Ik (l_dx L) (fun i => u_ik (l_Q L i) (l_A L i)) (l_start L) i).
  { unfold py_u_Ik, u_Ik. rewrite !HU. destruct (l_start L i); auto. rewrite Hb by auto. reflexivity. }
  assert (E2 : py_u_Ip1k (l_dx L) (fun i => py_u_ik (l_Q L i) (l_A L i)) (l_end L) after i =
               u_Ip1k (l_dx L) (fun i => u_ik (l_Q L i) (l_A L i)) (l_end L) i).
  { unfold py_u_Ip1k, u_Ip1k. rewrite !HU. destruct (l_end L i); auto. rewrite Ha by auto. reflexivity. }
  unfold py_link_coeffs. rewrite E1, E2. unfold damping in *. cbn [damping] in *.
  rewrite Ea, Ec in *. unfold b_ik, friction_slope in Eb. rewrite Hsf, Hc in Eb. unfold py_b_ik. rewrite Hc.
  cbv zeta in Eb |- *. rewrite Eb. cbn [bind]. rewrite EP, HQ. reflexivity.
Qed.

(** A single link with supercritical flow. *)
Definition fast (damp_ctrl : bool) : links :=
  mkLinks (fun _ => 1) (fun _ => 0) (fun _ => 0%nat) (fun _ => 4) (fun _ => 4) (fun _ => 1) (fun _ => 1) (fun _ => 9.81)
          (fun _ => 0) (fun _ => 1) (fun _ => 2) (fun _ => damp_ctrl) (fun _ => true) (fun _ => true).

Lemma fast_friction : do x <- div (g * 0 ^ 2 * Rabs 4 * 1) 1; div x (fpow 1 (4 / 3)) = Some 0.
Proof.
  unfold div, fpow. destruct (Reqb_spec 1 0); [lra|]. cbn [bind].
  assert (E : Rpower 1 (4 / 3) = 1) by (unfold Rpower; rewrite ln_1, Rmult_0_r; apply exp_0). rewrite E.
  destruct (Reqb_spec 1 0); [lra|]. f_equal. field.
Qed.

(** With inertial damping, or with a control structure in a link, the coefficients differ. *)
Theorem C67_damped_and_controlled_links_refuted :
  (exists L m b p, (forall i, 0 < l_A L i) /\ l_ctrl L 0%nat = false /\
     link_coeffs true L 1 1 (fun _ => 0) = Some m /\
     py_link_coeffs true L (fun i => i) (fun i => i) 1 0 = Some (ma m 0%nat, b, mc m 0%nat, p) /\ b <> mb m 0%nat) /\
  (exists L m b p, (forall i, 0 < l_A L i) /\ l_ctrl L 0%nat = true /\
     link_coeffs false L 1 1 (fun _ => 0) = Some m /\
     py_link_coeffs false L (fun i => i) (fun i => i) 1 0 = Some (ma m 0%nat, b, mc m 0%nat, p) /\ b <> mb m 0%nat).
Proof.
  assert (PU : py_u_ik 4 1 = 4).
  { unfold py_u_ik, safe_divide. destruct (Rltb_spec 0 1); [|lra]. destruct (Reqb_spec 1 0); lra. }
  assert (NU : u_ik 4 1 = 4) by (unfold u_ik; destruct (Reqb_spec 1 0); lra).
  assert (FS : friction_slope 4 1 1 1 0 0 = Some 0).
  { unfold friction_slope. destruct (Rltb_spec 0 1); [|lra]. apply fast_friction. }
  assert (SG : damping true 4 1 9.81 = 0).
  { unfold damping, Fr_ik, g. rewrite Rmult_1_r. assert (0 < sqrt 9.81) by (apply sqrt_lt_R0; lra).
    destruct (Reqb_spec (sqrt 9.81) 0); [lra|]. rewrite Rabs_right by lra.
    replace (4 * sqrt 9.81 / sqrt 9.81) with 4 by (field; lra). unfold sigma_ik.
    destruct (Rltb_spec 4 0.5); [lra|]. destruct (Rltb_spec 1 4); lra. }
  split.
  - destruct (link_coeffs true (fast false) 1 1 (fun _ => 0)) as [m|] eqn:Em.
    2:{ exfalso. unfold link_coeffs in Em. cbn [for_opt fast l_dx l_n l_sf l_Q l_A l_R l_Ac l_C l_ctrl l_B] in Em.
        unfold b_ik in Em. rewrite FS in Em. discriminate. }
    destruct (link_coeffs_entries _ _ _ _ _ _ Em) as (Ea & Ec & EP & Eb). specialize (Eb 0%nat (le_n 1)). cbv zeta in *.
    specialize (Ea 0%nat). specialize (Ec 0%nat).
    cbn [fast l_dx l_n l_sf l_Q l_Qp l_A l_R l_Ac l_C l_ctrl l_B l_start l_end l_So] in *.
    unfold u_Ik in Ea. unfold u_Ip1k in Ec. rewrite NU, SG in *.
    exists (fast false), m, 1, 0. split; [intros; cbn; lra|]. split; [reflexivity|]. split; [exact Em|].
    unfold b_ik in Eb. rewrite FS in Eb. cbn [bind] in Eb. injection Eb as Eb.
    unfold py_link_coeffs, py_u_Ik, py_u_Ip1k, py_b_ik.
    cbn [fast l_dx l_n l_sf l_Q l_Qp l_A l_R l_Ac l_C l_ctrl l_B l_start l_end l_So] in *.
    rewrite PU, SG. destruct (Rltb_spec 0 1); [|lra]. rewrite fast_friction. cbn [bind].
    unfold a_ik, c_ik in *. rewrite Ea, Ec in *. split.
    + apply (f_equal Some); apply (f_equal2 pair); [apply (f_equal2 pair); [apply (f_equal2 pair)|]|]; unfold P_ik; try reflexivity; try (field; lra).
    + rewrite <- Eb. lra.
  - destruct (link_coeffs false (fast true) 1 1 (fun _ => 0)) as [m|] eqn:Em.
    2:{ exfalso. unfold link_coeffs in Em. cbn [for_opt fast l_dx l_n l_sf l_Q l_A l_R l_Ac l_C l_ctrl l_B] in Em.
        unfold b_ik in Em. rewrite FS in Em. discriminate. }
    destruct (link_coeffs_entries _ _ _ _ _ _ Em) as (Ea & Ec & EP & Eb). specialize (Eb 0%nat (le_n 1)). cbv zeta in *.
    specialize (Ea 0%nat). specialize (Ec 0%nat).
    cbn [fast l_dx l_n l_sf l_Q l_Qp l_A l_R l_Ac l_C l_ctrl l_B l_start l_end l_So damping] in *.
    unfold u_Ik in Ea. unfold u_Ip1k in Ec. rewrite NU in *.
    exists (fast true), m, (6), 4. split; [intros; cbn; lra|]. split; [reflexivity|]. split; [exact Em|].
    unfold b_ik in Eb. rewrite FS in Eb. cbn [bind] in Eb. injection Eb as Eb.
    unfold py_link_coeffs, py_u_Ik, py_u_Ip1k, py_b_ik.
    cbn [fast l_dx l_n l_sf l_Q l_Qp l_A l_R l_Ac l_C l_ctrl l_B l_start l_end l_So damping] in *.
    rewrite PU. destruct (Rltb_spec 0 1); [|lra]. rewrite fast_friction. cbn [bind].
    unfold a_ik, c_ik in *. rewrite Ea, Ec in *. rewrite (Rmax_left 4 0) in * by lra.
    rewrite (Rmax_right (- (4)) 0) in * by lra. rewrite (Rabs_right 4) in * by lra. split.
    + apply (f_equal Some); apply (f_equal2 pair); [apply (f_equal2 pair); [apply (f_equal2 pair)|]|]; unfold P_ik; try reflexivity; try (field; lra).
    + rewrite <- Eb. lra.
Qed.

(** ** A concrete case: two superlinks of three links each *)
Example C67_example :
  numbered 2 (generated_tables 3 2) /\
  (exists f w, numba_forward_recurrence (mkFwd (fun _ => 0) (fun _ => 0) (fun _ => 0) (fun _ => 0))
     (fun _ => 0) (fun _ => 1) (fun _ => 0) (fun _ => 0) (fun _ => 1) (fun _ => 1) (fun _ => 1)
     2 (t_nk (generated_tables 3 2)) (t_I_1k (generated_tables 3 2)) (t_i_1k (generated_tables 3 2)) = Some f /\
   numba_backward_recurrence (mkBwd (fun _ => 0) (fun _ => 0) (fun _ => 0) (fun _ => 0))
     (fun _ => 0) (fun _ => 1) (fun _ => 0) (fun _ => 0) (fun _ => 1) (fun _ => 1) (fun _ => 1)
     2 (t_nk (generated_tables 3 2)) (t_I_Nk (generated_tables 3 2)) (t_i_nk (generated_tables 3 2)) = Some w) /\
  exists m, link_coeffs false (fast false) 1 1 (fun _ => 0) = Some m /\
    py_link_coeffs false (fast false) (fun i => i) (fun i => i) 1 0 = Some (ma m 0%nat, mb m 0%nat, mc m 0%nat, mP m 0%nat).
Proof.
  assert (HT : numbered 2 (generated_tables 3 2)) by (apply generated_numbered; lia). split; [exact HT|]. split.
  - assert (W : forall i1 I1 n, wet_superlink (fun _ => 0) (fun _ => 1) (fun _ => 0) (fun _ => 1) (fun _ => 1) i1 I1 n)
      by (split; intros; repeat split; lra).
    edestruct forward_total as [f Ef]; [apply (nb_layout _ _ HT)|intros; apply W|].
    edestruct backward_total as [w Ew]; [apply (nb_layout _ _ HT)| |intros; apply W|].
    { intros k Hk. destruct (nb_ends _ _ HT k Hk) as (_ & X & Y). split; [exact Y|exact X]. }
    exists f, w. split; [exact Ef|exact Ew].
  - destruct (link_coeffs false (fast false) 1 1 (fun _ => 0)) as [m|] eqn:Em.
    + exists m. split; auto. eapply C67_momentum_coefficients_agree; eauto; try reflexivity; try discriminate.
      intros; cbn; lra.
    + exfalso. unfold link_coeffs in Em. cbn [for_opt fast l_dx l_n l_sf l_Q l_A l_R l_Ac l_C l_ctrl l_B] in Em.
      unfold b_ik, friction_slope in Em. destruct (Rltb_spec 0 1); [|lra]. rewrite fast_friction in Em. discriminate.
Qed.
