(** Properties C16-C21: the superlink core. *)
From Verif Require Import Prelude M_Coeffs M_Recurrence S_Superlink
  L_Forward L_Backward L_Pivots L_Internals L_Coeffs L_Boundary.

(** ** C16  Momentum coefficients *)

(** For one link with damping factor sigma >= 0: the advection coefficients are non-positive, and
    a + b + c is inertia plus the friction law plus the minor loss of an internal control. *)
Theorem C16_sum_is_inertia_friction_and_minor_losses :
  forall dx dt n Q A Rh A_c C u_I u_Ip1 ctrl sigma sf,
  0 <= sigma -> 0 < A -> 0 < Rh -> 0 < n -> (sf <= 1)%nat ->
  let a := a_ik u_I sigma in
  let c := c_ik u_Ip1 sigma in
  exists b, b_ik dx dt n Q A Rh A_c C a c ctrl sigma sf = Some b /\
    a <= 0 /\ c <= 0 /\
    a + b + c = dx / dt * sigma + friction_law sf Q dx A Rh n + (if ctrl then C * A * Rabs Q / A_c ^ 2 else 0).
Proof.
  intros dx dt n Q A Rh A_c C u_I u_Ip1 ctrl sigma sf Hs HA HR Hn Hsf a c.
  assert (X : exists b, b_ik dx dt n Q A Rh A_c C a c ctrl sigma sf = Some b).
  { unfold b_ik. rewrite friction_law_ok by auto. simpl. eauto. }
  destruct X as [b Eb]. exists b. split; auto. split; [now apply a_nonpos|]. split; [now apply c_nonpos|].
  destruct (momentum_sum _ _ _ _ _ _ _ _ _ _ _ _ _ _ Eb) as (t & Et & E).
  rewrite friction_law_ok in Et by auto. injection Et as <-. exact E.
Qed.

(** Same for Darcy-Weisbach whenever the code does not raise. *)
Theorem C16_sum_with_darcy_weisbach :
  forall dx dt n Q A Rh A_c C u_I u_Ip1 ctrl sigma b,
  0 <= sigma -> 0 < A -> 0 < Rh ->
  let a := a_ik u_I sigma in
  let c := c_ik u_Ip1 sigma in
  b_ik dx dt n Q A Rh A_c C a c ctrl sigma 2 = Some b ->
  a <= 0 /\ c <= 0 /\
  a + b + c = dx / dt * sigma + friction_law 2 Q dx A Rh n + (if ctrl then C * A * Rabs Q / A_c ^ 2 else 0).
Proof.
  intros dx dt n Q A Rh A_c C u_I u_Ip1 ctrl sigma b Hs HA HR a c Eb.
  split; [now apply a_nonpos|]. split; [now apply c_nonpos|].
  destruct (momentum_sum _ _ _ _ _ _ _ _ _ _ _ _ _ _ Eb) as (t & Et & E).
  apply friction_law_darcy in Et; auto. subst t. exact E.
Qed.

(** Code finding: with Darcy-Weisbach friction a wet link without flow raises ZeroDivisionError. *)
Theorem C16_darcy_weisbach_still_water_raises_refuted :
  forall dx dt n A Rh A_c C a c ctrl sigma,
  0 < A -> b_ik dx dt n 0 A Rh A_c C a c ctrl sigma 2 = None.
Proof. intros. unfold b_ik. rewrite darcy_still_water by auto. reflexivity. Qed.

(** For whole networks, with or without inertial damping, at every wet state: coefficients exist, advection
    coefficients are non-positive and every sum a + b + c is strictly positive (also in supercritical flow,
    where inertia is damped to zero). *)
Theorem C16_wet_network_coefficients :
  forall damp L dt NL b0,
  0 < dt ->
  (forall i, (i < NL)%nat ->
    0 < l_A L i /\ 0 < l_R L i /\ 0 < l_dx L i /\ 0 < l_n L i /\
    friction_defined (l_sf L i) (l_Q L i) (l_A L i) (l_R L i) (l_n L i) /\
    (l_ctrl L i = true -> 0 <= l_C L i /\ l_Ac L i <> 0)) ->
  exists m, link_coeffs damp L dt NL b0 = Some m /\
    forall i, (i < NL)%nat -> ma m i <= 0 /\ mc m i <= 0 /\ 0 < ma m i + mb m i + mc m i.
Proof.
  intros damp L dt NL b0 Hdt Hwet.
  destruct (link_coeffs_total damp L dt NL b0 Hwet) as [m Em]. exists m. split; auto.
  eapply link_coeffs_signs; eauto.
Qed.

(** Concrete network used as witness: two superlinks with 3 and 2 links, flows in both directions. *)
Definition ex_links : links :=
  mkLinks (fun _ => 10) (fun _ => 1/100) (fun i => if Nat.eqb i 1 then 1%nat else 0%nat)
          (fun i => INR i - 2) (fun i => INR i) (fun _ => 2) (fun _ => 1/2) (fun _ => 1) (fun _ => 1/1000)
          (fun _ => 1) (fun _ => 1/2) (fun i => Nat.eqb i 2)
          (fun i => Nat.eqb i 0 || Nat.eqb i 3) (fun i => Nat.eqb i 2 || Nat.eqb i 4).
Lemma ex_links_wet : forall i, (i < 5)%nat ->
    0 < l_A ex_links i /\ 0 < l_R ex_links i /\ 0 < l_dx ex_links i /\ 0 < l_n ex_links i /\
    friction_defined (l_sf ex_links i) (l_Q ex_links i) (l_A ex_links i) (l_R ex_links i) (l_n ex_links i) /\
    (l_ctrl ex_links i = true -> 0 <= l_C ex_links i /\ l_Ac ex_links i <> 0).
Proof.
  intros i Hi. simpl. repeat split; try lra. left. destruct (Nat.eqb i 1); lia.
Qed.
Example C16_example : exists m, link_coeffs true ex_links 60 5 (fun _ => 0) = Some m /\ mc m 0%nat < 0.
Proof.
  destruct (C16_wet_network_coefficients true ex_links 60 5 (fun _ => 0) ltac:(lra) ex_links_wet) as (m & E & _).
  exists m. split; auto. destruct (link_coeffs_entries _ _ _ _ _ _ E) as (_ & Ec & _). rewrite Ec.
  unfold c_ik, u_Ip1k, u_ik, damping, Fr_ik; simpl.
  destruct (Reqb_spec 2 0); [lra|]. destruct (Reqb_spec (10 + 10) 0); [lra|].
  assert (Hg : 4 < sqrt (g * 2)).
  { replace 4 with (sqrt 16). apply sqrt_lt_1; unfold g; lra. replace 16 with (4 * 4) by lra. apply sqrt_square; lra. }
  destruct (Reqb_spec (sqrt (g * 2)) 0); [lra|]. rewrite sqrt_1.
  unfold u_ik in *. rewrite (Rabs_left ((0 - 2) / 2)) by lra.
  unfold sigma_ik. destruct (Rltb_spec (- ((0 - 2) / 2) * 1 / sqrt (g * 2)) 0.5) as [|Hc].
  - rewrite Rmax_left by lra. lra.
  - exfalso. apply Hc. apply (Rmult_lt_reg_r (sqrt (g * 2))); [lra|].
    replace (- ((0 - 2) / 2) * 1 / sqrt (g * 2) * sqrt (g * 2)) with 1 by (field; lra). lra.
Qed.

(** Darcy-Weisbach friction with moving water has a value too. *)
Example C16_darcy_example : friction_defined 2 1 1 1 (1/100).
Proof.
  right. split; [reflexivity|]. split; [lra|]. rewrite Rabs_R1.
  set (Re := 1 / 1 * (4 * 1) / 0.0000010034).
  assert (100 < Re) by (unfold Re; apply (Rmult_lt_reg_r 0.0000010034); [lra|]; field_simplify; lra).
  assert (B : 10 < Rpower Re 0.9).
  { apply Rlt_trans with (Rpower 100 0.9).
    - apply Rle_lt_trans with (Rpower 100 (/ 2)).
      + rewrite Rpower_sqrt by lra. replace 100 with (10 * 10) by lra. rewrite sqrt_square; lra.
      + apply Rpower_lt; lra.
    - unfold Rpower. apply exp_increasing. apply Rmult_lt_compat_l; [lra|]. apply ln_increasing; lra. }
  assert (5.74 / Rpower Re 0.9 < 0.6).
  { apply (Rmult_lt_reg_r (Rpower Re 0.9)); [lra|]. unfold Rdiv. rewrite Rmult_assoc, Rinv_l by lra. lra. }
  lra.
Qed.

(** ** C17  Forward elimination *)
Theorem C17_forward_relation_holds_for_every_solution :
  forall a b c P A E D NK nk i_1k I_1k s f,
  layout NK nk i_1k I_1k ->
  numba_forward_recurrence s a b c P A E D NK nk I_1k i_1k = Some f ->
  forall k, (k < NK)%nat ->
  (forall j, (j < nk k)%nat -> fT f (i_1k k + j)%nat <> 0) ->
  forall Q h, superlink_solution a b c P A E D (i_1k k) (I_1k k) (nk k) Q h ->
  forall j, (j < nk k)%nat ->
    Q (j + 1)%nat = fU f (I_1k k + j)%nat * h (j + 1)%nat + fV f (I_1k k + j)%nat
                    + fW f (I_1k k + j)%nat * h 0%nat.
Proof.
  intros a b c P A E D NK nk i_1k I_1k s f Hl Ef k Hk HT Q h HS.
  pose proof (forward_recurrence_ok a b c P A E D s NK nk I_1k i_1k f Hl Ef k Hk) as HF.
  exact (forward_exact a b c P A E D _ _ _ f Q h HF HT HS).
Qed.

(** The relations lose nothing: for any two end depths they are met by an actual solution. *)
Theorem C17_solution_exists_for_any_end_depths :
  forall a b c P A E D NK nk i_1k I_1k s f,
  layout NK nk i_1k I_1k ->
  numba_forward_recurrence s a b c P A E D NK nk I_1k i_1k = Some f ->
  forall k, (k < NK)%nat ->
  (forall j, (j < nk k)%nat -> fT f (i_1k k + j)%nat <> 0) ->
  forall h_u h_d, exists Q h,
    superlink_solution a b c P A E D (i_1k k) (I_1k k) (nk k) Q h /\ h 0%nat = h_u /\ h (nk k) = h_d.
Proof.
  intros a b c P A E D NK nk i_1k I_1k s f Hl Ef k Hk HT h_u h_d.
  pose proof (forward_recurrence_ok a b c P A E D s NK nk I_1k i_1k f Hl Ef k Hk) as HF.
  eapply superlink_solution_exists; eauto. apply Hl; auto.
Qed.

(** ** C18  Backward elimination *)
Theorem C18_backward_relation_holds_for_every_solution :
  forall a b c P A E D NK nk i_1k I_1k s bw,
  layout NK nk i_1k I_1k ->
  numba_backward_recurrence s a b c P A E D NK nk
     (fun k => I_1k k + nk k - 1)%nat (fun k => i_1k k + nk k - 1)%nat = Some bw ->
  forall k, (k < NK)%nat ->
  (forall j, (j < nk k)%nat -> bO bw (i_1k k + j)%nat <> 0) ->
  forall Q h, superlink_solution a b c P A E D (i_1k k) (I_1k k) (nk k) Q h ->
  forall j, (j < nk k)%nat ->
    Q (j + 1)%nat = bX bw (I_1k k + j)%nat * h j + bY bw (I_1k k + j)%nat
                    + bZ bw (I_1k k + j)%nat * h (nk k).
Proof.
  intros a b c P A E D NK nk i_1k I_1k s bw Hl Eb k Hk HO Q h HS.
  assert (HB : bwd_eqs a b c P A E D (i_1k k) (I_1k k) (nk k) bw).
  { eapply backward_recurrence_ok; eauto. all: intros; cbv beta; lia. }
  assert (Hn : (1 <= nk k)%nat) by (apply Hl; auto).
  exact (backward_exact a b c P A E D _ _ _ bw Q h Hn HB HO HS).
Qed.

(** ** C19  No zero pivots *)

(** Whole pipeline from the hydraulic state: with positive areas, radii, lengths, widths, roughness and dt
    and a friction formula that has a value (Darcy-Weisbach: moving water), neither sweep raises, every pivot is non-zero (so no
    silent zero of safe_divide either) and the end coefficients have their physical signs. *)
Theorem C19_sweeps_never_divide_by_zero :
  forall damp L dt NL b0 Q0 h A_SI Bu Bd dxu dxd kI fwdi bwdi isS isE NJ D0 E0 NK nk i_1k I_1k sf sb D E,
  0 < dt ->
  (forall i, (i < NL)%nat ->
    0 < l_A L i /\ 0 < l_R L i /\ 0 < l_dx L i /\ 0 < l_n L i /\
    friction_defined (l_sf L i) (l_Q L i) (l_A L i) (l_R L i) (l_n L i) /\
    (l_ctrl L i = true -> 0 <= l_C L i /\ l_Ac L i <> 0) /\ 0 < l_B L i) ->
  (forall I, (I < NJ)%nat -> 0 <= A_SI I) ->
  (forall k, (k < NK)%nat -> 0 <= Bu k /\ 0 <= Bd k /\ 0 <= dxu k /\ 0 <= dxd k) ->
  layout NK nk i_1k I_1k ->
  chain_tables NK nk i_1k I_1k kI fwdi bwdi isS isE ->
  (forall k, (k < NK)%nat -> (i_1k k + nk k <= NL)%nat /\ (I_1k k + nk k < NJ)%nat) ->
  numba_node_coeffs D0 E0 Q0 (l_B L) h (l_dx L) A_SI Bu Bd dxu dxd kI dt fwdi bwdi isS isE NJ = (D, E) ->
  exists m f bw,
    link_coeffs damp L dt NL b0 = Some m /\
    numba_forward_recurrence sf (ma m) (mb m) (mc m) (mP m) (l_A L) E D NK nk I_1k i_1k = Some f /\
    numba_backward_recurrence sb (ma m) (mb m) (mc m) (mP m) (l_A L) E D NK nk
      (fun k => I_1k k + nk k - 1)%nat (fun k => i_1k k + nk k - 1)%nat = Some bw /\
    (forall k, (k < NK)%nat -> wet_superlink (ma m) (mb m) (mc m) (l_A L) E (i_1k k) (I_1k k) (nk k)) /\
    (forall k j, (k < NK)%nat -> (j < nk k)%nat ->
       0 < fT f (i_1k k + j)%nat /\ fU f (I_1k k + j)%nat < 0 /\ 0 < fW f (I_1k k + j)%nat /\
       0 < bO bw (i_1k k + j)%nat /\ 0 < bX bw (I_1k k + j)%nat /\ bZ bw (I_1k k + j)%nat < 0 /\
       fU f (I_1k k + j)%nat - E (I_1k k + j + 1)%nat < 0 /\ 0 < bX bw (I_1k k + j)%nat + E (I_1k k + j)%nat).
Proof.
  intros damp L dt NL b0 Q0 h A_SI Bu Bd dxu dxd kI fwdi bwdi isS isE NJ D0 E0 NK nk i_1k I_1k sf sb D E
         Hdt Hwet HAS Hends Hl Hct Hrange HDE.
  destruct (C16_wet_network_coefficients damp L dt NL b0 Hdt) as (m & Em & Hm).
  { intros i Hi. destruct (Hwet i Hi) as (? & ? & ? & ? & ? & ? & ?). repeat split; auto; apply H4; auto. }
  assert (Hn : forall k, (k < NK)%nat -> (1 <= nk k)%nat) by apply Hl.
  assert (HW : forall k, (k < NK)%nat -> wet_superlink (ma m) (mb m) (mc m) (l_A L) E (i_1k k) (I_1k k) (nk k)).
  { intros k Hk. destruct (Hrange k Hk) as [HNL HNJ]. split.
    - intros j Hj. destruct (Hwet (i_1k k + j)%nat ltac:(lia)) as (HA & _).
      destruct (Hm (i_1k k + j)%nat ltac:(lia)) as (H1 & H2 & H3). auto.
    - intros j Hj.
      destruct (node_coeffs_entries _ _ _ _ _ _ _ _ _ _ _ _ _ _ _ _ _ _ _ _ HDE (I_1k k + j)%nat ltac:(lia)) as [-> _].
      assert (0 <= node_width (l_B L) (l_dx L) A_SI Bu Bd dxu dxd kI fwdi bwdi isS isE (I_1k k + j)).
      { destruct (Hct k j Hk Hj) as (EkI & EiS & EiE & Ef & Eb). specialize (Hn k Hk).
        pose proof (HAS (I_1k k + j)%nat ltac:(lia)) as HA0. destruct (Hends k Hk) as (P1 & P2 & P3 & P4).
        assert (HP : forall i, (i < NL)%nat -> 0 <= l_B L i * l_dx L i).
        { intros i Hi. destruct (Hwet i Hi) as (_ & _ & ? & _ & _ & _ & ?). apply Rmult_le_pos; lra. }
        unfold node_width. rewrite EiS, EiE, EkI.
        destruct (Nat.eqb_spec j 0).
        - rewrite Ef by lia. pose proof (HP (i_1k k + j)%nat ltac:(lia)).
          assert (0 <= Bu k * dxu k) by (apply Rmult_le_pos; auto). lra.
        - destruct (Nat.eqb_spec j (nk k)).
          + rewrite Eb by lia. pose proof (HP (i_1k k + j - 1)%nat ltac:(lia)).
            assert (0 <= Bd k * dxd k) by (apply Rmult_le_pos; auto). lra.
          + rewrite Ef by lia. pose proof (HP (i_1k k + j)%nat ltac:(lia)).
            pose proof (HP (i_1k k + j - 1)%nat ltac:(lia)). lra. }
      apply div_nonneg_pos; auto. }
  destruct (forward_total (ma m) (mb m) (mc m) (mP m) (l_A L) E D sf NK nk I_1k i_1k Hl HW) as [f Ef].
  destruct (backward_total (ma m) (mb m) (mc m) (mP m) (l_A L) E D sb NK nk i_1k I_1k
             (fun k => I_1k k + nk k - 1)%nat (fun k => i_1k k + nk k - 1)%nat) as [bw Eb]; auto.
  exists m, f, bw. repeat (split; [assumption|]).
  intros k j Hk Hj.
  pose proof (forward_recurrence_ok _ _ _ _ _ _ _ sf NK nk I_1k i_1k f Hl Ef k Hk) as HF.
  assert (HB : bwd_eqs (ma m) (mb m) (mc m) (mP m) (l_A L) E D (i_1k k) (I_1k k) (nk k) bw)
    by (eapply backward_recurrence_ok; eauto; intros; cbv beta; lia).
  destruct (fwd_signs _ _ _ _ _ _ _ _ _ _ _ HF (HW k Hk) j Hj) as (S1 & S2 & S3).
  destruct (bwd_signs _ _ _ _ _ _ _ _ _ _ _ (Hn k Hk) HB (HW k Hk) j Hj) as (S4 & S5 & S6).
  destruct (HW k Hk) as [_ HE]. pose proof (HE j ltac:(lia)). pose proof (HE (S j) Hj).
  replace (I_1k k + S j)%nat with (I_1k k + j + 1)%nat in * by lia.
  repeat split; auto; lra.
Qed.

(** ** C20  Superlink ends *)
Theorem C20_end_flows_and_depths_solve_boundary_system :
  forall (e : ends) (hu hd : headc) H_u H_d Q_u Q_d h_u h_d,
  D_k_star (eX e) (hk hu) (eU e) (hk hd) (eZ e) (eW e) <> 0 ->
  (solve_superlink_flows (superlink_flow_coefficients e hu hd) H_u H_d = (Q_u, Q_d) /\
   solve_superlink_depths hu hd Q_u Q_d H_u H_d = (h_u, h_d))
  <->
  end_equations (eX e) (eY e) (eZ e) (eU e) (eV e) (eW e)
                (hk hu) (hl hu) (hm hu) (hk hd) (hl hd) (hm hd) H_u H_d Q_u Q_d h_u h_d.
Proof.
  intros e hu hd H_u H_d Q_u Q_d h_u h_d HD. split.
  - intros [E1 E2]. eapply boundary_equations; eauto.
  - intros H. eapply boundary_unique; eauto.
Qed.

(** The determinant is at least one (so no silent zero) when the head-loss coefficients have the signs of the
    code's own loss terms and the end conductances are those of a dissipative superlink. *)
Theorem C20_determinant_does_not_vanish :
  forall X U Z W ku kd,
  ku <= 0 -> 0 <= kd -> 0 <= X -> U <= 0 -> Z <= 0 -> 0 <= W -> - Z <= X -> W <= - U ->
  1 <= D_k_star X ku U kd Z W.
Proof. exact determinant_pos. Qed.

(** Head coefficients of the default boundary method: h = H - z_inv - (minor loss), when the junction's head
    reaches the invert, with a loss of C |Q| Q / (2 g A^2) opposing flow into the superlink upstream and
    adding to the junction's head downstream. *)
Theorem C20_default_head_relation :
  forall H z_inv Q Qp dx A C Rh n sf S_o dt hu hd, A <> 0 -> z_inv <= H ->
  upstream_head_coefficients BCz H z_inv Q Qp dx A C Rh n sf S_o dt = Some hu ->
  downstream_head_coefficients BCz H z_inv Q Qp dx A C Rh n sf S_o dt = Some hd ->
  forall q H', 
    hk hu * q + hl hu * H' + hm hu = H' - z_inv - C * Rabs Q * q / (2 * 9.81 * A ^ 2) /\
    hk hd * q + hl hd * H' + hm hd = H' - z_inv + C * Rabs Q * q / (2 * 9.81 * A ^ 2).
Proof.
  intros H z_inv Q Qp dx A C Rh n sf S_o dt hu hd HA Hz E1 E2 q H'.
  injection E1 as <-. injection E2 as <-. simpl.
  unfold theta_k. destruct (Rleb_spec z_inv H); [|lra].
  unfold gamma_uk, gamma_dk. pose proof (sq_pos A HA).
  rewrite !safe_divide_nz by (unfold g; lra). unfold g. split; field; lra.
Qed.

Example C20_example :
  D_k_star 2 (-1/2) (-3) (1/4) (-1) 2 <> 0 /\
  (let e := mkEnds 2 (1/2) (-1) (-3) (1/3) 2 in
   let hu := mkHead (-1/2) 1 (-7) in let hd := mkHead (1/4) 1 (-6) in
   exists Qu Qd, solve_superlink_flows (superlink_flow_coefficients e hu hd) 10 8 = (Qu, Qd) /\ Qu <> 0).
Proof.
  split.
  - pose proof (determinant_pos 2 (-3) (-1) 2 (-1/2) (1/4)). lra.
  - cbv zeta. eexists _, _. split; [reflexivity|].
    unfold superlink_flow_coefficients, alpha_uk, beta_uk, chi_uk, D_k_star; simpl.
    rewrite !safe_divide_nz by lra. lra.
Qed.

(** ** C21  Reconstruction *)

(** From the heads to the reported state of a superlink with the default end method: if no interior depth sits on
    a limit and the end depths are not below min_depth, then what the user sees (end flows, internal flows,
    depths) satisfies the momentum equation of each link and continuity at each junction. *)
Theorem C21_reported_state_satisfies_momentum_and_continuity :
  forall a b c P A E D NK nk i_1k I_1k sf f sb bw (hu hd : nat -> headc) H_u H_d Q_uk Q_dk h_uk h_dk
         min_depth max_depth_k back s h' Q',
  layout NK nk i_1k I_1k ->
  numba_forward_recurrence sf a b c P A E D NK nk I_1k i_1k = Some f ->
  numba_backward_recurrence sb a b c P A E D NK nk
     (fun k => I_1k k + nk k - 1)%nat (fun k => i_1k k + nk k - 1)%nat = Some bw ->
  (forall k j, (k < NK)%nat -> (j < nk k)%nat ->
     fT f (i_1k k + j)%nat <> 0 /\ bO bw (i_1k k + j)%nat <> 0 /\ bX bw (I_1k k + j)%nat <> 0) ->
  (forall k, (k < NK)%nat ->
     let e := end_coeffs false f bw E D (I_1k k) (I_1k k + nk k - 1) (I_1k k + nk k) in
     D_k_star (eX e) (hk (hu k)) (eU e) (hk (hd k)) (eZ e) (eW e) <> 0 /\
     solve_superlink_flows (superlink_flow_coefficients e (hu k) (hd k)) (H_u k) (H_d k) = (Q_uk k, Q_dk k) /\
     solve_superlink_depths (hu k) (hd k) (Q_uk k) (Q_dk k) (H_u k) (H_d k) = (h_uk k, h_dk k)) ->
  solve_internals back s h_uk h_dk f bw i_1k I_1k nk NK min_depth max_depth_k = (h', Q') ->
  forall k, (k < NK)%nat ->
  min_depth <= h_uk k -> min_depth <= h_dk k ->
  (forall j, (1 <= j)%nat -> (j < nk k)%nat -> min_depth < h' (I_1k k + j)%nat < max_depth_k k) ->
  superlink_solution a b c P A E D (i_1k k) (I_1k k) (nk k)
    (local_flows Q' (i_1k k) (nk k) (Q_uk k) (Q_dk k)) (fun j => h' (I_1k k + j)%nat) /\
  h' (I_1k k) = h_uk k /\ h' (I_1k k + nk k)%nat = h_dk k.
Proof.
  intros a b c P A E D NK nk i_1k I_1k sf f sb bw hu hd H_u H_d Q_uk Q_dk h_uk h_dk
         min_depth max_depth_k back s h' Q' Hl Ef Eb Hpiv Hends Esol k Hk Hu Hd Hin.
  assert (Hn : (1 <= nk k)%nat) by (apply Hl; auto).
  pose proof (forward_recurrence_ok _ _ _ _ _ _ _ sf NK nk I_1k i_1k f Hl Ef k Hk) as HF.
  assert (HB : bwd_eqs a b c P A E D (i_1k k) (I_1k k) (nk k) bw) by (eapply backward_recurrence_ok; eauto; intros; cbv beta; lia).
  assert (HT : forall j, (j < nk k)%nat -> fT f (i_1k k + j)%nat <> 0) by (intros; apply Hpiv; auto).
  assert (HO : forall j, (j < nk k)%nat -> bO bw (i_1k k + j)%nat <> 0) by (intros; apply Hpiv; auto).
  unfold solve_internals in Esol.
  destruct (numba_solve_internals s h_uk h_dk f bw i_1k I_1k nk NK min_depth max_depth_k back) as [h1 Q1] eqn:E1.
  injection Esol as Eh EQ. subst Q'.
  pose proof (numba_solve_internals_eqs NK nk i_1k I_1k f bw h_uk h_dk min_depth max_depth_k back s h1 Q1 Hl E1 k Hk) as IE.
  pose proof (ie_first _ _ _ _ _ _ _ _ _ _ _ _ IE) as F1. pose proof (ie_last _ _ _ _ _ _ _ _ _ _ _ _ IE) as F2.
  assert (Ehh : forall j, (j <= nk k)%nat -> h' (I_1k k + j)%nat = h1 (I_1k k + j)%nat).
  { intros j Hj. subst h'. simpl.
    destruct (Nat.eq_dec j 0) as [->|]; [|destruct (Nat.eq_dec j (nk k)) as [->|]].
    - rewrite Nat.add_0_r, F1. destruct (Rltb_spec (h_uk k) min_depth); lra.
    - rewrite F2. destruct (Rltb_spec (h_dk k) min_depth); lra.
    - specialize (Hin j ltac:(lia) ltac:(lia)). simpl in Hin.
      destruct (Rltb_spec (h1 (I_1k k + j)%nat) min_depth); lra. }
  destruct (internals_output_solution a b c P A E D (i_1k k) (I_1k k) (nk k) f bw (h_uk k) (h_dk k)
             min_depth (max_depth_k k) back h1 Q1 Hn HF HB HT HO) as (Q & HS & HQ); auto.
  { intros j Hj1 Hj2. apply Hpiv; auto. }
  { intros j Hj1 Hj2. rewrite <- Ehh by lia. apply Hin; auto. }
  destruct (Hends k Hk) as (HD & Efl & Edp).
  pose proof (end_meaning a b c P A E D (i_1k k) (I_1k k) (nk k) f bw Hn HF HB HT HO false Q _ HS) as EM.
  cbv zeta in EM. destruct EM as [EM1 EM2].
  destruct (boundary_equations _ _ _ HD _ _ _ _ _ _ Efl Edp) as (B1 & B2 & _ & _).
  rewrite Nat.add_0_r, F1, F2 in EM1. rewrite Nat.add_0_r, F1, F2 in EM2.
  assert (Q0E : Q 0%nat = Q_uk k) by congruence.
  assert (QNE : Q (nk k + 1)%nat = Q_dk k) by congruence.
  assert (LF : forall j, (j <= nk k + 1)%nat -> local_flows Q1 (i_1k k) (nk k) (Q_uk k) (Q_dk k) j = Q j).
  { intros j Hj. unfold local_flows. destruct (Nat.eqb_spec j 0) as [->|]; [auto|].
    destruct (Nat.leb_spec j (nk k)).
    - replace (i_1k k + j - 1)%nat with (i_1k k + (j - 1))%nat by lia. rewrite HQ by lia.
      f_equal; lia.
    - replace j with (nk k + 1)%nat by lia. auto. }
  split; [|split].
  - destruct HS as [HM HC]. split.
    + intros j Hj. rewrite !LF, !Ehh by lia. apply HM; auto.
    + intros j Hj. rewrite !LF, !Ehh by lia. apply HC; auto.
  - specialize (Ehh 0%nat ltac:(lia)). rewrite Nat.add_0_r in Ehh. congruence.
  - rewrite Ehh by lia. auto.
Qed.

(** Volume balance of a superlink: width times depth change summed over its junctions is dt times (inflow at the
    upstream end minus outflow at the downstream end plus lateral inflow). *)
Theorem C21_superlink_conserves_volume :
  forall dt D0 E0 Q0 B hp dx A_SI Bu Bd dxu dxd kI fwdi bwdi isS isE NJ D E a b c P A i1 I1 n Q h,
  0 < dt ->
  numba_node_coeffs D0 E0 Q0 B hp dx A_SI Bu Bd dxu dxd kI dt fwdi bwdi isS isE NJ = (D, E) ->
  (I1 + n < NJ)%nat ->
  superlink_solution a b c P A E D i1 I1 n Q h ->
  let width := node_width B dx A_SI Bu Bd dxu dxd kI fwdi bwdi isS isE in
  sum_n (fun j => width (I1 + j)%nat * (h j - hp (I1 + j)%nat)) (n + 1)
  = dt * (Q 0%nat - Q (n + 1)%nat + sum_n (fun j => Q0 (I1 + j)%nat) (n + 1)).
Proof.
  intros dt D0 E0 Q0 B hp dx A_SI Bu Bd dxu dxd kI fwdi bwdi isS isE NJ D E a b c P A i1 I1 n Q h
         Hdt HDE HNJ [_ HC] width.
  assert (G : forall m, (m <= n + 1)%nat ->
     sum_n (fun j => width (I1 + j)%nat * (h j - hp (I1 + j)%nat)) m
     = dt * (Q 0%nat - Q m + sum_n (fun j => Q0 (I1 + j)%nat) m)).
  { induction m as [|m IH]; intros Hm.
    - simpl. lra.
    - simpl. rewrite IH by lia. specialize (HC m ltac:(lia)).
      destruct (node_coeffs_entries _ _ _ _ _ _ _ _ _ _ _ _ _ _ _ _ _ _ _ _ HDE (I1 + m)%nat ltac:(lia)) as [EE ED].
      rewrite EE, ED in HC. replace (m + 1)%nat with (S m) in HC by lia. fold width in HC.
      assert (X : width (I1 + m)%nat * (h m - hp (I1 + m)%nat) = dt * (Q m - Q (S m) + Q0 (I1 + m)%nat)).
      { assert (Y : Q m - Q (S m) = (width (I1 + m)%nat * (h m - hp (I1 + m)%nat)) / dt - Q0 (I1 + m)%nat)
          by (rewrite <- HC; field; lra).
        rewrite Y. field. lra. }
      rewrite X. ring. }
  apply G; lia.
Qed.

(** ** Witnesses for C17, C18, C19 and C21 *)

(** The two-superlink network of [ex_links] (3 and 2 links, 4 and 3 junctions). *)
Definition ex_nk (k : nat) : nat := if Nat.eqb k 0 then 3%nat else 2%nat.
Definition ex_i1 (k : nat) : nat := if Nat.eqb k 0 then 0%nat else 3%nat.
Definition ex_I1 (k : nat) : nat := if Nat.eqb k 0 then 0%nat else 4%nat.
Definition ex_kI (I : nat) : nat := if Nat.leb I 3 then 0%nat else 1%nat.
Definition ex_fwdi (I : nat) : nat := if Nat.leb I 3 then I else (I - 1)%nat.
Definition ex_bwdi (I : nat) : nat := if Nat.leb I 3 then (I - 1)%nat else (I - 2)%nat.
Definition ex_isS (I : nat) : bool := Nat.eqb I 0 || Nat.eqb I 4.
Definition ex_isE (I : nat) : bool := Nat.eqb I 3 || Nat.eqb I 6.

Lemma ex_layout : layout 2 ex_nk ex_i1 ex_I1.
Proof.
  split.
  - intros [|[|k]] H; unfold ex_nk; simpl; lia.
  - intros [|[|k]] [|[|k']] H H'; unfold ex_nk, ex_i1, ex_I1; simpl; lia.
Qed.

Lemma ex_chain : chain_tables 2 ex_nk ex_i1 ex_I1 ex_kI ex_fwdi ex_bwdi ex_isS ex_isE.
Proof.
  intros [|[|k]] j Hk Hj; [| |lia]; unfold ex_nk in Hj; simpl in Hj;
    do 4 (destruct j as [|j]; [cbn; repeat split; auto; lia|]); lia.
Qed.

Example C19_example : exists m f bw D E,
    numba_node_coeffs (fun _ => 0) (fun _ => 0) (fun _ => 0) (l_B ex_links) (fun _ => 1) (l_dx ex_links) (fun _ => 0)
      (fun _ => 1) (fun _ => 1) (fun _ => 1) (fun _ => 1) ex_kI 60 ex_fwdi ex_bwdi ex_isS ex_isE 7 = (D, E) /\
    link_coeffs true ex_links 60 5 (fun _ => 0) = Some m /\
    numba_forward_recurrence (mkFwd (fun _ => 0) (fun _ => 0) (fun _ => 0) (fun _ => 0))
      (ma m) (mb m) (mc m) (mP m) (l_A ex_links) E D 2 ex_nk ex_I1 ex_i1 = Some f /\
    numba_backward_recurrence (mkBwd (fun _ => 0) (fun _ => 0) (fun _ => 0) (fun _ => 0))
      (ma m) (mb m) (mc m) (mP m) (l_A ex_links) E D 2 ex_nk
      (fun k => ex_I1 k + ex_nk k - 1)%nat (fun k => ex_i1 k + ex_nk k - 1)%nat = Some bw /\
    (forall k j, (k < 2)%nat -> (j < ex_nk k)%nat -> fT f (ex_i1 k + j)%nat <> 0 /\ bO bw (ex_i1 k + j)%nat <> 0) /\
    exists Q h, superlink_solution (ma m) (mb m) (mc m) (mP m) (l_A ex_links) E D (ex_i1 1) (ex_I1 1) (ex_nk 1) Q h
                /\ h 0%nat = 2 /\ h (ex_nk 1) = 1.
Proof.
  destruct (numba_node_coeffs (fun _ => 0) (fun _ => 0) (fun _ => 0) (l_B ex_links) (fun _ => 1) (l_dx ex_links) (fun _ => 0)
      (fun _ => 1) (fun _ => 1) (fun _ => 1) (fun _ => 1) ex_kI 60 ex_fwdi ex_bwdi ex_isS ex_isE 7) as [D E] eqn:EDE.
  destruct (C19_sweeps_never_divide_by_zero true ex_links 60 5 (fun _ => 0) (fun _ => 0) (fun _ => 1) (fun _ => 0)
     (fun _ => 1) (fun _ => 1) (fun _ => 1) (fun _ => 1) ex_kI ex_fwdi ex_bwdi ex_isS ex_isE 7 (fun _ => 0) (fun _ => 0)
     2 ex_nk ex_i1 ex_I1 (mkFwd (fun _ => 0) (fun _ => 0) (fun _ => 0) (fun _ => 0))
     (mkBwd (fun _ => 0) (fun _ => 0) (fun _ => 0) (fun _ => 0)) D E) as (m & f & bw & E1 & E2 & E3 & _ & S).
  - lra.
  - intros i Hi. pose proof (ex_links_wet i Hi) as (X1 & X2 & X3 & X4 & X5 & X6).
    repeat split; auto; try (apply X6; auto). simpl; lra.
  - intros; lra.
  - intros; lra.
  - exact ex_layout.
  - exact ex_chain.
  - intros [|[|k]] Hk; unfold ex_i1, ex_I1, ex_nk; simpl; lia.
  - exact EDE.
  - exists m, f, bw, D, E. split; [reflexivity|]. repeat (split; [assumption|]). split.
    + intros k j Hk Hj. destruct (S k j Hk Hj) as (A1 & _ & _ & A2 & _). lra.
    + eapply C17_solution_exists_for_any_end_depths; [exact ex_layout|exact E2|lia|].
      intros j Hj. destruct (S 1%nat j ltac:(lia) Hj) as (A1 & _). lra.
Qed.

(** A superlink with two links in steady flow: depths 3, 2, 1 and unit flow are reproduced by the solver. *)
Example C21_example :
  let z := (fun _ => 0) : arr in
  let b := (fun _ => 1) : arr in
  let A := (fun _ => / 9.81) : arr in
  let E := (fun _ => 1) : arr in
  let D := (fun I => 3 - INR I) : arr in
  let hc := mkHead 0 1 0 in
  exists f bw h' Q',
    numba_forward_recurrence (mkFwd z z z z) z b z z A E D 1 (fun _ => 2%nat) (fun _ => 0%nat) (fun _ => 0%nat) = Some f /\
    numba_backward_recurrence (mkBwd z z z z) z b z z A E D 1 (fun _ => 2%nat) (fun _ => 1%nat) (fun _ => 1%nat) = Some bw /\
    let e := end_coeffs false f bw E D 0 1 2 in
    D_k_star (eX e) 0 (eU e) 0 (eZ e) (eW e) <> 0 /\
    solve_superlink_flows (superlink_flow_coefficients e hc hc) 3 1 = (1, 1) /\
    solve_superlink_depths hc hc 1 1 3 1 = (3, 1) /\
    solve_internals true (z, z) (fun _ => 3) (fun _ => 1) f bw (fun _ => 0%nat) (fun _ => 0%nat) (fun _ => 2%nat) 1
                    (1/2) (fun _ => 5) = (h', Q') /\
    h' 1%nat = 2 /\ Q' 0%nat = 1 /\ Q' 1%nat = 1.
Proof.
  intros z b A E D hc.
  assert (Hl : layout 1 (fun _ => 2%nat) (fun _ => 0%nat) (fun _ => 0%nat)) by (split; intros; lia).
  assert (Hw : wet_superlink z b z A E 0 0 2).
  { split; intros; unfold z, b, A, E; simpl; repeat split; try lra. }
  destruct (forward_total z b z z A E D (mkFwd z z z z) 1 (fun _ => 2%nat) (fun _ => 0%nat) (fun _ => 0%nat) Hl) as [f Ef].
  { intros; exact Hw. }
  destruct (backward_total z b z z A E D (mkBwd z z z z) 1 (fun _ => 2%nat) (fun _ => 0%nat) (fun _ => 0%nat)
             (fun _ => 1%nat) (fun _ => 1%nat) Hl) as [bw Eb].
  { intros; simpl; lia. } { intros; exact Hw. }
  pose proof (forward_recurrence_ok _ _ _ _ _ _ _ _ _ _ _ _ f Hl Ef 0%nat ltac:(lia)) as HF.
  assert (HB : bwd_eqs z b z z A E D 0 0 2 bw)
    by (refine (backward_recurrence_ok z b z z A E D _ 1 (fun _ => 2%nat) (fun _ => 0%nat) (fun _ => 0%nat)
               (fun _ => 1%nat) (fun _ => 1%nat) bw Hl _ Eb 0%nat _); [intros; simpl; lia|lia]).
  pose proof (fwd_signs _ _ _ _ _ _ _ _ _ _ _ HF Hw) as SF.
  pose proof (bwd_signs _ _ _ _ _ _ _ _ _ _ _ (le_S _ _ (le_n 1)) HB Hw) as SB.
  assert (HS : superlink_solution z b z z A E D 0 0 2 (fun _ => 1) (fun j => 3 - INR j)).
  { split; intros j Hj.
    - unfold z, b, A. rewrite plus_INR. simpl. field_simplify; lra.
    - unfold E, D. simpl. lra. }
  assert (HT : forall j, (j < 2)%nat -> fT f (0 + j)%nat <> 0) by (intros j Hj; pose proof (SF j Hj) as (? & _); lra).
  assert (HO : forall j, (j < 2)%nat -> bO bw (0 + j)%nat <> 0) by (intros j Hj; pose proof (SB j Hj) as (? & _); lra).
  set (e := end_coeffs false f bw E D 0 1 2).
  assert (HD : D_k_star (eX e) 0 (eU e) 0 (eZ e) (eW e) <> 0) by (unfold D_k_star; lra).
  destruct (end_meaning z b z z A E D 0 0 2 f bw ltac:(lia) HF HB HT HO false _ _ HS) as [M1 M2].
  change (end_coeffs false f bw E D 0 (0 + 2 - 1) (0 + 2)) with e in M1, M2.
  replace (3 - INR 0) with 3 in M1, M2 by (simpl; lra). replace (3 - INR 2) with 1 in M1, M2 by (simpl; lra).
  destruct (boundary_unique e hc hc HD 3 1 1 1 3 1) as [B1 B2].
  { unfold end_equations; simpl. repeat split; auto; lra. }
  destruct (solve_internals true (z, z) (fun _ => 3) (fun _ => 1) f bw (fun _ => 0%nat) (fun _ => 0%nat) (fun _ => 2%nat) 1
                    (1/2) (fun _ => 5)) as [h' Q'] eqn:ES.
  exists f, bw, h', Q'. split; [exact Ef|]. split; [exact Eb|]. cbv zeta. fold e.
  split; [exact HD|]. split; [exact B1|]. split; [exact B2|]. split; [exact ES|].
  unfold solve_internals in ES.
  destruct (numba_solve_internals _ _ _ _ _ _ _ _ _ _ _ _) as [h1 Q1] eqn:E1 in ES.
  injection ES as Eh EQ.
  destruct (solve_internals_correct z b z z A E D 1 (fun _ => 2%nat) (fun _ => 0%nat) (fun _ => 0%nat) f bw
    (fun _ => 3) (fun _ => 1) (fun _ _ => 1) (fun _ j => 3 - INR j) (1/2) (fun _ => 5) true (z, z) h1 Q1 Hl) with (k := 0%nat)
    as [R1 R2]; auto.
  - intros k j Hk Hj. pose proof (SB j Hj) as (X1 & X2 & _). pose proof (SF j Hj) as (X3 & _). simpl in *. lra.
  - intros k Hk. split; [exact HS|]. simpl. lra.
  - intros k j Hk H1 H2. replace j with 1%nat by lia. simpl. lra.
  - subst h' Q'. specialize (R1 1%nat ltac:(lia)). simpl Nat.add in R1. simpl INR in R1. rewrite R1.
    pose proof (R2 0%nat ltac:(lia)) as Z0. pose proof (R2 1%nat ltac:(lia)) as Z1. simpl Nat.add in Z0, Z1. rewrite Z0, Z1.
    destruct (Rltb_spec (3 - 1) (1/2)); repeat split; lra.
Qed.
