(** C65, continued: agreement with the default reconstruction, a concrete case, and superlinks with different numbers of
    links. *)
From Verif Require Import Prelude M_Coeffs M_Recurrence M_LeastSquares S_Network S_Superlink S_Model S_LeastSquares
  L_LeastSquares L_LeastSquaresChain L_LeastSquaresNn L_Forward L_Backward L_Internals L_Boundary L_Pivots L_Gauss
  P_LeastSquares.

(** Two exact solutions of a wet superlink with the same end depths are equal. *)
Lemma wet_solution_unique a b c P A E D i1 I1 n f bw Q h Q2 h2 :
  (1 <= n)%nat -> fwd_eqs a b c P A E D i1 I1 n f -> bwd_eqs a b c P A E D i1 I1 n bw ->
  wet_superlink a b c A E i1 I1 n ->
  superlink_solution a b c P A E D i1 I1 n Q h -> superlink_solution a b c P A E D i1 I1 n Q2 h2 ->
  h2 O = h O -> h2 n = h n ->
  (forall j, (j <= n)%nat -> h2 j = h j) /\ (forall j, (1 <= j)%nat -> (j <= n)%nat -> Q2 j = Q j).
Proof.
  intros Hn HF HB Hw HS HS2 E0 En.
  pose proof (fwd_signs _ _ _ _ _ _ _ _ _ _ _ HF Hw) as SF.
  pose proof (bwd_signs _ _ _ _ _ _ _ _ _ _ _ Hn HB Hw) as SB.
  assert (HT : forall j, (j < n)%nat -> fT f (i1 + j)%nat <> 0) by (intros j Hj; pose proof (SF j Hj); lra).
  assert (HO : forall j, (j < n)%nat -> bO bw (i1 + j)%nat <> 0) by (intros j Hj; pose proof (SB j Hj); lra).
  pose proof (forward_exact a b c P A E D i1 I1 n f Q2 h2 HF HT HS2) as XF.
  pose proof (backward_exact a b c P A E D i1 I1 n bw Q2 h2 Hn HB HO HS2) as XB.
  pose proof (forward_exact a b c P A E D i1 I1 n f Q h HF HT HS) as YF.
  assert (WE : forall j, (j <= n)%nat -> with_ends n (h O) (h n) (fun c => h2 (c + 1)%nat) j = h2 j).
  { intros j Hj. unfold with_ends. destruct (Nat.eqb_spec j 0) as [->|]; [auto|].
    destruct (Nat.eqb_spec j n) as [->|]; [auto|]. f_equal; lia. }
  assert (HH : forall j, (j <= n)%nat -> h2 j = h j).
  { intros j Hj. rewrite <- WE by auto.
    refine (minimiser_exact a b c P A E D i1 I1 n f bw (h O) (h n) Q h (fun c => h2 (c + 1)%nat) Hn HF HB Hw HS eq_refl eq_refl _ j Hj).
    rewrite !residual_disagreement by auto. unfold disagreement at 1. rewrite sum_n_0.
    - apply sum_n_nonneg. intros; apply sq_nonneg.
    - intros r Hr. rewrite !WE by lia. specialize (XF r Hr). specialize (XB r Hr). cbv beta in *.
      replace (_ - _) with 0 by lra. simpl. ring. }
  split; [exact HH|]. intros j Hj1 Hj2. replace j with (j - 1 + 1)%nat by lia.
  rewrite XF, YF by lia. rewrite !HH by lia. reflexivity.
Qed.

(** 'lsq' and the default methods 'b', 'f' report the same depths and flows in wet superlinks where neither limits a
    depth. *)
Theorem C65_agrees_with_the_default_methods :
  forall lin T h a b c P A E D sf f sb bw h_uk h_dk min_depth max_depth_k back s h1 Q1,
  contiguous T -> (forall k, (k < c_NK T)%nat -> c_nk T k = c_nk T 0%nat \/ c_nk T k = 1%nat) ->
  sound_solver lin -> (forall n, solver n (lin n)) ->
  numba_forward_recurrence sf a b c P A E D (c_NK T) (c_nk T) (c_I1 T) (c_i1 T) = Some f ->
  numba_backward_recurrence sb a b c P A E D (c_NK T) (c_nk T)
     (fun k => c_I1 T k + c_nk T k - 1)%nat (fun k => c_i1 T k + c_nk T k - 1)%nat = Some bw ->
  (forall k, (k < c_NK T)%nat -> wet_superlink a b c A E (c_i1 T k) (c_I1 T k) (c_nk T k)) ->
  solve_internals back s h_uk h_dk f bw (c_i1 T) (c_I1 T) (c_nk T) (c_NK T) min_depth max_depth_k = (h1, Q1) ->
  exists h2 Q2, solve_internals_lsq lin T h h_uk h_dk f bw min_depth = Some (h2, Q2) /\
  forall k, (k < c_NK T)%nat -> min_depth <= h_uk k -> min_depth <= h_dk k ->
  (forall j, (1 <= j)%nat -> (j < c_nk T k)%nat ->
     min_depth < h1 (c_I1 T k + j)%nat < max_depth_k k /\ min_depth < h2 (c_I1 T k + j)%nat) ->
  (forall j, (j <= c_nk T k)%nat -> h2 (c_I1 T k + j)%nat = h1 (c_I1 T k + j)%nat) /\
  (forall j, (j < c_nk T k)%nat -> Q2 (c_i1 T k + j)%nat = Q1 (c_i1 T k + j)%nat).
Proof.
  intros lin T h a b c P A E D sf f sb bw h_uk h_dk min_depth max_depth_k back s h1 Q1 HT He Hs Hsol Ef Eb Hw Esol.
  destruct (C65_wet_superlinks_are_reconstructed_exactly lin T h a b c P A E D sf f sb bw h_uk h_dk min_depth
             HT He Hs Hsol Ef Eb Hw) as (h2 & Q2 & E2 & R). exists h2, Q2. split; [exact E2|].
  intros k Hk Hu Hd Hin. destruct (R k Hk Hu Hd) as (Z0 & Zn & Q & HS & HQ); [intros; apply Hin; auto|].
  pose proof (layout_of_contiguous T HT) as Hl. pose proof (nk_pos T HT k Hk) as Hn.
  pose proof (forward_recurrence_ok _ _ _ _ _ _ _ sf _ _ _ _ f Hl Ef k Hk) as HF.
  assert (HB : bwd_eqs a b c P A E D (c_i1 T k) (c_I1 T k) (c_nk T k) bw)
    by (eapply backward_recurrence_ok; eauto; intros; cbv beta; lia).
  pose proof (fwd_signs _ _ _ _ _ _ _ _ _ _ _ HF (Hw k Hk)) as SF.
  pose proof (bwd_signs _ _ _ _ _ _ _ _ _ _ _ Hn HB (Hw k Hk)) as SB.
  assert (HT' : forall j, (j < c_nk T k)%nat -> fT f (c_i1 T k + j)%nat <> 0) by (intros i Hi; pose proof (SF i Hi); lra).
  assert (HO : forall j, (j < c_nk T k)%nat -> bO bw (c_i1 T k + j)%nat <> 0) by (intros i Hi; pose proof (SB i Hi); lra).
  unfold solve_internals in Esol.
  destruct (numba_solve_internals s h_uk h_dk f bw (c_i1 T) (c_I1 T) (c_nk T) (c_NK T) min_depth max_depth_k back)
    as [h0 Q0] eqn:E0. injection Esol as Eh EQ. subst Q1.
  pose proof (numba_solve_internals_eqs _ _ _ _ f bw h_uk h_dk min_depth max_depth_k back s h0 Q0 Hl E0 k Hk) as IE.
  pose proof (ie_first _ _ _ _ _ _ _ _ _ _ _ _ IE) as F1. pose proof (ie_last _ _ _ _ _ _ _ _ _ _ _ _ IE) as F2.
  assert (Ehh : forall j, (j <= c_nk T k)%nat -> h1 (c_I1 T k + j)%nat = h0 (c_I1 T k + j)%nat).
  { intros j Hj. subst h1. cbv beta.
    destruct (Nat.eq_dec j 0) as [->|]; [|destruct (Nat.eq_dec j (c_nk T k)) as [->|]].
    - rewrite Nat.add_0_r, F1. destruct (Rltb_spec (h_uk k) min_depth); lra.
    - rewrite F2. destruct (Rltb_spec (h_dk k) min_depth); lra.
    - destruct (Hin j ltac:(lia) ltac:(lia)) as [G _]. cbv beta in G.
      destruct (Rltb_spec (h0 (c_I1 T k + j)%nat) min_depth); lra. }
  destruct (internals_output_solution a b c P A E D (c_i1 T k) (c_I1 T k) (c_nk T k) f bw (h_uk k) (h_dk k)
             min_depth (max_depth_k k) back h0 Q0 Hn HF HB HT' HO) as (Qd & HSd & HQd); auto.
  { intros j Hj1 Hj2. pose proof (SB j Hj2). lra. }
  { intros j Hj1 Hj2. rewrite <- Ehh by lia. apply Hin; auto. }
  destruct (wet_solution_unique a b c P A E D _ _ _ f bw Qd _ Q _ Hn HF HB (Hw k Hk) HSd HS) as [U1 U2].
  { cbv beta. rewrite Nat.add_0_r, F1. exact Z0. }
  { cbv beta. rewrite F2. exact Zn. }
  cbv beta in U1. split.
  - intros j Hj. rewrite Ehh by auto. apply U1; auto.
  - intros j Hj. rewrite HQ, HQd by auto. apply U2; lia.
Qed.

(** ** Two superlinks with three and two links *)
Definition uneven : chain :=
  mkChain 2 5 7 (fun k => if Nat.eqb k 0 then 3 else 2)%nat (fun k => if Nat.eqb k 0 then 0 else 3)%nat
    (fun k => if Nat.eqb k 0 then 0 else 4)%nat (fun I => if Nat.ltb I 4 then 0 else 1)%nat
    (fun i => if Nat.ltb i 3 then 0 else 1)%nat (fun i => if Nat.ltb i 3 then i else i + 1)%nat
    (fun I => Nat.eqb I 0 || Nat.eqb I 4) (fun I => Nat.eqb I 3 || Nat.eqb I 6)
    (fun i => Nat.eqb i 0 || Nat.eqb i 3) (fun i => Nat.eqb i 2 || Nat.eqb i 4).

Lemma uneven_contiguous : contiguous uneven.
Proof.
  constructor; try reflexivity.
  - intros [|[|k]] H; simpl in *; lia.
  - intros [|[|k]] H; simpl in *; [split; reflexivity|split; reflexivity|lia].
  - intros [|[|k]] j Hk Hj; simpl in Hk, Hj; [| |lia].
    + destruct j as [|[|[|[|j]]]]; try lia; repeat split.
    + destruct j as [|[|[|j]]]; try lia; repeat split.
  - intros [|[|k]] j Hk Hj; simpl in Hk, Hj; [| |lia].
    + destruct j as [|[|[|j]]]; try lia; repeat split.
    + destruct j as [|[|j]]; try lia; repeat split.
Qed.

(** Unit steady flow: depths 4, 3, 2, 1 in the first superlink and 3, 2, 1 in the second. *)
Definition u_z : arr := fun _ => 0.
Definition u_b : arr := fun _ => 1.
Definition u_A : arr := fun _ => / 9.81.
Definition u_E : arr := fun _ => 1.
Definition u_D : arr := fun I => if Nat.ltb I 4 then 4 - INR I else 7 - INR I.

Lemma u_wet i1 I1 n : wet_superlink u_z u_b u_z u_A u_E i1 I1 n.
Proof. split; intros; unfold u_z, u_b, u_A, u_E; repeat split; lra. Qed.

Lemma u_solution : superlink_solution u_z u_b u_z u_z u_A u_E u_D 3 4 2 (fun _ => 1) (fun j => 3 - INR j).
Proof.
  split; intros j Hj.
  - unfold u_z, u_b, u_A. rewrite plus_INR. simpl. field_simplify; lra.
  - unfold u_E, u_D. destruct j as [|[|[|j]]]; try lia; simpl; lra.
Qed.

(** With different numbers of links the reconstruction of the second superlink uses coefficients of the first: the
    exact solution is not reported, nor is any best fit. *)
Theorem C65_uneven_links_refuted :
  exists T a b c P A E D sf f sb bw h_uk h_dk,
  contiguous T /\
  numba_forward_recurrence sf a b c P A E D (c_NK T) (c_nk T) (c_I1 T) (c_i1 T) = Some f /\
  numba_backward_recurrence sb a b c P A E D (c_NK T) (c_nk T)
     (fun k => c_I1 T k + c_nk T k - 1)%nat (fun k => c_i1 T k + c_nk T k - 1)%nat = Some bw /\
  (forall k, (k < c_NK T)%nat -> wet_superlink a b c A E (c_i1 T k) (c_I1 T k) (c_nk T k)) /\
  superlink_solution a b c P A E D (c_i1 T 1%nat) (c_I1 T 1%nat) (c_nk T 1%nat) (fun _ => 1) (fun j => 3 - INR j) /\
  h_uk 1%nat = 3 /\ h_dk 1%nat = 1 /\
  forall lin h, (forall n, solver n (lin n)) -> sound_solver lin ->
  exists h' Q', solve_internals_lsq lin T h h_uk h_dk f bw (1/2) = Some (h', Q') /\
    1/2 < h' (c_I1 T 1%nat + 1)%nat /\ h' (c_I1 T 1%nat + 1)%nat <> 2 /\
    superlink_disagreement T f bw 1 (fun j => 3 - INR j) < superlink_disagreement T f bw 1 (fun j => h' (c_I1 T 1%nat + j)%nat).
Proof.
  pose (T := uneven). pose proof uneven_contiguous as HT. pose proof (layout_of_contiguous _ HT) as Hl.
  destruct (forward_total u_z u_b u_z u_z u_A u_E u_D (mkFwd u_z u_z u_z u_z) (c_NK T) (c_nk T) (c_I1 T) (c_i1 T) Hl) as [f Ef].
  { intros; apply u_wet. }
  destruct (backward_total u_z u_b u_z u_z u_A u_E u_D (mkBwd u_z u_z u_z u_z) (c_NK T) (c_nk T) (c_i1 T) (c_I1 T)
             (fun k => c_I1 T k + c_nk T k - 1)%nat (fun k => c_i1 T k + c_nk T k - 1)%nat Hl) as [bw Eb].
  { intros; cbv beta; lia. } { intros; apply u_wet. }
  exists T, u_z, u_b, u_z, u_z, u_A, u_E, u_D, (mkFwd u_z u_z u_z u_z), f, (mkBwd u_z u_z u_z u_z), bw,
    (fun k => if Nat.eqb k 0 then 4 else 3), (fun _ => 1).
  split; [exact HT|]. split; [exact Ef|]. split; [exact Eb|]. split; [intros; apply u_wet|]. split; [exact u_solution|].
  split; [reflexivity|]. split; [reflexivity|].
  intros lin h Hsol Hs.
  set (h_uk := fun k => if Nat.eqb k 0 then 4 else 3). set (h_dk := fun _ : nat => 1).
  assert (HF : forall k, (k < 2)%nat -> fwd_eqs u_z u_b u_z u_z u_A u_E u_D (c_i1 T k) (c_I1 T k) (c_nk T k) f)
    by (intros k Hk; exact (forward_recurrence_ok _ _ _ _ _ _ _ _ _ _ _ _ f Hl Ef k Hk)).
  assert (HB : forall k, (k < 2)%nat -> bwd_eqs u_z u_b u_z u_z u_A u_E u_D (c_i1 T k) (c_I1 T k) (c_nk T k) bw)
    by (intros k Hk; eapply backward_recurrence_ok; eauto; intros; cbv beta; lia).
  pose proof (HF 0%nat ltac:(lia)) as F0. pose proof (HF 1%nat ltac:(lia)) as F1.
  pose proof (HB 0%nat ltac:(lia)) as B0. pose proof (HB 1%nat ltac:(lia)) as B1.
  (* the coefficients that are read *)
  assert (gA : g * / 9.81 = 1) by (unfold g; field; lra).
  assert (T0 : fT f 0%nat = 1) by (pose proof (fe_T0 _ _ _ _ _ _ _ _ _ _ _ F0) as X; simpl in X; rewrite X; unfold T_1k, u_z, u_b; lra).
  assert (U0 : fU f 0%nat = -1).
  { pose proof (fe_U0 _ _ _ _ _ _ _ _ _ _ _ F0) as X. simpl in X. rewrite X, T0.
    unfold U_1k, u_z, u_A, u_E. rewrite safe_divide_nz by lra. rewrite Rmult_0_r, gA. field. }
  assert (T1 : fT f 1%nat = 3/2).
  { pose proof (fe_T _ _ _ _ _ _ _ _ _ _ _ F0 0%nat ltac:(simpl; lia)) as X. simpl in X. rewrite X, U0.
    unfold T_ik, u_z, u_A, u_E, u_b. rewrite safe_divide_nz by lra. replace (g * / 9.81) with 1. field. }
  assert (U1 : fU f 1%nat = -2/3).
  { pose proof (fe_U _ _ _ _ _ _ _ _ _ _ _ F0 0%nat ltac:(simpl; lia)) as X. simpl in X. rewrite X, T1.
    unfold U_Ik, u_z, u_A, u_E. rewrite safe_divide_nz by lra. rewrite Rmult_0_r, gA. field. }
  assert (U4 : fU f 4%nat = -1).
  { pose proof (fe_U0 _ _ _ _ _ _ _ _ _ _ _ F1) as X. pose proof (fe_T0 _ _ _ _ _ _ _ _ _ _ _ F1) as Y.
    simpl in X, Y. rewrite X, Y.
    unfold U_1k, T_1k, u_z, u_A, u_E, u_b. rewrite safe_divide_nz by lra. rewrite Rmult_0_r, gA. field. }
  assert (X2 : bX bw 2%nat = 1).
  { pose proof (be_X0 _ _ _ _ _ _ _ _ _ _ _ _ B0) as X. pose proof (be_O0 _ _ _ _ _ _ _ _ _ _ _ _ B0) as Y.
    simpl in X, Y. rewrite X, Y. unfold X_Nk, O_nk, u_z, u_A, u_E, u_b. rewrite safe_divide_nz by lra.
    rewrite Rmult_0_r, gA. field. }
  assert (X5 : bX bw 5%nat = 1).
  { pose proof (be_X0 _ _ _ _ _ _ _ _ _ _ _ _ B1) as X. pose proof (be_O0 _ _ _ _ _ _ _ _ _ _ _ _ B1) as Y.
    simpl in X, Y. rewrite X, Y. unfold X_Nk, O_nk, u_z, u_A, u_E, u_b. rewrite safe_divide_nz by lra.
    rewrite Rmult_0_r, gA. field. }
  (* right-hand side of the second superlink *)
  destruct (right_hand_side_spec T HT f bw h_uk h_dk) as (v & Ev & Hv).
  pose proof (fwd_signs _ _ _ _ _ _ _ _ _ _ _ F1 (u_wet _ _ _)) as SF.
  pose proof (bwd_signs _ _ _ _ _ _ _ _ _ _ _ (le_S 1 1 (le_n 1)) B1 (u_wet _ _ _)) as SB.
  assert (HT' : forall j, (j < 2)%nat -> fT f (3 + j)%nat <> 0) by (intros j Hj; pose proof (SF j Hj) as X; change (c_i1 T 1%nat) with 3%nat in X; lra).
  assert (HO : forall j, (j < 2)%nat -> bO bw (3 + j)%nat <> 0) by (intros j Hj; pose proof (SB j Hj) as X; change (c_i1 T 1%nat) with 3%nat in X; lra).
  pose proof (forward_exact _ _ _ _ _ _ _ 3 4 2 f _ _ F1 HT' u_solution) as XF.
  pose proof (backward_exact _ _ _ _ _ _ _ 3 4 2 bw _ _ ltac:(lia) B1 HO u_solution) as XB.
  assert (V3 : v 3%nat = -2 /\ v 4%nat = -2).
  { pose proof (Hv 1%nat 0%nat ltac:(simpl; lia) ltac:(simpl; lia)) as A0.
    pose proof (Hv 1%nat 1%nat ltac:(simpl; lia) ltac:(simpl; lia)) as A1.
    cbv [link_rhs at_ T uneven c_i1 c_I1 c_nk Nat.eqb Nat.add h_uk h_dk] in A0, A1.
    pose proof (XF 0%nat ltac:(lia)) as P0. pose proof (XF 1%nat ltac:(lia)) as P1.
    pose proof (XB 0%nat ltac:(lia)) as R0. pose proof (XB 1%nat ltac:(lia)) as R1.
    simpl in P0, P1, R0, R1. rewrite U4 in P0. rewrite X5 in R1. split; lra. }
  destruct V3 as [V3 V4].
  (* the loop *)
  destruct (solve_internals_lsq lin T h h_uk h_dk f bw (1/2)) as [[h' Q']|] eqn:ES.
  - exists h', Q'. split; [reflexivity|].
    unfold solve_internals_lsq in ES. rewrite Ev in ES. cbn [bind] in ES.
    destruct (numba_solve_internals_ls _ _ _ _ _ _ _ _ _ _) as [h1|] eqn:E1 in ES; [|discriminate]. cbn [bind] in ES.
    assert (I5 : h1 5%nat = 30 / 13).
    { unfold numba_solve_internals_ls in E1. change (c_NK T) with 2%nat in E1.
      cbn [for_opt] in E1.
      match type of E1 with match ?x with _ => _ end = _ => destruct x as [hh|]; [|discriminate] end.
      cbv zeta in E1. change (c_nk T 1%nat) with 2%nat in E1. change (k_1k T 1) with 1%nat in E1.
      change (c_I1 T 1%nat) with 4%nat in E1. change (c_i1 T 1%nat) with 3%nat in E1.
      replace (fill_matrix (compress (fU f) (mask_U T) (c_NJ T)) (compress (bX bw) (mask_X T) (c_NJ T)) 1 2)
        with (Some (upd2 (upd2 (fun _ _ => 0) 0 0 (fU f 1%nat)) 1 0 (- bX bw 2%nat))) in E1 by reflexivity.
      cbn [bind] in E1. change (2 - 1)%nat with 1%nat in E1.
      destruct (lin _ _ _) as [inner|] eqn:El in E1; [|discriminate]. cbn [bind] in E1. injection E1 as <-.
      apply Hs in El. specialize (El 0%nat ltac:(lia)). unfold row_holds in El.
      cbn [sum_n] in El. rewrite fill_diagonal_entry in El.
      unfold normal_matrix, normal_rhs in El. cbn [sum_n] in El. unfold upd2 in El.
      simpl in El. rewrite U1, X2, V3, V4 in El.
      match type of El with context [Reqb ?x 0] => destruct (Reqb_spec x 0) as [Z|Z]; [lra|] end.
      replace (write_inner hh inner 4 2 5%nat) with (inner 0%nat) by reflexivity. lra. }
    injection ES as Eh EQ.
    assert (H5 : h' 5%nat = 30 / 13).
    { subst h'. cbv beta.
      match goal with |- (if Rltb (put_masked ?a ?m ?n ?w ?c 5%nat) _ then _ else _) = _ =>
        replace (put_masked a m n w c 5%nat) with (h1 5%nat) by reflexivity end.
      rewrite I5. destruct (Rltb_spec (30 / 13) (1 / 2)); lra. }
    assert (H4 : h' 4%nat = 3).
    { subst h'. cbv beta.
      match goal with |- (if Rltb (put_masked ?a ?m ?n ?w ?c 4%nat) _ then _ else _) = _ =>
        replace (put_masked a m n w c 4%nat) with 3 by reflexivity end.
      destruct (Rltb_spec 3 (1 / 2)); lra. }
    assert (H6 : h' 6%nat = 1).
    { subst h'. cbv beta.
      match goal with |- (if Rltb (put_masked ?a ?m ?n ?w ?c 6%nat) _ then _ else _) = _ =>
        replace (put_masked a m n w c 6%nat) with 1 by reflexivity end.
      destruct (Rltb_spec 1 (1 / 2)); lra. }
    change (c_I1 T 1%nat) with 4%nat. simpl Nat.add. rewrite H5. split; [lra|]. split; [lra|].
    pose proof (XF 0%nat ltac:(lia)) as P0. pose proof (XF 1%nat ltac:(lia)) as P1.
    pose proof (XB 0%nat ltac:(lia)) as R0. pose proof (XB 1%nat ltac:(lia)) as R1.
    unfold superlink_disagreement, disagreement. change (c_nk T 1%nat) with 2%nat. cbn [sum_n]. unfold at_.
    change (c_I1 T 1%nat) with 4%nat. simpl Nat.add in *. rewrite H4, H5, H6. simpl INR in *.
    rewrite U4 in *. rewrite X5 in *.
    cbv beta in P0, P1, R0, R1. change (INR 0) with 0 in *. change (INR 1) with 1 in *. change (INR 2) with (1 + 1) in *.
    match goal with |- 0 + ?p ^ 2 + ?q ^ 2 < 0 + ?x ^ 2 + ?y ^ 2 => replace p with 0 by lra; replace q with 0 by lra;
      replace x with (- (30/13 - 2)) by lra; replace y with (- (30/13 - 2)) by lra end.
    simpl. lra.
  - exfalso.
    unfold solve_internals_lsq in ES. rewrite Ev in ES. cbn [bind] in ES.
    destruct (numba_solve_internals_ls _ _ _ _ _ _ _ _ _ _) as [h1|] eqn:E1 in ES; [discriminate|]. clear ES.
    unfold numba_solve_internals_ls in E1. change (c_NK T) with 2%nat in E1. cbn [for_opt] in E1.
    destruct (fill_ok T HT f bw 0 ltac:(simpl; lia) (or_introl eq_refl)) as (Ak & EA & HA).
    pose proof (fwd_signs _ _ _ _ _ _ _ _ _ _ _ F0 (u_wet _ _ _)) as SF0.
    cbv zeta in E1. rewrite EA in E1. cbn [bind] in E1.
    assert (Ker : forall w, (forall r, (r < c_nk T 0)%nat -> sum_n (fun c => Ak r c * w c) (c_nk T 0 - 1) = 0) ->
                    forall c, (c < c_nk T 0 - 1)%nat -> w c = 0).
    { intros w Hw. apply (link_kernel (at_ T (fU f) 0) (at_ T (bX bw) 0) (c_nk T 0)).
      - intros r Hr. pose proof (SF0 r Hr). unfold at_. lra.
      - intros r Hr. rewrite <- (Hw r Hr). apply sum_n_ext. intros c Hc. rewrite HA by auto. reflexivity. }
    destruct (Hsol (c_nk T 0 - 1)%nat (fill_diagonal (normal_matrix Ak (c_nk T 0)) (c_nk T 0 - 1))
               (normal_rhs Ak (fun r => v (c_i1 T 0 + r)%nat) (c_nk T 0))) as (inner & El & _).
    { apply (normal_exists _ _ Ak (fun r => v (c_i1 T 0 + r)%nat) Ker). }
    { apply (normal_unique _ _ Ak (fun r => v (c_i1 T 0 + r)%nat) Ker). }
    rewrite El in E1. cbn [bind] in E1.
    change (c_nk T 1%nat) with 2%nat in E1. change (k_1k T 1) with 1%nat in E1.
    change (c_i1 T 1%nat) with 3%nat in E1.
    replace (fill_matrix (compress (fU f) (mask_U T) (c_NJ T)) (compress (bX bw) (mask_X T) (c_NJ T)) 1 2)
      with (Some (upd2 (upd2 (fun _ _ => 0) 0 0 (fU f 1%nat)) 1 0 (- bX bw 2%nat))) in E1 by reflexivity.
    cbn [bind] in E1. set (A2 := upd2 _ 1 0 _) in E1.
    assert (Ker2 : forall w, (forall r, (r < 2)%nat -> sum_n (fun c => A2 r c * w c) (2 - 1) = 0) ->
                    forall c, (c < 2 - 1)%nat -> w c = 0).
    { intros w Hw c Hc. replace c with 0%nat by lia. specialize (Hw 1%nat ltac:(lia)). simpl in Hw.
      unfold A2, upd2 in Hw. simpl in Hw. rewrite X2 in Hw. lra. }
    destruct (Hsol (2 - 1)%nat (fill_diagonal (normal_matrix A2 2) (2 - 1))
               (normal_rhs A2 (fun r => v (3 + r)%nat) 2)) as (inner2 & El2 & _).
    { apply (normal_exists _ _ A2 (fun r => v (3 + r)%nat) Ker2). }
    { apply (normal_unique _ _ A2 (fun r => v (3 + r)%nat) Ker2). }
    rewrite El2 in E1. discriminate.
Qed.

(** ** A concrete case: one superlink with two links in unit steady flow, depths 3, 2, 1 *)

(** A non-negative least-squares solver for problems whose unconstrained minimiser is non-negative. *)
Definition small_nnls (rows cols : nat) (A : mat) (b : arr) : option arr :=
  do x <- gauss cols (fill_diagonal (normal_matrix A rows) cols) (normal_rhs A b rows);
  if forallb (fun c => Rleb 0 (x c)) (seq 0 cols) then Some x else None.
Lemma small_nnls_sound : sound_nnls small_nnls.
Proof.
  intros rows cols A b x E. unfold small_nnls in E.
  destruct (gauss _ _ _) as [x0|] eqn:E0 in E; [|discriminate]. cbn [bind] in E.
  destruct (forallb _ _) eqn:Ef in E; [|discriminate]. injection E as ->. split.
  - intros c Hc. rewrite forallb_forall in Ef. specialize (Ef c ltac:(apply in_seq; lia)). now apply Rleb_true in Ef.
  - intros y _. apply normal_best. apply gauss_sound in E0. exact E0.
Qed.

Definition single : chain :=
  mkChain 1 2 3 (fun _ => 2)%nat (fun _ => 0)%nat (fun _ => 0)%nat (fun _ => 0)%nat (fun _ => 0)%nat (fun i => i)
    (fun I => Nat.eqb I 0) (fun I => Nat.eqb I 2) (fun i => Nat.eqb i 0) (fun i => Nat.eqb i 1).
Lemma single_contiguous : contiguous single.
Proof.
  constructor; try reflexivity.
  - intros k H. simpl. lia.
  - intros [|k] H; simpl in *; [split; reflexivity|lia].
  - intros [|k] j Hk Hj; simpl in Hk, Hj; [|lia]. destruct j as [|[|[|j]]]; try lia; repeat split.
  - intros [|k] j Hk Hj; simpl in Hk, Hj; [|lia]. destruct j as [|[|j]]; try lia; repeat split.
Qed.

Definition s_D : arr := fun I => 3 - INR I.
Lemma s_solution : superlink_solution u_z u_b u_z u_z u_A u_E s_D 0 0 2 (fun _ => 1) (fun j => 3 - INR j).
Proof.
  split; intros j Hj.
  - unfold u_z, u_b, u_A. rewrite plus_INR. simpl. field_simplify; lra.
  - unfold u_E, s_D. simpl. lra.
Qed.

Example C65_example :
  contiguous single /\ (forall k, (k < 1)%nat -> c_nk single k = c_nk single 0%nat \/ c_nk single k = 1%nat) /\
  sound_solver gauss /\ (forall n, solver n (gauss n)) /\ sound_nnls small_nnls /\
  exists f bw h' Q' h2 Q2,
    numba_forward_recurrence (mkFwd u_z u_z u_z u_z) u_z u_b u_z u_z u_A u_E s_D 1 (c_nk single) (c_I1 single) (c_i1 single) = Some f /\
    numba_backward_recurrence (mkBwd u_z u_z u_z u_z) u_z u_b u_z u_z u_A u_E s_D 1 (c_nk single)
      (fun k => c_I1 single k + c_nk single k - 1)%nat (fun k => c_i1 single k + c_nk single k - 1)%nat = Some bw /\
    wet_superlink u_z u_b u_z u_A u_E 0 0 2 /\
    solve_internals_lsq gauss single u_z (fun _ => 3) (fun _ => 1) f bw (1/2) = Some (h', Q') /\
    h' 1%nat = 2 /\ Q' 0%nat = 1 /\ Q' 1%nat = 1 /\
    solve_internals_nnls small_nnls single u_z (fun _ => 3) (fun _ => 1) f bw = Some (h2, Q2) /\
    h2 1%nat = 2 /\ Q2 0%nat = 1 /\ Q2 1%nat = 1.
Proof.
  pose (T := single). pose proof single_contiguous as HT. pose proof (layout_of_contiguous _ HT) as Hl.
  assert (Ev : forall k, (k < 1)%nat -> c_nk single k = c_nk single 0%nat \/ c_nk single k = 1%nat) by (intros; left; reflexivity).
  split; [exact HT|]. split; [exact Ev|]. split; [exact gauss_sound|]. split; [exact gauss_solver|].
  split; [exact small_nnls_sound|].
  destruct (forward_total u_z u_b u_z u_z u_A u_E s_D (mkFwd u_z u_z u_z u_z) 1 (c_nk T) (c_I1 T) (c_i1 T) Hl) as [f Ef].
  { intros; apply u_wet. }
  destruct (backward_total u_z u_b u_z u_z u_A u_E s_D (mkBwd u_z u_z u_z u_z) 1 (c_nk T) (c_i1 T) (c_I1 T)
             (fun k => c_I1 T k + c_nk T k - 1)%nat (fun k => c_i1 T k + c_nk T k - 1)%nat Hl) as [bw Eb].
  { intros; cbv beta; lia. } { intros; apply u_wet. }
  pose proof (forward_recurrence_ok _ _ _ _ _ _ _ _ _ _ _ _ f Hl Ef 0%nat (le_n 1)) as F0.
  assert (B0 : bwd_eqs u_z u_b u_z u_z u_A u_E s_D (c_i1 T 0) (c_I1 T 0) (c_nk T 0) bw)
    by (eapply backward_recurrence_ok; eauto; intros; cbv beta; lia).
  destruct (C65_wet_superlinks_are_reconstructed_exactly gauss T u_z u_z u_b u_z u_z u_A u_E s_D _ f _ bw (fun _ => 3) (fun _ => 1)
              (1/2) HT Ev gauss_sound gauss_solver Ef Eb (fun k _ => u_wet _ _ _)) as (h' & Q' & ES & R).
  assert (H1 : h' 1%nat = 2).
  { destruct (lsq_result _ _ _ _ _ _ _ _ _ _ HT Ev gauss_sound ES) as [RR _].
    destruct (RR 0%nat ltac:(simpl; lia)) as (x & Bx & EX).
    pose proof (minimiser_exact _ _ _ _ _ _ _ 0 0 2 f bw 3 1 _ _ x ltac:(lia) F0 B0 (u_wet _ _ _) s_solution
                 ltac:(simpl; lra) ltac:(simpl; lra) (Bx (fun c => 3 - INR (c + 1)))) as ME.
    specialize (EX 1%nat ltac:(simpl; lia)). cbn [c_I1 c_nk T single Nat.add] in EX. rewrite EX. rewrite (ME 1%nat) by lia.
    simpl. rewrite Rmax_right; lra. }
  destruct (R 0%nat ltac:(simpl; lia) ltac:(cbv beta; lra) ltac:(cbv beta; lra)) as (Z0 & Zn & Q & HS & HQ).
  { intros j J1 J2. cbn [c_nk T single] in J2. replace j with 1%nat by lia. simpl Nat.add. rewrite H1. lra. }
  destruct (wet_solution_unique _ _ _ _ _ _ _ 0 0 2 f bw _ _ Q _ ltac:(lia) F0 B0 (u_wet _ _ _) s_solution HS) as [W1 W2].
  { cbv beta. simpl. simpl in Z0. lra. } { cbv beta. simpl. simpl in Zn. lra. }
  pose proof (HQ 0%nat ltac:(simpl; lia)) as Q0. pose proof (HQ 1%nat ltac:(simpl; lia)) as Q1.
  cbn [c_i1 T single Nat.add] in Q0, Q1. rewrite (W2 1%nat) in Q0 by lia. rewrite (W2 2%nat) in Q1 by lia.
  destruct (solve_internals_nnls small_nnls T u_z (fun _ => 3) (fun _ => 1) f bw) as [[h2 Q2]|] eqn:EN.
  - exists f, bw, h', Q', h2, Q2. split; [exact Ef|]. split; [exact Eb|]. split; [apply u_wet|]. split; [exact ES|].
    split; [exact H1|]. split; [exact Q0|]. split; [exact Q1|]. split; [exact EN|].
    destruct (C65_nonnegative_variant small_nnls T _ _ _ _ _ _ _ _ _ f _ bw _ _ h2 Q2 HT small_nnls_sound Ef Eb
                (fun k _ => u_wet _ _ _) EN 0%nat ltac:(simpl; lia)) as (_ & _ & _ & _ & X).
    destruct (X _ _ s_solution) as [X1 X2]; try (simpl; lra).
    { intros j J1 J2. cbn [c_nk T single] in J2. replace j with 1%nat by lia. simpl. lra. }
    pose proof (X1 1%nat ltac:(simpl; lia)) as A1. pose proof (X2 0%nat ltac:(simpl; lia)) as A2.
    pose proof (X2 1%nat ltac:(simpl; lia)) as A3. cbn [c_I1 c_i1 T single Nat.add] in A1, A2, A3.
    split; [rewrite A1; simpl; lra|]. split; assumption.
  - exfalso. unfold solve_internals_nnls in EN.
    destruct (right_hand_side_spec T HT f bw (fun _ => 3) (fun _ => 1)) as (v & Evv & Hv). rewrite Evv in EN. cbn [bind] in EN.
    assert (gA : g * / 9.81 = 1) by (unfold g; field; lra).
    assert (U0 : fU f 0%nat = -1).
    { pose proof (fe_U0 _ _ _ _ _ _ _ _ _ _ _ F0) as X. pose proof (fe_T0 _ _ _ _ _ _ _ _ _ _ _ F0) as Y. simpl in X, Y.
      rewrite X, Y. unfold U_1k, T_1k, u_z, u_A, u_E, u_b. rewrite safe_divide_nz by lra. rewrite Rmult_0_r, gA. field. }
    assert (X1 : bX bw 1%nat = 1).
    { pose proof (be_X0 _ _ _ _ _ _ _ _ _ _ _ _ B0) as X. pose proof (be_O0 _ _ _ _ _ _ _ _ _ _ _ _ B0) as Y.
      simpl in X, Y. rewrite X, Y. unfold X_Nk, O_nk, u_z, u_A, u_E, u_b. rewrite safe_divide_nz by lra.
      rewrite Rmult_0_r, gA. field. }
    destruct (nnls_superlinks _ _ _ _ _ _) eqn:E1 in EN; [discriminate|]. clear EN.
    unfold nnls_superlinks in E1. cbv zeta in E1. change (c_NK T) with 1%nat in E1. cbn [for_opt] in E1.
    rewrite (select_U T HT), (select_X T HT), (select_b T HT), (inner_list T HT) in E1 by (simpl; lia).
    rewrite !map_length, !seq_length, !Nat.eqb_refl in E1. simpl andb in E1. cbv iota in E1.
    change (c_nk T 0%nat) with 2%nat in E1. change (c_I1 T 0%nat) with 0%nat in E1. change (c_i1 T 0%nat) with 0%nat in E1.
    destruct (small_nnls _ _ _ _) eqn:E2 in E1; [discriminate|]. clear E1.
    unfold small_nnls in E2. change (2 - 1)%nat with 1%nat in E2. simpl Nat.add in E2.
    cbn [map seq] in E2. set (A2 := flat_matrix _ _) in E2.
    assert (AA : fill_diagonal (normal_matrix A2 2) 1 0%nat 0%nat = 2).
    { rewrite fill_diagonal_entry. assert (N : normal_matrix A2 2 0%nat 0%nat = 2).
      { unfold normal_matrix, A2, flat_matrix, of_list. simpl. rewrite U0, X1. lra. }
      rewrite N. simpl. destruct (Reqb_spec 2 0); [lra|reflexivity]. }
    cbn [gauss pivot] in E2. rewrite AA in E2. destruct (Reqb_spec 2 0); [lra|]. cbn [bind] in E2.
    match type of E2 with (if forallb ?p ?l then _ else _) = _ => destruct (forallb p l) eqn:Ef2; [discriminate|] end.
    cbn [seq forallb] in Ef2. rewrite andb_true_r in Ef2. apply Rleb_false in Ef2. rewrite upd_eq in Ef2.
    simpl sum_n in Ef2. unfold swap in Ef2. simpl Nat.eqb in Ef2. cbv iota in Ef2. rewrite AA in Ef2.
    pose proof (Hv 0%nat 0%nat ltac:(simpl; lia) ltac:(simpl; lia)) as V0.
    pose proof (Hv 0%nat 1%nat ltac:(simpl; lia) ltac:(simpl; lia)) as V1.
    cbv [link_rhs at_ T single c_i1 c_I1 c_nk Nat.eqb Nat.add] in V0, V1.
    pose proof (fwd_signs _ _ _ _ _ _ _ _ _ _ _ F0 (u_wet _ _ _)) as SF.
    pose proof (bwd_signs _ _ _ _ _ _ _ _ _ _ _ (le_S 1 1 (le_n 1)) B0 (u_wet _ _ _)) as SB.
    assert (HT' : forall j, (j < 2)%nat -> fT f (0 + j)%nat <> 0) by (intros j Hj; pose proof (SF j Hj) as X; change (c_i1 single 0%nat) with 0%nat in X; lra).
    assert (HO : forall j, (j < 2)%nat -> bO bw (0 + j)%nat <> 0) by (intros j Hj; pose proof (SB j Hj) as X; change (c_i1 T 0%nat) with 0%nat in X; lra).
    pose proof (forward_exact _ _ _ _ _ _ _ 0 0 2 f _ _ F0 HT' s_solution) as XF.
    pose proof (backward_exact _ _ _ _ _ _ _ 0 0 2 bw _ _ ltac:(lia) B0 HO s_solution) as XB.
    pose proof (XF 0%nat ltac:(lia)) as P0. pose proof (XF 1%nat ltac:(lia)) as P1.
    pose proof (XB 0%nat ltac:(lia)) as R0. pose proof (XB 1%nat ltac:(lia)) as R1.
    simpl in P0, P1, R0, R1. rewrite U0 in P0. rewrite X1 in R1.
    assert (W0 : v 0%nat = -2) by lra. assert (W1' : v 1%nat = -2) by lra.
    unfold normal_rhs, A2, flat_matrix, of_list in Ef2. simpl in Ef2. rewrite U0, X1, W0, W1' in Ef2. lra.
Qed.
