From Verif Require Import Prelude M_Coeffs M_Recurrence S_Superlink L_Forward L_Backward L_Pivots L_Internals.

Section Boundary.
  Variables (e : ends) (hu hd : headc).
  Let f := superlink_flow_coefficients e hu hd.
  Hypothesis HD : D_k_star (eX e) (hk hu) (eU e) (hk hd) (eZ e) (eW e) <> 0.

  Lemma boundary_equations H_u H_d Q_u Q_d h_u h_d :
    solve_superlink_flows f H_u H_d = (Q_u, Q_d) ->
    solve_superlink_depths hu hd Q_u Q_d H_u H_d = (h_u, h_d) ->
    end_equations (eX e) (eY e) (eZ e) (eU e) (eV e) (eW e)
                  (hk hu) (hl hu) (hm hu) (hk hd) (hl hd) (hm hd) H_u H_d Q_u Q_d h_u h_d.
  Proof.
    unfold solve_superlink_flows, solve_superlink_depths, f, superlink_flow_coefficients; simpl.
    intros E1 E2. injection E1 as <- <-. injection E2 as <- <-.
    unfold alpha_uk, beta_uk, chi_uk, alpha_dk, beta_dk, chi_dk.
    rewrite !safe_divide_nz by exact HD. unfold D_k_star in *.
    unfold end_equations. repeat split; field; exact HD.
  Qed.

  Lemma boundary_unique H_u H_d Q_u Q_d h_u h_d :
    end_equations (eX e) (eY e) (eZ e) (eU e) (eV e) (eW e)
                  (hk hu) (hl hu) (hm hu) (hk hd) (hl hd) (hm hd) H_u H_d Q_u Q_d h_u h_d ->
    solve_superlink_flows f H_u H_d = (Q_u, Q_d) /\
    solve_superlink_depths hu hd Q_u Q_d H_u H_d = (h_u, h_d).
  Proof.
    unfold end_equations. intros (E1 & E2 & E3 & E4).
    assert (S2 : solve_superlink_depths hu hd Q_u Q_d H_u H_d = (h_u, h_d))
      by (unfold solve_superlink_depths; rewrite E3, E4; reflexivity).
    split; auto.
    unfold solve_superlink_flows, f, superlink_flow_coefficients; simpl.
    unfold alpha_uk, beta_uk, chi_uk, alpha_dk, beta_dk, chi_dk.
    rewrite !safe_divide_nz by exact HD. unfold D_k_star in *.
    rewrite E3, E4 in E1, E2.
    assert (D1 : (1 - eX e * hk hu) * Q_u - eZ e * hk hd * Q_d
                 = eX e * (hl hu * H_u + hm hu) + eY e + eZ e * (hl hd * H_d + hm hd)) by lra.
    assert (D2 : - eW e * hk hu * Q_u + (1 - eU e * hk hd) * Q_d
                 = eU e * (hl hd * H_d + hm hd) + eV e + eW e * (hl hu * H_u + hm hu)) by lra.
    set (D := (eX e * hk hu - 1) * (eU e * hk hd - 1) - eZ e * hk hd * (eW e * hk hu)) in *.
    assert (Mu : D * Q_u = (1 - eU e * hk hd) * ((1 - eX e * hk hu) * Q_u - eZ e * hk hd * Q_d)
                 + eZ e * hk hd * (- eW e * hk hu * Q_u + (1 - eU e * hk hd) * Q_d)) by (unfold D; ring).
    assert (Md : D * Q_d = (1 - eX e * hk hu) * (- eW e * hk hu * Q_u + (1 - eU e * hk hd) * Q_d)
                 + eW e * hk hu * ((1 - eX e * hk hu) * Q_u - eZ e * hk hd * Q_d)) by (unfold D; ring).
    rewrite D1, D2 in Mu, Md.
    f_equal; apply (Rmult_eq_reg_l D); auto; [rewrite Mu|rewrite Md]; field; auto.
  Qed.
End Boundary.

(** Physical meaning of the end coefficients. *)
Section EndMeaning.
  Variables a b c P A E D : arr.
  Variables i1 I1 n : nat.
  Variables (f : fwd) (bw : bwd).
  Hypothesis Hn : (1 <= n)%nat.
  Hypothesis HF : fwd_eqs a b c P A E D i1 I1 n f.
  Hypothesis HB : bwd_eqs a b c P A E D i1 I1 n bw.
  Hypothesis HT : forall j, (j < n)%nat -> fT f (i1 + j)%nat <> 0.
  Hypothesis HO : forall j, (j < n)%nat -> bO bw (i1 + j)%nat <> 0.

  Lemma end_meaning (end_o : bool) Q h :
    superlink_solution a b c P A E D i1 I1 n Q h ->
    let e := end_coeffs end_o f bw E D I1 (I1 + n - 1) (I1 + n) in
    let Q_u := if end_o then Q 1%nat else Q 0%nat in
    let Q_d := if end_o then Q n else Q (n + 1)%nat in
    Q_u = eX e * h 0%nat + eY e + eZ e * h n /\ Q_d = eU e * h n + eV e + eW e * h 0%nat.
  Proof.
    intros HS e Q_u Q_d.
    pose proof (forward_exact a b c P A E D i1 I1 n f Q h HF HT HS (n - 1)%nat ltac:(lia)) as XF.
    pose proof (backward_exact a b c P A E D i1 I1 n bw Q h Hn HB HO HS 0%nat ltac:(lia)) as XB.
    destruct HS as [_ HC]. pose proof (HC 0%nat ltac:(lia)) as C0. pose proof (HC n ltac:(lia)) as CN.
    replace (n - 1 + 1)%nat with n in XF by lia. replace (I1 + (n - 1))%nat with (I1 + n - 1)%nat in XF by lia.
    rewrite !Nat.add_0_r in *. simpl Nat.add in *.
    unfold e, Q_u, Q_d, end_coeffs. destruct end_o; simpl; split; lra.
  Qed.
End EndMeaning.

(** Sign conditions under which the determinant of the end equations is at least 1. *)
Lemma determinant_pos X U Z W ku kd :
  ku <= 0 -> 0 <= kd -> 0 <= X -> U <= 0 -> Z <= 0 -> 0 <= W -> - Z <= X -> W <= - U ->
  1 <= D_k_star X ku U kd Z W.
Proof.
  intros. unfold D_k_star.
  replace ((X * ku - 1) * (U * kd - 1) - Z * kd * (W * ku))
    with (1 + X * (- ku) + (- U) * kd + (X * (- U) - (- Z) * W) * ((- ku) * kd)) by ring.
  assert (0 <= X * - ku) by (apply Rmult_le_pos; lra).
  assert (0 <= - U * kd) by (apply Rmult_le_pos; lra).
  assert (0 <= - ku * kd) by (apply Rmult_le_pos; lra).
  assert (- Z * W <= X * - U) by (apply Rmult_le_compat; lra).
  assert (0 <= (X * - U - - Z * W) * (- ku * kd)) by (apply Rmult_le_pos; lra). lra.
Qed.
