(** Property C67, second part: ends of superlinks, orifices, weirs and the system for the heads, with and without numba;
    property C20: the alternative formula for the end depths. *)
From Verif Require Import Prelude M_Coeffs M_Recurrence M_Assembly M_Controls S_Network S_Superlink L_Forward L_Pivots L_Assembly L_Boundary P_Assembly.
From Verif Require Import M_FallbackSystem.

(** ** C20  The alternative formula gives the same end depths *)

(** Where the code offers a second formula for the depths at the ends of a superlink, it gives the depths of the first one,
    unless its determinant is 0. *)
Theorem C20_alternative_end_depths :
  forall e hu hd H_u H_d,
  D_k_star (eX e) (hk hu) (eU e) (hk hd) (eZ e) (eW e) <> 0 -> eX e * eU e - eZ e * eW e <> 0 ->
  let Q := solve_superlink_flows (superlink_flow_coefficients e hu hd) H_u H_d in
  solve_superlink_depths_alt e (fst Q) (snd Q) = solve_superlink_depths hu hd (fst Q) (snd Q) H_u H_d.
Proof.
  intros e hu hd H_u H_d HD Hdet Q. destruct Q as [Q_u Q_d] eqn:EQ. cbn [fst snd].
  destruct (solve_superlink_depths hu hd Q_u Q_d H_u H_d) as [h_u h_d] eqn:Eh.
  destruct (boundary_equations e hu hd HD H_u H_d Q_u Q_d h_u h_d EQ Eh) as (E1 & E2 & _ & _).
  unfold solve_superlink_depths_alt. destruct (Reqb_spec (eX e * eU e - eZ e * eW e) 0) as [|_]; [contradiction|].
  f_equal; rewrite E1, E2; field; exact Hdet.
Qed.

(** ** C67  Superlinks *)

(** With end coefficients 1, both classes compute the same flow coefficients: what one puts into the head coefficients
    (the indicator that the junction reaches the end) the other puts into the flow coefficients. *)
Theorem C67_flow_coefficients_agree :
  forall e H_u z_u Q_u A_u H_d z_d Q_d A_d Qp_u Qp_d dx Rh n sf S_o dt hu hd,
  upstream_head_coefficients BCz H_u z_u Q_u Qp_u dx A_u 1 Rh n sf S_o dt = Some hu ->
  downstream_head_coefficients BCz H_d z_d Q_d Qp_d dx A_d 1 Rh n sf S_o dt = Some hd ->
  py_flow_coefficients e (py_upstream_head z_u Q_u 1 A_u) (py_downstream_head z_d Q_d 1 A_d) (py_theta H_u z_u) (py_theta H_d z_d)
  = superlink_flow_coefficients e hu hd.
Proof.
  intros e H_u z_u Q_u A_u H_d z_d Q_d A_d Qp_u Qp_d dx Rh n sf S_o dt hu hd E1 E2.
  cbn [upstream_head_coefficients] in E1. cbn [downstream_head_coefficients] in E2. injection E1 as <-. injection E2 as <-.
  unfold py_flow_coefficients, py_upstream_head, py_downstream_head, superlink_flow_coefficients. cbn [hk hl hm].
  assert (Gu : py_gamma_uk Q_u 1 A_u = gamma_uk Q_u 1 A_u) by (unfold py_gamma_uk, gamma_uk; f_equal; ring).
  assert (Gd : py_gamma_dk Q_d 1 A_d = gamma_dk Q_d 1 A_d) by (unfold py_gamma_dk, gamma_dk; f_equal; ring).
  rewrite Gu, Gd. unfold alpha_uk, beta_uk, chi_uk, alpha_dk, beta_dk, chi_dk, D_k_star.
  change (py_theta H_u z_u) with (theta_k H_u z_u). change (py_theta H_d z_d) with (theta_k H_d z_d).
  f_equal; f_equal; ring.
Qed.

(** With any other coefficient the losses at the ends of flowing superlinks differ, by the factor C^3: one class reads C as
    a loss coefficient, the other as a discharge coefficient.  The default is 1 / 0.67^2. *)
Theorem C67_end_coefficients_refuted :
  forall Q C A, Q <> 0 -> A <> 0 -> 0 < C ->
  gamma_uk Q C A = C ^ 3 * py_gamma_uk Q C A /\ gamma_dk Q C A = C ^ 3 * py_gamma_dk Q C A /\
  (C <> 1 -> gamma_uk Q C A <> py_gamma_uk Q C A /\ gamma_dk Q C A <> py_gamma_dk Q C A).
Proof.
  intros Q C A HQ HA HC. pose proof (Rabs_pos_lt Q HQ) as HR. assert (Hg : 0 < g) by (unfold g; lra).
  assert (A2 : A ^ 2 <> 0) by (apply pow_nonzero; auto).
  assert (D' : 2 * A ^ 2 * g <> 0) by (apply Rmult_integral_contrapositive_currified; [apply Rmult_integral_contrapositive_currified; [lra|auto]|lra]).
  assert (D : 2 * C ^ 2 * A ^ 2 * g <> 0).
  { replace (2 * C ^ 2 * A ^ 2 * g) with (C ^ 2 * (2 * A ^ 2 * g)) by ring.
    apply Rmult_integral_contrapositive_currified; [apply pow_nonzero; lra|exact D']. }
  assert (Eu : gamma_uk Q C A = C ^ 3 * py_gamma_uk Q C A).
  { unfold gamma_uk, py_gamma_uk. rewrite !safe_divide_nz by assumption. field. repeat split; auto; lra. }
  assert (Ed : gamma_dk Q C A = C ^ 3 * py_gamma_dk Q C A).
  { unfold gamma_dk, py_gamma_dk. rewrite !safe_divide_nz by assumption. field. repeat split; auto; lra. }
  split; [exact Eu|]. split; [exact Ed|]. intros C1.
  assert (C3 : C ^ 3 <> 1).
  { intros E. assert (X : (C - 1) * (C ^ 2 + C + 1) = 0) by (replace ((C - 1) * (C ^ 2 + C + 1)) with (C ^ 3 - 1) by ring; lra).
    apply Rmult_integral in X as [|X]; [lra|]. pose proof (pow2_ge_0 C). lra. }
  assert (Nu : py_gamma_uk Q C A <> 0).
  { unfold py_gamma_uk. rewrite safe_divide_nz by exact D. unfold Rdiv. apply Rmult_integral_contrapositive_currified; [lra|now apply Rinv_neq_0_compat]. }
  assert (Nd : py_gamma_dk Q C A <> 0).
  { unfold py_gamma_dk. rewrite safe_divide_nz by exact D. unfold Rdiv. apply Rmult_integral_contrapositive_currified; [lra|now apply Rinv_neq_0_compat]. }
  split; [rewrite Eu; intros E; apply Nu|rewrite Ed; intros E; apply Nd];
    match type of E with _ * ?x = _ => assert (X : (C ^ 3 - 1) * x = 0) by lra; apply Rmult_integral in X as [|]; [lra|assumption] end.
Qed.

(** Above a junction whose head is below the end of the superlink the end depths differ: without numba the depth at the end
    contains the (negative) difference of the two. *)
Theorem C67_end_depths_refuted :
  forall H_u z_u Q_u A_u H_d z_d Q_d A_d Qp_u Qp_d dx Rh n sf S_o dt hu hd,
  upstream_head_coefficients BCz H_u z_u Q_u Qp_u dx A_u 1 Rh n sf S_o dt = Some hu ->
  downstream_head_coefficients BCz H_d z_d Q_d Qp_d dx A_d 1 Rh n sf S_o dt = Some hd -> H_u < z_u ->
  fst (solve_superlink_depths (py_upstream_head z_u Q_u 1 A_u) (py_downstream_head z_d Q_d 1 A_d) Q_u Q_d H_u H_d)
  = fst (solve_superlink_depths hu hd Q_u Q_d H_u H_d) - (z_u - H_u).
Proof.
  intros H_u z_u Q_u A_u H_d z_d Q_d A_d Qp_u Qp_d dx Rh n sf S_o dt hu hd E1 E2 Hz.
  cbn [upstream_head_coefficients] in E1. injection E1 as <-.
  unfold solve_superlink_depths, py_upstream_head. cbn [hk hl hm fst]. unfold theta_k. destruct (Rleb_spec z_u H_u); [lra|].
  assert (Gu : py_gamma_uk Q_u 1 A_u = gamma_uk Q_u 1 A_u) by (unfold py_gamma_uk, gamma_uk; f_equal; ring).
  rewrite Gu. ring.
Qed.

(** ** C67  Orifices and weirs *)

(** Nothing of the arrays' old entries remains. *)
Lemma py_orifice_masks_ok old gam H_u H_d u z_inv z_o tau y_max :
  py_orifice_masks old gam H_u H_d u z_inv z_o tau y_max = orifice_coeffs gam H_u H_d u z_inv z_o tau y_max false.
Proof.
  unfold py_orifice_masks, orifice_coeffs, flip, omega. rewrite andb_false_r, orb_false_r.
  destruct (Rltb (z_o + z_inv + tau * y_max * u) _), (Rltb (z_o + z_inv + tau * y_max * u / 2) _), (Rltb (z_o + z_inv) _); reflexivity.
Qed.

(** Orifices that flow both ways, and weirs: same coefficients and, at different heads, same discharge. *)
Theorem C67_orifices_and_weirs_agree :
  (forall old Q A C H_u H_d u z_inv z_o tau y_max,
     py_orifice_flow_coefficients old Q A C H_u H_d u z_inv z_o tau y_max
     = orifice_flow_coefficients Q A C H_u H_d u z_inv z_o tau y_max false) /\
  (forall A C H_u H_d u z_inv z_o tau y_max V_u V_d dt, H_u <> H_d ->
     py_solve_orifice_flows A C H_u H_d u z_inv z_o tau y_max V_u V_d dt
     = solve_orifice_flows A C H_u H_d u z_inv z_o tau y_max false V_u V_d dt) /\
  (forall oldH old Q H_u H_d u z_inv z_w y_max L s Cr Ct,
     py_weir_flow_coefficients oldH old Q H_u H_d u z_inv z_w y_max L s Cr Ct
     = weir_flow_coefficients Q H_u H_d u z_inv z_w y_max L s Cr Ct) /\
  (forall oldH H_u H_d u z_inv z_w y_max L s Cr Ct,
     py_solve_weir_flows oldH H_u H_d u z_inv z_w y_max L s Cr Ct = weir_discharge H_u H_d u z_inv z_w y_max L s Cr Ct).
Proof.
  assert (W : forall oldH H_u H_d u z_inv z_w y_max, py_weir_head oldH H_u H_d u z_inv z_w y_max = weir_head H_u H_d u z_inv z_w y_max).
  { intros. unfold py_weir_head, weir_head, weir_conds, omega.
    destruct (Rltb (z_w + z_inv + (1 - u) * y_max) _), (Rltb (z_w + z_inv + (1 - u) * y_max) _); reflexivity. }
  repeat split.
  - intros. unfold py_orifice_flow_coefficients. rewrite py_orifice_masks_ok. reflexivity.
  - intros A C H_u H_d u z_inv z_o tau y_max V_u V_d dt Hne. unfold py_solve_orifice_flows, solve_orifice_flows, limit_orifice, orifice_discharge.
    rewrite py_orifice_masks_ok. destruct (orifice_coeffs _ _ _ _ _ _ _ _ _) as [[a b] c].
    unfold flip, omega. destruct (Rleb_spec H_d H_u); destruct (Rltb_spec H_d H_u); try reflexivity; lra.
  - intros. unfold py_weir_flow_coefficients, weir_flow_coefficients, weir_conds, gamma_w, flip, omega. rewrite W. unfold weir_head, weir_conds, omega.
    destruct (Rltb (z_w + z_inv + (1 - u) * y_max) _), (Rltb (z_w + z_inv + (1 - u) * y_max) _); reflexivity.
  - intros. unfold py_solve_weir_flows, weir_discharge, flip, omega. rewrite W. reflexivity.
Qed.

(** One-way orifices let water back without numba. *)
Theorem C67_one_way_orifices_refuted :
  solve_orifice_flows 1 1 0 1 1 0 0 0 1 true 100 100 1 = 0 /\ py_solve_orifice_flows 1 1 0 1 1 0 0 0 1 100 100 1 < 0.
Proof.
  unfold solve_orifice_flows, limit_orifice, orifice_discharge, py_solve_orifice_flows, py_orifice_masks, orifice_coeffs, flip, omega.
  destruct (Rleb_spec 1 0) as [|_]; [lra|]. destruct (Reqb_spec 0 1) as [|_]; [lra|].
  destruct (Rleb_spec 0 1) as [_|]; [|lra].
  replace (0 * 0 + (1 - 0) * 1) with 1 by ring. replace ((1 - 0) * 0 + 0 * 1) with 0 by ring.
  replace (0 + 0 + 0 * 1 * 1) with 0 by ring. replace (0 + 0 + 0 * 1 * 1 / 2) with 0 by field. replace (0 + 0) with 0 by ring.
  destruct (Rltb_spec 0 1) as [_|]; [|lra]. destruct (Rltb_spec 0 0) as [|_]; [lra|]. destruct (Rltb_spec 1 0) as [|_]; [lra|].
  cbn [negb andb orb]. split.
  - replace (0 * 0 + 0 * 1 + 0) with 0 by ring. rewrite Rabs_R0, sqrt_0. replace (-1 * 0) with 0 by ring.
    unfold sign. destruct (Rltb_spec 0 0); [lra|]. ring.
  - set (x := Rabs _). assert (Hx : x = 2 * g).
    { unfold x. match goal with |- Rabs ?e = _ => replace e with (- (2 * g)) by (unfold g; lra) end. rewrite Rabs_Ropp. apply Rabs_pos_eq. unfold g; lra. }
    rewrite Hx. assert (Hs : 0 < sqrt (2 * g)) by (apply sqrt_lt_R0; unfold g; lra).
    unfold sign. destruct (Rltb_spec (-1 * sqrt (2 * g)) 0); [|lra].
    assert (0 < Rmin (Rabs (-1 * sqrt (2 * g))) (100 / 1)).
    { apply Rmin_glb_lt; [apply Rabs_pos_lt; lra|lra]. }
    lra.
Qed.

(** ** C67  The system for the heads *)

Lemma py_add_at_eq a n J v : py_add_at a n J v = numba_add_at a n J v.
Proof. reflexivity. Qed.

Lemma py_diagonal_val X bc diag M i j :
  py_diagonal X bc diag M i j = if (Nat.eqb i j && Nat.ltb i M && negb (bc i))%bool then diag i else X i j.
Proof.
  unfold py_diagonal. induction M as [|M IH]; simpl.
  - replace (Nat.ltb i 0) with false by (symmetry; apply Nat.ltb_ge; lia). rewrite andb_false_r. reflexivity.
  - set (B := for_n M _ X) in *.
    assert (E : (if bc M then B else upd2 B M M (diag M)) i j = if (Nat.eqb i M && Nat.eqb j M && negb (bc M))%bool then diag M else B i j).
    { destruct (bc M); unfold upd2; simpl; rewrite ?andb_false_r, ?andb_true_r; reflexivity. }
    rewrite E, IH. clear.
    destruct (Nat.eqb_spec i M) as [->|N]; simpl.
    + destruct (Nat.eqb_spec j M) as [->|N']; simpl.
      * rewrite Nat.eqb_refl. replace (Nat.ltb M (S M)) with true by (symmetry; apply Nat.ltb_lt; lia). rewrite Nat.ltb_irrefl. simpl. destruct (bc M); reflexivity.
      * destruct (Nat.eqb_spec M j); [congruence|]. reflexivity.
    + replace (Nat.ltb i (S M)) with (Nat.ltb i M) by (destruct (Nat.ltb_spec i M), (Nat.ltb_spec i (S M)); auto; lia). reflexivity.
Qed.

Lemma py_ones_val (X : mat) (bc : nat -> bool) (M i j : nat) :
  for_n M (fun i (X : mat) => if bc i then upd2 X i i 1 else X) X i j = if (Nat.eqb i j && Nat.ltb i M && bc i)%bool then 1 else X i j.
Proof.
  pose proof (py_diagonal_val X (fun i => negb (bc i)) (fun _ => 1) M i j) as E. unfold py_diagonal in E.
  rewrite negb_involutive in E. rewrite <- E. clear. apply (f_equal (fun X : mat => X i j)). induction M as [|M IH]; simpl; [reflexivity|]. rewrite IH. destruct (bc M); reflexivity.
Qed.

Lemma py_add_val X bc I J v n i j :
  py_add X bc I J v n i j = X i j + (if bc i then 0 else sum_if (fun k => Nat.eqb (I k) i && Nat.eqb (J k) j) v n).
Proof.
  unfold py_add, sum_if. induction n as [|n IH]; simpl; [destruct (bc i); lra|].
  set (B := for_n n _ X) in *.
  destruct (bc (I n)) eqn:E; unfold upd2; rewrite ?(Nat.eqb_sym i (I n)), ?(Nat.eqb_sym j (J n));
    destruct (Nat.eqb_spec (I n) i) as [<-|N1]; destruct (Nat.eqb_spec (J n) j) as [<-|N2]; simpl; rewrite IH, ?E; try lra; destruct (bc i); lra.
Qed.

Lemma py_clear_val X bc I J n i j : py_clear X bc I J n i j = X i j \/ py_clear X bc I J n i j = 0.
Proof.
  unfold py_clear. induction n as [|n IH]; simpl; auto. set (B := for_n n _ X) in *. clearbody B.
  destruct (bc (I n)); unfold upd2; auto. destruct (_ && _)%bool; auto.
Qed.
Lemma py_clear_keeps X bc I J n i j : (forall k, (k < n)%nat -> ~ (I k = i /\ J k = j)) -> py_clear X bc I J n i j = X i j.
Proof.
  unfold py_clear. induction n as [|n IH]; simpl; intros H; auto. rewrite <- IH by (intros; apply H; lia).
  set (B := for_n n _ X) in *. clearbody B. destruct (bc (I n)); unfold upd2; auto.
  destruct (Nat.eqb_spec i (I n)); destruct (Nat.eqb_spec j (J n)); simpl; auto. exfalso. apply (H n); auto.
Qed.
Lemma py_clear_zero X bc I J n i j : bc i = false -> (exists k, (k < n)%nat /\ I k = i /\ J k = j) -> py_clear X bc I J n i j = 0.
Proof.
  intros Hb. unfold py_clear. induction n as [|n IH]; simpl; intros (k & Hk & E1 & E2); [lia|].
  set (B := for_n n _ X) in *. destruct (Nat.eq_dec k n) as [->|N].
  - rewrite E1, Hb. unfold upd2. rewrite E2, !Nat.eqb_refl. reflexivity.
  - assert (HB : B i j = 0) by (apply IH; exists k; repeat split; auto; lia). clearbody B.
    destruct (bc (I n)); unfold upd2; auto. destruct (_ && _)%bool; auto.
Qed.

(** Rows of boundary junctions in the matrix of a kind of controls stay empty. *)
Definition blank (M : nat) (bc : nat -> bool) (X : mat) : Prop := forall i, (i < M)%nat -> bc i = true -> X i i = 0.

Definition no_loops (n : nat) (Ju Jd : nat -> nat) : Prop := forall k, (k < n)%nat -> Ju k <> Jd k.

Lemma off_diagonal_part M bc Ju Jd ad bu n X i j :
  no_loops n Ju Jd -> clean M bc Ju Jd n X -> (i < M)%nat ->
  py_off_diagonals X bc Ju Jd ad bu n i j
  = (if Nat.eqb i j then X i i else 0) +
    (if bc i then 0 else sum_if (fun k => Nat.eqb (Ju k) i && Nat.eqb (Jd k) j) bu n - sum_if (fun k => Nat.eqb (Jd k) i && Nat.eqb (Ju k) j) ad n).
Proof.
  intros NL Hc Hi. unfold py_off_diagonals. rewrite !py_add_val.
  assert (E : py_clear (py_clear X bc Ju Jd n) bc Jd Ju n i j = if Nat.eqb i j then X i i else 0).
  { destruct (Nat.eqb_spec i j) as [<-|N].
    - rewrite py_clear_keeps, py_clear_keeps; [reflexivity| |]; intros k Hk [E1 E2]; apply (NL k Hk); congruence.
    - destruct (bc i) eqn:Hb.
      + assert (X0 : X i j = 0) by (apply Hc; auto).
        destruct (py_clear_val (py_clear X bc Ju Jd n) bc Jd Ju n i j) as [->|]; auto.
        destruct (py_clear_val X bc Ju Jd n i j) as [->|]; auto.
      + destruct (some_touches_dec Ju Jd i j n) as [(k & Hk & [[E1 E2]|[E1 E2]])|H].
        * destruct (py_clear_val (py_clear X bc Ju Jd n) bc Jd Ju n i j) as [->|]; auto.
          apply py_clear_zero; eauto.
        * apply py_clear_zero; eauto.
        * rewrite py_clear_keeps by (intros k Hk [E1 E2]; apply (H k Hk); right; auto).
          rewrite py_clear_keeps by (intros k Hk [E1 E2]; apply (H k Hk); left; auto). apply Hc; auto. }
  rewrite E. rewrite sum_if_opp. destruct (bc i); lra.
Qed.

Lemma part_clean M bc Ju Jd ad bu n X :
  no_loops n Ju Jd -> clean M bc Ju Jd n X -> clean M bc Ju Jd n (py_off_diagonals X bc Ju Jd ad bu n).
Proof.
  intros NL Hc i j Hi Hne H. rewrite (off_diagonal_part M) by auto. destruct (Nat.eqb_spec i j); [contradiction|].
  destruct H as [->|H]; [lra|].
  destruct (off_terms_zero Ju Jd bu n i j H) as [-> _]. destruct (off_terms_zero Ju Jd ad n i j H) as [_ ->]. destruct (bc i); lra.
Qed.

Lemma diagonal_clean M bc Ju Jd n X d : clean M bc Ju Jd n X -> clean M bc Ju Jd n (py_diagonal X bc d M).
Proof. intros Hc i j Hi Hne H. rewrite py_diagonal_val. destruct (Nat.eqb_spec i j); [contradiction|]. apply Hc; auto. Qed.

Lemma py_controls_ok M bc C X D X' D' :
  no_loops (c_n C) (c_Ju C) (c_Jd C) -> clean M bc (c_Ju C) (c_Jd C) (c_n C) X -> blank M bc X -> (c_n C = 0%nat -> forall i j, X i j = 0) ->
  py_assemble_controls X D bc M C = (X', D') ->
  (forall i j, (i < M)%nat -> X' i j = entry bc 0 (diag_C C) (c_Ju C) (c_Jd C) (c_a C) (c_b C) (c_n C) i j) /\
  (forall j, bc j = false -> D' j = D j + rhs_C C j) /\
  clean M bc (c_Ju C) (c_Jd C) (c_n C) X' /\ blank M bc X' /\ (c_n C = 0%nat -> forall i j, X' i j = 0).
Proof.
  intros NL Hc Hb Hz. unfold py_assemble_controls. destruct (Nat.eqb_spec (c_n C) 0) as [E|E].
  - injection 1 as <- <-. split; [|split; [|split; [|split]]]; auto.
    + intros i j Hi. rewrite Hz by auto. unfold entry, diag_C. rewrite E, !sum_if_O. destruct (bc i), (Nat.eqb i j); lra.
    + intros j _. unfold rhs_C. rewrite E, !sum_if_O. lra.
  - injection 1 as <- <-. set (d := fun j => _ + _). assert (Hd : forall j, d j = diag_C C j).
    { intros j. unfold d, diag_C. rewrite !py_add_at_eq, !add_at_val, sum_if_opp. unfold zeros. lra. }
    assert (V : forall i j, (i < M)%nat -> py_off_diagonals (py_diagonal X bc d M) bc (c_Ju C) (c_Jd C) (c_a C) (c_b C) (c_n C) i j
              = entry bc 0 (diag_C C) (c_Ju C) (c_Jd C) (c_a C) (c_b C) (c_n C) i j).
    { intros i j Hi. rewrite (off_diagonal_part M) by (auto using diagonal_clean). rewrite py_diagonal_val, Nat.eqb_refl.
      apply Nat.ltb_lt in Hi as Hi'. rewrite Hi'. unfold entry. destruct (bc i) eqn:Eb; cbn [andb negb].
      - rewrite Hb by auto. destruct (Nat.eqb i j); lra.
      - rewrite Hd. destruct (Nat.eqb i j); lra. }
    split; [exact V|]. split; [|split; [|split]].
    + intros j ->. rewrite !py_add_at_eq, !add_at_val. unfold rhs_C, zeros. rewrite sum_if_opp. lra.
    + apply part_clean; auto. now apply diagonal_clean.
    + intros i Hi Eb. rewrite V by auto. unfold entry. rewrite Eb, Nat.eqb_refl. reflexivity.
    + contradiction.
Qed.

(** What the fallback object keeps between steps: any number of assemblies for the same network. *)
Inductive py_reachable (M : nat) (bc : nat -> bool) (K : superlinks) (CO CW CP : controls) : mat -> mat -> mat -> mat -> Prop :=
| py_fresh : py_reachable M bc K CO CW CP zeros2 zeros2 zeros2 zeros2
| py_again : forall A O W P K' CO' CW' CP' A_sj H H_bc Q_0j dt A' O' W' P' b,
    py_reachable M bc K CO CW CP A O W P -> same_network K K' [CO; CW; CP] [CO'; CW'; CP'] ->
    py_sparse_matrix_equations M bc K' CO' CW' CP' A_sj H H_bc Q_0j dt A O W P = (A', O', W', P', b) ->
    py_reachable M bc K CO CW CP A' O' W' P'.

Definition loop_free (K : superlinks) (CO CW CP : controls) : Prop :=
  no_loops (k_n K) (k_Ju K) (k_Jd K) /\ no_loops (c_n CO) (c_Ju CO) (c_Jd CO) /\ no_loops (c_n CW) (c_Ju CW) (c_Jd CW) /\
  no_loops (c_n CP) (c_Ju CP) (c_Jd CP).

Definition tidy (M : nat) (bc : nat -> bool) (C : controls) (X : mat) : Prop :=
  clean M bc (c_Ju C) (c_Jd C) (c_n C) X /\ blank M bc X /\ (c_n C = 0%nat -> forall i j, X i j = 0).

(** The diagonal without storage in end pieces. *)
Definition py_diag_A (K : superlinks) (A_sj : arr) (dt : R) (j : nat) : R :=
  A_sj j / dt - sum_if (fun k => Nat.eqb (k_Jd K k) j) (k_bd K) (k_n K) + sum_if (fun k => Nat.eqb (k_Ju K k) j) (k_au K) (k_n K).

Lemma py_assembly_ok M bc K CO CW CP A_sj H H_bc Q_0j dt A0 O0 W0 P0 A O W P b :
  loop_free K CO CW CP -> clean M bc (k_Ju K) (k_Jd K) (k_n K) A0 -> tidy M bc CO O0 -> tidy M bc CW W0 -> tidy M bc CP P0 ->
  py_sparse_matrix_equations M bc K CO CW CP A_sj H H_bc Q_0j dt A0 O0 W0 P0 = (A, O, W, P, b) ->
  (clean M bc (k_Ju K) (k_Jd K) (k_n K) A /\ tidy M bc CO O /\ tidy M bc CW W /\ tidy M bc CP P) /\
  (forall i j, (i < M)%nat ->
     A i j = entry bc 1 (py_diag_A K A_sj dt) (k_Ju K) (k_Jd K) (k_ad K) (k_bu K) (k_n K) i j /\
     O i j = entry bc 0 (diag_C CO) (c_Ju CO) (c_Jd CO) (c_a CO) (c_b CO) (c_n CO) i j /\
     W i j = entry bc 0 (diag_C CW) (c_Ju CW) (c_Jd CW) (c_a CW) (c_b CW) (c_n CW) i j /\
     P i j = entry bc 0 (diag_C CP) (c_Ju CP) (c_Jd CP) (c_a CP) (c_b CP) (c_n CP) i j) /\
  (forall j, b j = if bc j then H_bc j else A_sj j * H j / dt + Q_0j j +
     (- sum_if (fun k => Nat.eqb (k_Ju K k) j) (k_cu K) (k_n K) + sum_if (fun k => Nat.eqb (k_Jd K k) j) (k_cd K) (k_n K)
      + rhs_C CO j + rhs_C CW j + rhs_C CP j)).
Proof.
  intros (NK & NO & NW & NP) HA (CO1 & CO2 & CO3) (CW1 & CW2 & CW3) (CP1 & CP2 & CP3). unfold py_sparse_matrix_equations.
  destruct (py_assemble_controls O0 _ bc M CO) as [Om D1] eqn:EO. destruct (py_controls_ok _ _ _ _ _ _ _ NO CO1 CO2 CO3 EO) as (VO & DO & TO1 & TO2 & TO3).
  destruct (py_assemble_controls W0 _ bc M CW) as [Wm D2] eqn:EW. destruct (py_controls_ok _ _ _ _ _ _ _ NW CW1 CW2 CW3 EW) as (VW & DW & TW1 & TW2 & TW3).
  destruct (py_assemble_controls P0 _ bc M CP) as [Pm D3] eqn:EP. destruct (py_controls_ok _ _ _ _ _ _ _ NP CP1 CP2 CP3 EP) as (VP & DP & TP1 & TP2 & TP3).
  injection 1 as <- <- <- <- <-.
  set (d := fun j => A_sj j / dt - _ + _). set (X := for_n M _ (py_diagonal A0 bc d M)).
  assert (HX : clean M bc (k_Ju K) (k_Jd K) (k_n K) X).
  { intros i j Hi Hne Hh. unfold X. rewrite py_ones_val. destruct (Nat.eqb_spec i j); [contradiction|]. cbn [andb].
    apply (diagonal_clean M bc _ _ _ _ d HA); auto. }
  split; [|split].
  - split; [now apply part_clean|]. repeat split; assumption.
  - intros i j Hi. split; [|split; [|split]]; auto.
    rewrite (off_diagonal_part M) by auto. unfold X. rewrite py_ones_val, py_diagonal_val, Nat.eqb_refl.
    apply Nat.ltb_lt in Hi as Hi'. rewrite Hi'. unfold entry. destruct (bc i); cbn [andb negb].
    + destruct (Nat.eqb i j); lra.
    + unfold d, py_diag_A. rewrite !py_add_at_eq, !add_at_val. unfold zeros. destruct (Nat.eqb i j); lra.
  - intros j. destruct (bc j) eqn:Eb; [reflexivity|]. rewrite DP, DW, DO by auto. rewrite !py_add_at_eq, !add_at_val. unfold zeros. lra.
Qed.

Lemma py_reachable_clean M bc K CO CW CP A O W P : loop_free K CO CW CP -> py_reachable M bc K CO CW CP A O W P ->
  clean M bc (k_Ju K) (k_Jd K) (k_n K) A /\ tidy M bc CO O /\ tidy M bc CW W /\ tidy M bc CP P.
Proof.
  intros HL. induction 1 as [|A O W P K' CO' CW' CP' A_sj H H_bc Q_0j dt A' O' W' P' b Hr IH Hs E].
  - unfold tidy, clean, blank, zeros2. repeat split; intros; reflexivity.
  - destruct Hs as (En & Eu & Ed & E1 & E2 & E3). simpl in E1, E2, E3.
    injection E1 as n1 n2 n3. injection E2 as u1 u2 u3. injection E3 as d1 d2 d3.
    assert (HL' : loop_free K' CO' CW' CP') by (unfold loop_free; rewrite En, Eu, Ed, n1, n2, n3, u1, u2, u3, d1, d2, d3; exact HL).
    destruct IH as (I1 & I2 & I3 & I4). unfold tidy in *. rewrite <- ?En, <- ?Eu, <- ?Ed, <- ?n1, <- ?n2, <- ?n3, <- ?u1, <- ?u2, <- ?u3, <- ?d1, <- ?d2, <- ?d3 in *.
    exact (proj1 (py_assembly_ok M bc K' CO' CW' CP' A_sj H H_bc Q_0j dt A O W P A' O' W' P' b HL' I1 I2 I3 I4 E)).
Qed.

(** In the first pass of a step, in networks whose superlinks have no end pieces that store water and where no element
    returns to the junction it starts from, both classes solve the same system for the heads: same matrix, same right-hand
    side, after any number of earlier steps of either. *)
Theorem C67_systems_agree :
  forall M bc K CO CW CP A_sj H H_bc Q_0j dt s A0 O0 W0 P0 A O W P b,
  loop_free K CO CW CP -> (forall k, (k < k_n K)%nat -> xi_u K dt k = 0 /\ xi_d K dt k = 0) ->
  reachable M bc K CO CW CP s -> py_reachable M bc K CO CW CP A0 O0 W0 P0 ->
  py_sparse_matrix_equations M bc K CO CW CP A_sj H H_bc Q_0j dt A0 O0 W0 P0 = (A, O, W, P, b) ->
  let s' := sparse_matrix_equations M bc K CO CW CP A_sj H H_bc Q_0j dt s in
  (forall i j, (i < M)%nat -> A i j = s_A s' i j /\ O i j = s_O s' i j /\ W i j = s_W s' i j /\ P i j = s_P s' i j) /\
  (forall j, b j = s_b s' j).
Proof.
  intros M bc K CO CW CP A_sj H H_bc Q_0j dt s A0 O0 W0 P0 A O W P b HL HX Hr Hp E s'.
  destruct (py_reachable_clean _ _ _ _ _ _ _ _ _ _ HL Hp) as (K1 & K2 & K3 & K4).
  destruct (py_assembly_ok _ _ _ _ _ _ _ _ _ _ _ _ _ _ _ _ _ _ _ _ HL K1 K2 K3 K4 E) as (_ & V & B).
  destruct (assembly_ok M bc K CO CW CP A_sj H H_bc Q_0j dt s (reachable_clean _ _ _ _ _ _ _ Hr)) as (_ & V' & B'). fold s' in V', B'.
  assert (Dg : forall j, diag_A K A_sj dt j = py_diag_A K A_sj dt j).
  { intros j. unfold diag_A, py_diag_A. rewrite !sum_if_plus, sum_if_opp.
    rewrite (sum_if_ext _ (fun k => Nat.eqb (k_Ju K k) j) (xi_u K dt) zeros), (sum_if_ext _ (fun k => Nat.eqb (k_Jd K k) j) (xi_d K dt) zeros)
      by (intros k Hk; destruct (HX k Hk); auto).
    unfold sum_if at 2 4, zeros. rewrite !sum_n_0 by (intros; destruct (Nat.eqb _ _); reflexivity). lra. }
  split.
  - intros i j Hi. destruct (V i j Hi) as (-> & -> & -> & ->). destruct (V' i j Hi) as (-> & -> & -> & ->). repeat split.
    unfold entry. rewrite Dg. reflexivity.
  - intros j. rewrite B, B'. destruct (bc j); [reflexivity|]. unfold rhs_K. rewrite !sum_if_plus, sum_if_opp.
    rewrite (sum_if_ext _ (fun k => Nat.eqb (k_Ju K k) j) (fun k => xi_u K dt k * H (k_Ju K k)) zeros),
            (sum_if_ext _ (fun k => Nat.eqb (k_Jd K k) j) (fun k => xi_d K dt k * H (k_Jd K k)) zeros)
      by (intros k Hk; destruct (HX k Hk) as [X1 X2]; unfold zeros; split; auto; intros _; rewrite ?X1, ?X2; ring).
    unfold zeros. replace (sum_if (fun k => Nat.eqb (k_Ju K k) j) (fun _ => 0) (k_n K)) with 0 by (symmetry; apply sum_n_0; intros; destruct (Nat.eqb _ _); reflexivity).
    replace (sum_if (fun k => Nat.eqb (k_Jd K k) j) (fun _ => 0) (k_n K)) with 0 by (symmetry; apply sum_n_0; intros; destruct (Nat.eqb _ _); reflexivity). lra.
Qed.

(** With end pieces the systems differ: the compiled one also stores water in the half of each end piece that belongs to
    the junction, the other does not. *)
Theorem C67_end_storage_refuted :
  forall M bc K CO CW CP A_sj H H_bc Q_0j dt s A0 O0 W0 P0 A O W P b i,
  loop_free K CO CW CP -> reachable M bc K CO CW CP s -> py_reachable M bc K CO CW CP A0 O0 W0 P0 ->
  py_sparse_matrix_equations M bc K CO CW CP A_sj H H_bc Q_0j dt A0 O0 W0 P0 = (A, O, W, P, b) -> (i < M)%nat -> bc i = false ->
  s_A (sparse_matrix_equations M bc K CO CW CP A_sj H H_bc Q_0j dt s) i i
  = A i i + sum_if (fun k => Nat.eqb (k_Ju K k) i) (fun k => k_dxu K k * k_Bu K k * k_thu K k / (2 * dt)) (k_n K)
    + sum_if (fun k => Nat.eqb (k_Jd K k) i) (fun k => k_dxd K k * k_Bd K k * k_thd K k / (2 * dt)) (k_n K).
Proof.
  intros M bc K CO CW CP A_sj H H_bc Q_0j dt s A0 O0 W0 P0 A O W P b i HL Hr Hp E Hi Hb.
  destruct (py_reachable_clean _ _ _ _ _ _ _ _ _ _ HL Hp) as (K1 & K2 & K3 & K4).
  destruct (py_assembly_ok _ _ _ _ _ _ _ _ _ _ _ _ _ _ _ _ _ _ _ _ HL K1 K2 K3 K4 E) as (_ & V & _).
  destruct (assembly_ok M bc K CO CW CP A_sj H H_bc Q_0j dt s (reachable_clean _ _ _ _ _ _ _ Hr)) as (_ & V' & _).
  destruct (V i i Hi) as (-> & _). destruct (V' i i Hi) as (-> & _). unfold entry. rewrite Hb, Nat.eqb_refl.
  unfold diag_A, py_diag_A. rewrite !sum_if_plus, sum_if_opp. unfold xi_u, xi_d, xi. lra.
Qed.

(** The limits of the heads differ: without numba a junction keeps the minimum depth, with numba it may run dry. *)
Theorem C67_head_limits_refuted :
  (forall z min_depth max_depth H, 0 < min_depth <= max_depth -> z <= H < z + min_depth ->
     py_limit_head z min_depth max_depth H = z + min_depth /\ limit_head z max_depth H = H) /\
  (forall z min_depth max_depth H, 0 <= min_depth -> z + min_depth <= H -> py_limit_head z min_depth max_depth H = limit_head z max_depth H).
Proof.
  split.
  - intros z mn mx H Hm HH. unfold py_limit_head, limit_head. rewrite (Rmax_right H (z + mn)) by lra. rewrite (Rmax_left H z) by lra.
    rewrite !Rmin_left by lra. auto.
  - intros z mn mx H Hm HH. unfold py_limit_head, limit_head. rewrite !Rmax_left by lra. reflexivity.
Qed.

(** The network of the example for C22 to C25: parallel superlinks in both directions, an orifice, a weir and a pump
    between the same junctions, a boundary; here in the second step of both objects. *)
Definition ex_K0 : superlinks :=
  mkSuperlinks 3 (fun k => match k with 0 => 0 | 1 => 1 | _ => 1 end)%nat
                 (fun k => match k with 0 => 1 | 1 => 0 | _ => 2 end)%nat
    (fun _ => 2) (fun _ => -1) (fun _ => 1) (fun _ => 1) (fun _ => -2) (fun _ => 1)
    zeros (fun _ => 1) (fun _ => 1) zeros (fun _ => 1) (fun _ => 0).

Example C67_systems_example :
  let asm s := sparse_matrix_equations 3 ex_bc ex_K0 (ex_C 0 1 1) (ex_C 0 1 (1 / 2)) (ex_C 1 0 3) (fun _ => 5) (fun _ => 7) (fun _ => 1) zeros 1 s in
  let py A Om W P := py_sparse_matrix_equations 3 ex_bc ex_K0 (ex_C 0 1 1) (ex_C 0 1 (1 / 2)) (ex_C 1 0 3) (fun _ => 5) (fun _ => 7) (fun _ => 1) zeros 1 A Om W P in
  let '(A1, O1, W1, P1, _) := py zeros2 zeros2 zeros2 zeros2 in
  let '(A, Om, W, P, b) := py A1 O1 W1 P1 in
  loop_free ex_K0 (ex_C 0 1 1) (ex_C 0 1 (1 / 2)) (ex_C 1 0 3) /\
  py_reachable 3 ex_bc ex_K0 (ex_C 0 1 1) (ex_C 0 1 (1 / 2)) (ex_C 1 0 3) A1 O1 W1 P1 /\
  (forall k, (k < 3)%nat -> xi_u ex_K0 1 k = 0 /\ xi_d ex_K0 1 k = 0) /\
  A 0%nat 1%nat = -2 /\ Om 0%nat 1%nat = -1 /\ A 2%nat 1%nat = 0 /\ A 2%nat 2%nat = 1 /\ b 2%nat = 1.
Proof.
  intros asm py.
  assert (HL : loop_free ex_K0 (ex_C 0 1 1) (ex_C 0 1 (1 / 2)) (ex_C 1 0 3)).
  { unfold loop_free, no_loops. cbn. repeat split; intros k Hk; try lia. destruct k as [|[|]]; lia. }
  destruct (py zeros2 zeros2 zeros2 zeros2) as [[[[A1 O1] W1] P1] b1] eqn:E1.
  assert (R1 : py_reachable 3 ex_bc ex_K0 (ex_C 0 1 1) (ex_C 0 1 (1 / 2)) (ex_C 1 0 3) A1 O1 W1 P1).
  { eapply py_again; [constructor| |exact E1]. repeat split. }
  destruct (py A1 O1 W1 P1) as [[[[A Om] W] P] b] eqn:E2.
  assert (HX : forall k, (k < 3)%nat -> xi_u ex_K0 1 k = 0 /\ xi_d ex_K0 1 k = 0).
  { intros k _. unfold xi_u, xi_d, xi. cbn. unfold zeros. split; field. }
  split; [exact HL|]. split; [exact R1|]. split; [exact HX|].
  assert (R0 : reachable 3 ex_bc ex_K0 (ex_C 0 1 1) (ex_C 0 1 (1 / 2)) (ex_C 1 0 3) fresh_system) by constructor.
  destruct (C67_systems_agree _ _ _ _ _ _ _ _ _ _ _ _ _ _ _ _ _ _ _ _ _ HL HX R0 R1 E2) as (V & B).
  destruct (assembly_ok 3 ex_bc ex_K0 (ex_C 0 1 1) (ex_C 0 1 (1 / 2)) (ex_C 1 0 3) (fun _ => 5) (fun _ => 7) (fun _ => 1) zeros 1 fresh_system
              (fresh_clean _ _ _ _ _ _)) as (_ & He & Hb).
  destruct (V 0%nat 1%nat ltac:(lia)) as (-> & -> & _). destruct (V 2%nat 1%nat ltac:(lia)) as (-> & _). destruct (V 2%nat 2%nat ltac:(lia)) as (-> & _).
  rewrite B, Hb.
  destruct (He 0%nat 1%nat ltac:(lia)) as (-> & -> & _). destruct (He 2%nat 1%nat ltac:(lia)) as (-> & _). destruct (He 2%nat 2%nat ltac:(lia)) as (-> & _).
  unfold entry, sum_if; simpl. repeat split; lra.
Qed.

(** The hypotheses of C20 and of the comparison of ends: water standing 2 m and 1 m above the ends, moving. *)
Example C67_ends_example :
  let e := mkEnds 2 0 (-1) (-2) 0 1 in
  exists hu hd, upstream_head_coefficients BCz 2 0 1 1 10 1 1 1 (1 / 100) 0 0 1 = Some hu /\
    downstream_head_coefficients BCz 1 0 1 1 10 1 1 1 (1 / 100) 0 0 1 = Some hd /\
    D_k_star (eX e) (hk hu) (eU e) (hk hd) (eZ e) (eW e) <> 0 /\ eX e * eU e - eZ e * eW e <> 0.
Proof.
  cbn [eX eU eZ eW]. eexists. eexists. split; [reflexivity|]. split; [reflexivity|]. cbn [hk].
  unfold gamma_uk, gamma_dk, g. rewrite !safe_divide_nz by (simpl; lra). rewrite Rabs_R1. unfold D_k_star. simpl.
  split; [|lra]. unfold Rdiv. set (x := / _). assert (Hx : 0 < x) by (apply Rinv_0_lt_compat; lra).
  match goal with |- ?l <> 0 => replace l with ((1 + 2 * x) ^ 2 - x ^ 2 * (-1) * (-1)) by ring end.
  assert (0 < x ^ 2) by (apply pow_lt; lra). nra.
Qed.
