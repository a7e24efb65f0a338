(** Properties C20 (determinant of a wet superlink) and C27 (the solved system has exactly one solution). *)
From Verif Require Import Prelude M_Coeffs M_Recurrence M_Assembly S_Superlink S_Network
  L_Forward L_Backward L_Pivots L_Internals L_Coeffs L_Boundary L_Assembly L_Linear L_Dominance P_Assembly.

(** ** Sums of assembled columns *)

Definition nobc : nat -> bool := fun _ => false.

Lemma entry_nobc bc v dg Ju Jd ad bu n i j :
  bc i = false -> entry bc v dg Ju Jd ad bu n i j = entry nobc v dg Ju Jd ad bu n i j.
Proof. intros H. unfold entry, nobc. now rewrite H. Qed.

Lemma entry_off_nonpos v dg Ju Jd ad bu n i j :
  (forall k, (k < n)%nat -> 0 <= ad k /\ bu k <= 0) -> i <> j -> entry nobc v dg Ju Jd ad bu n i j <= 0.
Proof.
  intros H Hne. unfold entry, nobc. destruct (Nat.eqb_spec i j); [contradiction|].
  assert (0 <= - sum_if (fun k => Nat.eqb (Ju k) i && Nat.eqb (Jd k) j) bu n).
  { rewrite <- sum_if_opp. apply sum_n_nonneg. intros k Hk. destruct (H k Hk). destruct (_ && _); lra. }
  assert (0 <= sum_if (fun k => Nat.eqb (Jd k) i && Nat.eqb (Ju k) j) ad n).
  { apply sum_n_nonneg. intros k Hk. destruct (H k Hk). destruct (_ && _); lra. }
  lra.
Qed.

Lemma entry_column M v dg Ju Jd ad bu n j :
  ends_in M n Ju Jd -> (j < M)%nat ->
  sum_n (fun i => entry nobc v dg Ju Jd ad bu n i j) M
  = dg j + sum_if (fun k => Nat.eqb (Jd k) j) bu n - sum_if (fun k => Nat.eqb (Ju k) j) ad n.
Proof.
  intros HE Hj. unfold entry, nobc.
  rewrite sum_n_minus, sum_n_plus.
  rewrite (sum_n_single (fun i => if Nat.eqb i j then dg i else 0) M j); auto.
  2:{ intros i Hi Hne. destruct (Nat.eqb_spec i j); [contradiction|auto]. }
  rewrite Nat.eqb_refl.
  assert (W : forall (p : nat -> bool) (J : nat -> nat) f, (forall k, (k < n)%nat -> (J k < M)%nat) ->
     sum_n (fun i => sum_if (fun k => Nat.eqb (J k) i && p k) f n) M = sum_if p f n).
  { intros p J f HJ. rewrite (sum_n_ext _ (fun i => sum_if (fun k => p k && Nat.eqb (J k) i) f n * 1)).
    - rewrite (sum_if_weight M J p f n (fun _ => 1) HJ). apply sum_if_ext. intros; split; auto. intros; lra.
    - intros i Hi. rewrite Rmult_1_r. apply sum_if_ext. intros k Hk. split; auto. apply andb_comm. }
  rewrite (W (fun k => Nat.eqb (Jd k) j) Ju) by (intros; now apply HE).
  rewrite (W (fun k => Nat.eqb (Ju k) j) Jd) by (intros; now apply HE). reflexivity.
Qed.

(** ** Order conditions on the coefficients *)

(** A superlink passes on at most what it receives, with non-negative conductances; controls let flow grow with the
    upstream head and shrink with the downstream one. *)
Definition superlinks_ordered (K : superlinks) : Prop :=
  forall k, (k < k_n K)%nat -> 0 <= k_ad K k <= k_au K k /\ k_bd K k <= k_bu K k <= 0.
Definition controls_ordered (C : controls) : Prop :=
  forall k, (k < c_n C)%nat -> 0 <= c_a C k /\ c_b C k <= 0.

Section Dominance.
  Variables (M : nat) (bc : nat -> bool) (K : superlinks) (CO CW CP : controls).
  Variables (A_sj H_prev H_bc Q_0j : arr) (dt : R) (s : system).
  Hypothesis Hr : reachable M bc K CO CW CP s.
  Hypothesis Hn : network_ok M K CO CW CP.
  Hypothesis Hdt : 0 < dt.
  Hypothesis HK : superlinks_ordered K.
  Hypothesis HO : controls_ordered CO.
  Hypothesis HW : controls_ordered CW.
  Hypothesis HP : controls_ordered CP.
  Hypothesis Hs : forall j, (j < M)%nat -> bc j = false ->
    0 < attached_area A_sj (k_n K) (k_Ju K) (k_Jd K) (k_dxu K) (k_Bu K) (k_thu K) (k_dxd K) (k_Bd K) (k_thd K) j.

  Let l := matrix M bc K CO CW CP A_sj H_prev H_bc Q_0j dt s.
  Let N : mat := fun i j =>
    entry nobc 1 (diag_A K A_sj dt) (k_Ju K) (k_Jd K) (k_ad K) (k_bu K) (k_n K) i j
    + entry nobc 0 (diag_C CO) (c_Ju CO) (c_Jd CO) (c_a CO) (c_b CO) (c_n CO) i j
    + entry nobc 0 (diag_C CW) (c_Ju CW) (c_Jd CW) (c_a CW) (c_b CW) (c_n CW) i j
    + entry nobc 0 (diag_C CP) (c_Ju CP) (c_Jd CP) (c_a CP) (c_b CP) (c_n CP) i j.

  Lemma l_entries i j : (i < M)%nat -> l i j = if bc i then (if Nat.eqb i j then 1 else 0) else N i j.
  Proof.
    intros Hi. pose proof (reachable_clean _ _ _ _ _ _ _ Hr) as Hc.
    destruct (assembly_ok M bc K CO CW CP A_sj H_prev H_bc Q_0j dt s Hc) as (Hc' & He & _).
    unfold l, matrix, assembled. rewrite (matrix_entry M bc K) by exact Hc'.
    destruct (He i j Hi) as (-> & -> & -> & ->). unfold N.
    destruct (bc i) eqn:E.
    - unfold entry. rewrite E. destruct (Nat.eqb i j); lra.
    - rewrite !(entry_nobc bc) by auto. reflexivity.
  Qed.

  Lemma column_sum_bound j : (j < M)%nat ->
    attached_area A_sj (k_n K) (k_Ju K) (k_Jd K) (k_dxu K) (k_Bu K) (k_thu K) (k_dxd K) (k_Bd K) (k_thd K) j / dt <= sum_n (fun i => N i j) M.
  Proof.
    intros Hj. unfold N. rewrite !sum_n_plus.
    destruct Hn as (N1 & N2 & N3 & N4). rewrite !entry_column by auto.
    assert (CC : forall C, diag_C C j + sum_if (fun k => Nat.eqb (c_Jd C k) j) (c_b C) (c_n C)
                           - sum_if (fun k => Nat.eqb (c_Ju C k) j) (c_a C) (c_n C) = 0).
    { intros C. unfold diag_C. rewrite sum_if_opp. lra. }
    assert (KK : attached_area A_sj (k_n K) (k_Ju K) (k_Jd K) (k_dxu K) (k_Bu K) (k_thu K) (k_dxd K) (k_Bd K) (k_thd K) j / dt
        <= diag_A K A_sj dt j + sum_if (fun k => Nat.eqb (k_Jd K k) j) (k_bu K) (k_n K)
           - sum_if (fun k => Nat.eqb (k_Ju K k) j) (k_ad K) (k_n K)).
    { unfold diag_A, attached_area. rewrite !sum_if_plus, sum_if_opp.
      rewrite (sum_if_ext _ (fun k => Nat.eqb (k_Ju K k) j) (xi_u K dt)
             (fun k => k_dxu K k * k_Bu K k * k_thu K k / 2 * / dt))
        by (intros k _; split; auto; intros _; unfold xi_u, xi; field; lra).
      rewrite (sum_if_ext _ (fun k => Nat.eqb (k_Jd K k) j) (xi_d K dt)
             (fun k => k_dxd K k * k_Bd K k * k_thd K k / 2 * / dt))
        by (intros k _; split; auto; intros _; unfold xi_d, xi; field; lra).
      rewrite !sum_if_scal_r.
      assert (S1 : sum_if (fun k => Nat.eqb (k_Ju K k) j) (k_ad K) (k_n K) <= sum_if (fun k => Nat.eqb (k_Ju K k) j) (k_au K) (k_n K)).
      { apply sum_n_le. intros k Hk. destruct (HK k Hk). destruct (Nat.eqb _ _); lra. }
      assert (S2 : sum_if (fun k => Nat.eqb (k_Jd K k) j) (k_bd K) (k_n K) <= sum_if (fun k => Nat.eqb (k_Jd K k) j) (k_bu K) (k_n K)).
      { apply sum_n_le. intros k Hk. destruct (HK k Hk). destruct (Nat.eqb _ _); lra. }
      unfold Rdiv. lra. }
    pose proof (CC CO). pose proof (CC CW). pose proof (CC CP). lra.
  Qed.

  Lemma column_sum_pos j : (j < M)%nat -> bc j = false -> 0 < sum_n (fun i => N i j) M.
  Proof.
    intros Hj Hb. pose proof (column_sum_bound j Hj).
    assert (0 < attached_area A_sj (k_n K) (k_Ju K) (k_Jd K) (k_dxu K) (k_Bu K) (k_thu K) (k_dxd K) (k_Bd K) (k_thd K) j / dt)
      by (apply div_pos_pos; auto). lra.
  Qed.

  Lemma N_off i j : i <> j -> N i j <= 0.
  Proof.
    intros Hne. unfold N.
    pose proof (entry_off_nonpos 1 (diag_A K A_sj dt) (k_Ju K) (k_Jd K) (k_ad K) (k_bu K) (k_n K) i j) as X1.
    pose proof (entry_off_nonpos 0 (diag_C CO) (c_Ju CO) (c_Jd CO) (c_a CO) (c_b CO) (c_n CO) i j) as X2.
    pose proof (entry_off_nonpos 0 (diag_C CW) (c_Ju CW) (c_Jd CW) (c_a CW) (c_b CW) (c_n CW) i j) as X3.
    pose proof (entry_off_nonpos 0 (diag_C CP) (c_Ju CP) (c_Jd CP) (c_a CP) (c_b CP) (c_n CP) i j) as X4.
    specialize (X2 HO Hne). specialize (X3 HW Hne). specialize (X4 HP Hne).
    assert (X1' : forall k, (k < k_n K)%nat -> 0 <= k_ad K k /\ k_bu K k <= 0) by (intros k Hk; destruct (HK k Hk); lra).
    specialize (X1 X1' Hne). lra.
  Qed.

  Lemma reduced_dominant : dominant M (reduced bc l).
  Proof.
    intros j Hj. unfold off_sum, reduced. rewrite Nat.eqb_refl. destruct (bc j) eqn:Ej.
    - simpl. rewrite Rabs_R1. rewrite sum_n_0; [lra|]. intros i Hi. rewrite orb_true_r.
      destruct (Nat.eqb_spec i j); auto. apply Rabs_R0.
    - simpl. pose proof (column_sum_pos j Hj Ej) as HC. rewrite (sum_n_split _ M j Hj) in HC.
      rewrite (l_entries j j Hj), Ej.
      assert (X : sum_n (fun i => if Nat.eqb i j then 0 else Rabs (if bc i || false then (if Nat.eqb i j then 1 else 0) else l i j)) M
                  <= - sum_n (fun i => if Nat.eqb i j then 0 else N i j) M).
      { rewrite <- sum_n_opp. apply sum_n_le. intros i Hi. destruct (Nat.eqb_spec i j) as [->|Hne]; [lra|].
        pose proof (N_off i j Hne). rewrite orb_false_r. destruct (bc i) eqn:Ei.
        - rewrite Rabs_R0. lra.
        - rewrite (l_entries i j Hi), Ei. rewrite Rabs_left1 by auto. lra. }
      assert (0 <= sum_n (fun i => if Nat.eqb i j then 0 else Rabs (if bc i || false then (if Nat.eqb i j then 1 else 0) else l i j)) M).
      { apply sum_n_nonneg. intros i _. destruct (Nat.eqb i j); [lra|apply Rabs_pos]. }
      rewrite (Rabs_pos_eq (N j j)) by lra. lra.
  Qed.
End Dominance.

(** ** C27  Exactly one solution *)

(** If every superlink has ordered conductances (next theorem: every wet superlink does), every control's linearised
    flow is monotone in the two heads, and every junction without prescribed head has some water surface attached,
    then the solved system has one and only one solution, for every topology, history and right-hand side. *)
Theorem C27_solved_system_has_exactly_one_solution :
  forall M bc K CO CW CP A_sj H_prev H_bc Q_0j dt s,
  reachable M bc K CO CW CP s -> network_ok M K CO CW CP -> 0 < dt ->
  superlinks_ordered K -> controls_ordered CO -> controls_ordered CW -> controls_ordered CP ->
  (forall j, (j < M)%nat -> bc j = false ->
     0 < attached_area A_sj (k_n K) (k_Ju K) (k_Jd K) (k_dxu K) (k_Bu K) (k_thu K) (k_dxd K) (k_Bd K) (k_thd K) j) ->
  let l := matrix M bc K CO CW CP A_sj H_prev H_bc Q_0j dt s in
  forall b, (exists H, solves M l b H) /\
            (forall H H', solves M l b H -> solves M l b H' -> forall j, (j < M)%nat -> H j = H' j).
Proof.
  intros M bc K CO CW CP A_sj H_prev H_bc Q_0j dt s Hr Hn Hdt HK HO HW HP Hs l b.
  apply (identity_rows_solvable M bc l b).
  - intros i j Hi Hj Hb. unfold l. rewrite l_entries by auto. now rewrite Hb.
  - apply reduced_dominant; auto.
Qed.

(** Signs of the default ('z') head coefficients. *)
Lemma zahner_signs H z_inv Q Qp dx A C Rh n sf S_o dt hu hd H' z_inv' Q' Qp' dx' A' C' Rh' n' sf' S_o' :
  0 <= C -> 0 <= C' ->
  upstream_head_coefficients BCz H z_inv Q Qp dx A C Rh n sf S_o dt = Some hu ->
  downstream_head_coefficients BCz H' z_inv' Q' Qp' dx' A' C' Rh' n' sf' S_o' dt = Some hd ->
  hk hu <= 0 /\ 0 <= hk hd /\ 0 <= hl hu /\ 0 <= hl hd.
Proof.
  intros HC HC' E1 E2. injection E1 as <-. injection E2 as <-. simpl.
  assert (T : forall a b, 0 <= theta_k a b) by (intros; unfold theta_k; destruct (Rleb _ _); lra).
  assert (D : forall A, 0 <= 2 * A ^ 2 * g) by (intros; pose proof g_pos; pose proof (pow2_ge_0 A0); nra).
  pose proof (Rabs_pos Q). pose proof (Rabs_pos Q').
  repeat split; auto.
  - unfold gamma_uk, safe_divide. destruct (Reqb_spec (2 * A ^ 2 * g) 0); [lra|].
    specialize (D A). assert (0 <= Rabs Q * C) by (apply Rmult_le_pos; auto).
    assert (0 <= (Rabs Q * C) / (2 * A ^ 2 * g)) by (apply div_nonneg_pos; lra).
    unfold Rdiv in *. lra.
  - unfold gamma_dk, safe_divide. destruct (Reqb_spec (2 * A' ^ 2 * g) 0); [lra|].
    specialize (D A'). apply div_nonneg_pos; [apply Rmult_le_pos; auto|lra].
Qed.

(** Signs of the momentum ('b') head coefficients, for a mild upstream end. *)
Lemma momentum_signs H z_inv Q Qp dx A C Rh n sf S_o dt hu hd H' z_inv' Q' Qp' dx' A' C' Rh' n' sf' S_o' :
  0 < dt -> 0 <= C -> 0 <= C' -> 0 <= dx' ->
  0 < A /\ 0 < Rh /\ 0 < n /\ friction_defined sf Q A Rh n -> 0 < A' /\ 0 < Rh' /\ 0 < n' /\ friction_defined sf' Q' A' Rh' n' ->
  9.81 * A * friction_law sf Q dx A Rh n <= dx / dt + C * Rabs Q / (2 * A) ->
  upstream_head_coefficients BCb H z_inv Q Qp dx A C Rh n sf S_o dt = Some hu ->
  downstream_head_coefficients BCb H' z_inv' Q' Qp' dx' A' C' Rh' n' sf' S_o' dt = Some hd ->
  hk hu <= 0 /\ 0 <= hk hd /\ 0 <= hl hu /\ 0 <= hl hd.
Proof.
  intros Hdt HC HC' Hdx' (HA & HR & Hn & HF) (HA' & HR' & Hn' & HF') Hm. unfold upstream_head_coefficients, downstream_head_coefficients.
  unfold kappa_uk, kappa_dk. rewrite (friction_defined_ok Q dx A Rh n sf HA HR Hn HF).
  pose proof (friction_nonneg Q' dx' A' Rh' n' sf' (friction_law sf' Q' dx' A' Rh' n')) as HN.
  rewrite (friction_defined_ok Q' dx' A' Rh' n' sf' HA' HR' Hn' HF') in *.
  specialize (HN Hdx' ltac:(lra) ltac:(lra) ltac:(lra) eq_refl).
  cbn [bind]. intros E1 E2. injection E1 as <-. injection E2 as <-. cbn [hk hl].
  assert (T : forall a b, 0 <= theta_k a b) by (intros; unfold theta_k; destruct (Rleb _ _); lra).
  pose proof g_pos. pose proof (Rabs_pos Q').
  repeat split; auto.
  - set (F := friction_law sf Q dx A Rh n) in *.
    match goal with |- ?x <= 0 => set (X := x) end.
    assert (EX : X * (g * A) = 9.81 * A * F - (dx / dt + C * Rabs Q / (2 * A))) by (unfold X, g; field; lra).
    apply (Rmult_le_reg_r (g * A)); [nra|]. rewrite EX. lra.
  - assert (0 <= dx' / g / A' / dt) by (repeat apply div_nonneg_pos; auto).
    assert (0 <= C' * Rabs Q' / 2 / g / A' ^ 2).
    { repeat apply div_nonneg_pos; try lra; [apply Rmult_le_pos; auto|apply sq_pos; lra]. }
    change (A' * (A' * 1)) with (A' ^ 2). lra.
Qed.

(** Coefficients of any boundary method with these signs give ordered conductances. *)
Lemma ordered_conductances a b c P A E D NK nk i_1k I_1k sf f sb bw end_o hu hd :
  layout NK nk i_1k I_1k ->
  (forall k, (k < NK)%nat -> wet_superlink a b c A E (i_1k k) (I_1k k) (nk k)) ->
  numba_forward_recurrence sf a b c P A E D NK nk I_1k i_1k = Some f ->
  numba_backward_recurrence sb a b c P A E D NK nk
     (fun k => I_1k k + nk k - 1)%nat (fun k => i_1k k + nk k - 1)%nat = Some bw ->
  forall k, (k < NK)%nat -> hk hu <= 0 /\ 0 <= hk hd /\ 0 <= hl hu /\ 0 <= hl hd ->
  let e := end_coeffs end_o f bw E D (I_1k k) (I_1k k + nk k - 1) (I_1k k + nk k) in
  let fc := superlink_flow_coefficients e hu hd in
  0 <= ad fc <= au fc /\ bd fc <= bu fc <= 0.
Proof.
  intros Hl Hw Ef Eb k Hk (S1 & S2 & S3 & S4) e fc.
  pose proof (forward_recurrence_ok _ _ _ _ _ _ _ sf NK nk I_1k i_1k f Hl Ef k Hk) as HF.
  assert (HB : bwd_eqs a b c P A E D (i_1k k) (I_1k k) (nk k) bw) by (eapply backward_recurrence_ok; eauto; intros; cbv beta; lia).
  assert (Hn : (1 <= nk k)%nat) by (apply Hl; auto).
  pose proof (end_order a b c P A E D (i_1k k) (I_1k k) (nk k) f bw Hn HF HB (Hw k Hk) end_o) as X. cbv zeta in X. fold e in X.
  apply flow_coeff_order; tauto.
Qed.

(** The flow coefficients the code computes for a superlink whose links are wet (C16: positive areas, ...) are ordered,
    with either end method and the default boundary method; the determinant it divides by is at least one. *)
Theorem C27_wet_superlinks_have_ordered_conductances :
  forall a b c P A E D NK nk i_1k I_1k sf f sb bw end_o
         H_u H_d z_u z_d Q_uk Q_dk Q_up Q_dp dxu dxd Au Ad Cu Cd Ru Rd nu nd sfu sfd Su Sd dt hu hd,
  layout NK nk i_1k I_1k ->
  (forall k, (k < NK)%nat -> wet_superlink a b c A E (i_1k k) (I_1k k) (nk k)) ->
  numba_forward_recurrence sf a b c P A E D NK nk I_1k i_1k = Some f ->
  numba_backward_recurrence sb a b c P A E D NK nk
     (fun k => I_1k k + nk k - 1)%nat (fun k => i_1k k + nk k - 1)%nat = Some bw ->
  forall k, (k < NK)%nat -> 0 <= Cu -> 0 <= Cd ->
  upstream_head_coefficients BCz H_u z_u Q_uk Q_up dxu Au Cu Ru nu sfu Su dt = Some hu ->
  downstream_head_coefficients BCz H_d z_d Q_dk Q_dp dxd Ad Cd Rd nd sfd Sd dt = Some hd ->
  let e := end_coeffs end_o f bw E D (I_1k k) (I_1k k + nk k - 1) (I_1k k + nk k) in
  let fc := superlink_flow_coefficients e hu hd in
  0 <= ad fc <= au fc /\ bd fc <= bu fc <= 0.
Proof.
  intros a b c P A E D NK nk i_1k I_1k sf f sb bw end_o
         H_u H_d z_u z_d Q_uk Q_dk Q_up Q_dp dxu dxd Au Ad Cu Cd Ru Rd nu nd sfu sfd Su Sd dt hu hd
         Hl Hw Ef Eb k Hk HCu HCd E1 E2 e fc.
  eapply ordered_conductances; eauto.
  exact (zahner_signs _ _ _ _ _ _ _ _ _ _ _ _ _ _ _ _ _ _ _ _ _ _ _ _ _ HCu HCd E1 E2).
Qed.

Theorem C20_wet_superlink_determinant_at_least_one :
  forall a b c P A E D NK nk i_1k I_1k sf f sb bw end_o ku kd,
  layout NK nk i_1k I_1k ->
  (forall k, (k < NK)%nat -> wet_superlink a b c A E (i_1k k) (I_1k k) (nk k)) ->
  numba_forward_recurrence sf a b c P A E D NK nk I_1k i_1k = Some f ->
  numba_backward_recurrence sb a b c P A E D NK nk
     (fun k => I_1k k + nk k - 1)%nat (fun k => i_1k k + nk k - 1)%nat = Some bw ->
  forall k, (k < NK)%nat -> ku <= 0 -> 0 <= kd ->
  let e := end_coeffs end_o f bw E D (I_1k k) (I_1k k + nk k - 1) (I_1k k + nk k) in
  1 <= D_k_star (eX e) ku (eU e) kd (eZ e) (eW e).
Proof.
  intros a b c P A E D NK nk i_1k I_1k sf f sb bw end_o ku kd Hl Hw Ef Eb k Hk Hku Hkd e.
  pose proof (forward_recurrence_ok _ _ _ _ _ _ _ sf NK nk I_1k i_1k f Hl Ef k Hk) as HF.
  assert (HB : bwd_eqs a b c P A E D (i_1k k) (I_1k k) (nk k) bw) by (eapply backward_recurrence_ok; eauto; intros; cbv beta; lia).
  assert (Hn : (1 <= nk k)%nat) by (apply Hl; auto).
  pose proof (end_order a b c P A E D (i_1k k) (I_1k k) (nk k) f bw Hn HF HB (Hw k Hk) end_o) as X. cbv zeta in X. fold e in X.
  apply determinant_pos_ordered; auto; lra.
Qed.

(** Witness: the example network of C22-C25 meets the hypotheses of the first theorem (the others are met by the
    wet superlink of C19). *)
Example C27_example :
  superlinks_ordered ex_K /\ controls_ordered (ex_C 0 1 1) /\
  (forall j, (j < 3)%nat -> ex_bc j = false ->
     0 < attached_area (fun _ => 5) (k_n ex_K) (k_Ju ex_K) (k_Jd ex_K) (k_dxu ex_K) (k_Bu ex_K) (k_thu ex_K)
                       (k_dxd ex_K) (k_Bd ex_K) (k_thd ex_K) j).
Proof.
  split; [|split].
  - intros k Hk; simpl; lra.
  - intros k Hk; simpl; lra.
  - intros j Hj _. unfold attached_area, sum_if; simpl.
    destruct j as [|[|[|j]]]; simpl; try lra; lia.
Qed.
