From Verif Require Import Prelude M_Coeffs M_Recurrence S_Superlink L_Forward L_Backward L_Pivots.

Lemma sq_pos x : x <> 0 -> 0 < x ^ 2.
Proof. intros H. replace (x ^ 2) with (Rsqr x) by (unfold Rsqr; ring). now apply Rsqr_pos_lt. Qed.

Lemma fpow_pos x y : 0 < x -> fpow x y = Rpower x y /\ 0 < fpow x y.
Proof.
  intros H. unfold fpow. destruct (Reqb_spec x 0); [lra|]. split; auto. apply exp_pos.
Qed.

Lemma fpow_nonneg x y : 0 <= x -> 0 <= fpow x y.
Proof. intros H. unfold fpow. dR; try lra. left. apply exp_pos. Qed.

Lemma sigma_range Fr : 0 <= sigma_ik Fr <= 1.
Proof. unfold sigma_ik. destruct (Rltb_spec Fr 0.5); [lra|]. destruct (Rltb_spec 1 Fr); lra. Qed.

Lemma damping_range on u A B : 0 <= damping on u A B <= 1.
Proof. unfold damping. destruct on; [apply sigma_range|lra]. Qed.

Lemma damping_zero_moving on Q A B : 0 < A -> damping on (u_ik Q A) A B = 0 -> Q <> 0.
Proof.
  unfold damping. destruct on; [|lra]. intros HA Hs ->. revert Hs.
  unfold sigma_ik, Fr_ik, u_ik. destruct (Reqb_spec A 0); [lra|].
  replace (0 / A) with 0 by (field; lra). rewrite Rabs_R0, Rmult_0_l.
  destruct (Reqb_spec (sqrt (g * A)) 0) as [E0|E0].
  - destruct (Rltb_spec 0 0.5); lra.
  - replace (0 / sqrt (g * A)) with 0 by (field; auto). destruct (Rltb_spec 0 0.5); lra.
Qed.

Lemma a_nonpos u s : 0 <= s -> a_ik u s <= 0.
Proof. intros. unfold a_ik. pose proof (Rmax_r u 0). nra. Qed.
Lemma c_nonpos u s : 0 <= s -> c_ik u s <= 0.
Proof. intros. unfold c_ik. pose proof (Rmax_r (- u) 0). nra. Qed.

Lemma friction_nonneg Q dx A Rh n sf t :
  0 <= dx -> 0 <= A -> 0 <= Rh -> 0 <= n -> friction_slope Q dx A Rh n sf = Some t -> 0 <= t.
Proof.
  intros Hdx HA HR Hn. unfold friction_slope. pose proof g_pos. pose proof (Rabs_pos Q) as HQ.
  destruct (Rltb_spec 0 A) as [HA'|HA']; [|intros E; inversion E; lra].
  destruct sf as [|[|[|sf]]]; [| | |discriminate]; unfold bind.
  - rewrite div_nz by lra. intros E. apply div_some in E. destruct E as [E1 ->].
    assert (0 < fpow Rh (4/3)) by (pose proof (fpow_nonneg Rh (4/3) HR); lra).
    apply div_nonneg_pos; auto. apply div_nonneg_pos; auto.
    apply Rmult_le_pos; auto. apply Rmult_le_pos; auto. apply Rmult_le_pos; [lra|]. apply pow2_ge_0.
  - destruct (div _ (fpow A 0.85)) as [x|] eqn:E1; [|discriminate]. apply div_some in E1. destruct E1 as [N1 ->].
    destruct (div _ (fpow n 1.85)) as [y|] eqn:E2; [|discriminate]. apply div_some in E2. destruct E2 as [N2 ->].
    intros E3. apply div_some in E3. destruct E3 as [N3 ->].
    pose proof (fpow_nonneg A 0.85 HA). pose proof (fpow_nonneg n 1.85 Hn). pose proof (fpow_nonneg Rh 1.1655 HR).
    pose proof (fpow_nonneg (Rabs Q) 0.85 HQ).
    repeat apply div_nonneg_pos; try lra. apply Rmult_le_pos; auto. apply Rmult_le_pos; auto. lra.
  - destruct (div (Rabs Q) A) as [q|] eqn:E1; [|discriminate].
    destruct (div (q * 4 * Rh) _) as [Re|] eqn:E2; [|discriminate].
    destruct (div n _) as [u|] eqn:E3; [|discriminate].
    destruct (div 5.74 _) as [v|] eqn:E4; [|discriminate].
    destruct (div 0.25 _) as [f|] eqn:E5; [|discriminate].
    apply div_some in E5. destruct E5 as [N5 ->].
    intros E6. apply div_some in E6. destruct E6 as [N6 ->].
    pose proof (pow2_ge_0 (log10 (u + v))).
    assert (0 <= 0.25 / log10 (u + v) ^ 2) by (apply div_nonneg_pos; lra).
    assert (0 <= A * Rh) by nra.
    set (f := 0.25 / log10 (u + v) ^ 2) in *. clearbody f.
    apply div_nonneg_pos; [|lra]. apply Rmult_le_pos; auto. apply Rmult_le_pos; auto. apply Rmult_le_pos; auto. lra.
Qed.

(** Manning and Hazen-Williams never raise in a wet link; Darcy-Weisbach does at zero flow. *)
Lemma friction_law_ok Q dx A Rh n sf :
  0 < A -> 0 < Rh -> 0 < n -> (sf <= 1)%nat ->
  friction_slope Q dx A Rh n sf = Some (friction_law sf Q dx A Rh n).
Proof.
  intros HA HR Hn Hsf. unfold friction_slope, friction_law. destruct (Rltb_spec 0 A); [|lra].
  destruct sf as [|[|sf]]; [| |lia]; unfold bind.
  - destruct (fpow_pos Rh (4/3) HR) as [E1 P1]. rewrite div_nz by lra. rewrite E1 in *.
    rewrite div_nz by lra. f_equal. unfold g. field. split; lra.
  - destruct (fpow_pos A 0.85 HA) as [E1 P1]. destruct (fpow_pos n 1.85 Hn) as [E2 P2].
    destruct (fpow_pos Rh 1.1655 HR) as [E3 P3].
    rewrite !div_nz by lra. rewrite E1, E2, E3 in *. f_equal.
    destruct (Req_EM_T Q 0) as [Z|NZ].
    + assert (E4 : fpow (Rabs Q) 0.85 = 0).
      { rewrite Z, Rabs_R0. unfold fpow. destruct (Reqb_spec 0 0); [|lra]. destruct (Reqb_spec 0.85 0); lra. }
      rewrite E4. unfold g. field. repeat split; lra.
    + destruct (fpow_pos (Rabs Q) 0.85 (Rabs_pos_lt _ NZ)) as [E4 _]. rewrite E4.
      unfold g. field. repeat split; lra.
Qed.

Lemma friction_total Q dx A Rh n sf :
  0 < A -> 0 < Rh -> 0 < n -> (sf <= 1)%nat -> exists t, friction_slope Q dx A Rh n sf = Some t.
Proof.
  intros HA HR Hn Hsf. eexists. apply friction_law_ok; auto.
Qed.

Lemma friction_pos Q dx A Rh n sf :
  Q <> 0 -> 0 < dx -> 0 < A -> 0 < Rh -> 0 < n -> (sf <= 1)%nat -> 0 < friction_law sf Q dx A Rh n.
Proof.
  intros HQ Hdx HA HR Hn Hsf. pose proof (Rabs_pos_lt _ HQ).
  unfold friction_law. destruct sf as [|[|sf]]; [| |lia].
  - apply div_pos_pos; [|apply Rmult_lt_0_compat; auto; apply exp_pos].
    assert (0 < n ^ 2) by (apply pow_lt; auto).
    apply Rmult_lt_0_compat; auto. apply Rmult_lt_0_compat; auto. apply Rmult_lt_0_compat; auto. lra.
  - apply div_pos_pos; [|repeat apply Rmult_lt_0_compat; apply exp_pos].
    destruct (Req_EM_T Q 0); [contradiction|].
    apply Rmult_lt_0_compat; auto. apply Rmult_lt_0_compat; [lra|apply exp_pos].
Qed.
Lemma friction_still dx A Rh n sf : (sf <= 1)%nat -> friction_law sf 0 dx A Rh n = 0.
Proof.
  intros Hsf. unfold friction_law. destruct sf as [|[|sf]]; [| |lia].
  - rewrite Rabs_R0. unfold Rdiv. ring.
  - destruct (Req_EM_T 0 0); [|lra]. unfold Rdiv. ring.
Qed.

Lemma darcy_still_water dx A Rh n : 0 < A -> friction_slope 0 dx A Rh n 2 = None.
Proof.
  intros HA. unfold friction_slope. destruct (Rltb_spec 0 A); [|lra]. unfold bind.
  rewrite Rabs_R0, div_nz by lra. rewrite div_nz by lra.
  destruct (div n _); auto.
  replace (0 / A * 4 * Rh / 0.0000010034) with 0 by (field; lra).
  assert (E : fpow 0 0.9 = 0).
  { unfold fpow. destruct (Reqb_spec 0 0); [|lra]. destruct (Reqb_spec 0.9 0); lra. }
  rewrite E. unfold div. destruct (Reqb_spec 0 0); [auto|lra].
Qed.

Lemma friction_law_darcy Q dx A Rh n t :
  0 < A -> 0 < Rh -> friction_slope Q dx A Rh n 2 = Some t -> t = friction_law 2 Q dx A Rh n.
Proof.
  intros HA HR. unfold friction_slope, friction_law. destruct (Rltb_spec 0 A); [|lra]. unfold bind.
  destruct (div (Rabs Q) A) as [q|] eqn:E1; [|discriminate]. apply div_some in E1. destruct E1 as [N1 ->].
  destruct (div (_ * 4 * Rh) _) as [Re|] eqn:E2; [|discriminate]. apply div_some in E2. destruct E2 as [N2 ->].
  destruct (div n _) as [u|] eqn:E3; [|discriminate]. apply div_some in E3. destruct E3 as [N3 ->].
  destruct (div 5.74 _) as [v|] eqn:E4; [|discriminate]. apply div_some in E4. destruct E4 as [N4 ->].
  destruct (div 0.25 _) as [f|] eqn:E5; [|discriminate]. apply div_some in E5. destruct E5 as [N5 ->].
  intros E6. apply div_some in E6. destruct E6 as [N6 ->].
  set (Re' := Rabs Q / A * 4 * Rh / 0.0000010034) in *.
  replace (Rabs Q / A * (4 * Rh) / 0.0000010034) with Re' by (unfold Re'; unfold Rdiv; ring).
  assert (NR : Re' <> 0).
  { intros Z. apply N4. rewrite Z. unfold fpow. destruct (Reqb_spec 0 0); [|lra]. destruct (Reqb_spec 0.9 0); lra. }
  assert (EF : fpow Re' 0.9 = Rpower Re' 0.9) by (unfold fpow; destruct (Reqb_spec Re' 0); [contradiction|auto]).
  rewrite EF in *. replace (3.7 * (4 * Rh)) with (3.7 * 4 * Rh) by ring. reflexivity.
Qed.

(** Every formula that is defined has a positive value in moving water. *)
Lemma friction_defined_ok Q dx A Rh n sf :
  0 < A -> 0 < Rh -> 0 < n -> friction_defined sf Q A Rh n ->
  friction_slope Q dx A Rh n sf = Some (friction_law sf Q dx A Rh n).
Proof.
  intros HA HR Hn [Hsf|(-> & HQ & HL)]; [apply friction_law_ok; auto|].
  pose proof (Rabs_pos_lt _ HQ) as PQ.
  assert (X : exists t, friction_slope Q dx A Rh n 2 = Some t).
  { unfold friction_slope. destruct (Rltb_spec 0 A); [|lra]. unfold bind.
    rewrite div_nz by lra. rewrite div_nz by lra. rewrite div_nz by lra.
    set (Re := Rabs Q / A * 4 * Rh / 0.0000010034).
    replace (Rabs Q / A * (4 * Rh) / 0.0000010034) with Re in HL by (unfold Re; unfold Rdiv; ring).
    assert (PR : 0 < Re).
    { unfold Re. apply div_pos_pos; [|lra]. apply Rmult_lt_0_compat; auto. apply Rmult_lt_0_compat; [|lra]. apply div_pos_pos; auto. }
    destruct (fpow_pos Re 0.9 PR) as [E1 P1]. rewrite E1 in *. rewrite div_nz by lra.
    replace (3.7 * 4 * Rh) with (3.7 * (4 * Rh)) by ring.
    set (s := n / (3.7 * (4 * Rh)) + 5.74 / Rpower Re 0.9) in *.
    assert (PS : 0 < s) by (unfold s; apply Rplus_lt_0_compat; apply div_pos_pos; lra).
    assert (NL : log10 s ^ 2 <> 0).
    { unfold log10. apply pow_nonzero. assert (0 < ln 10) by (rewrite <- ln_1; apply ln_increasing; lra).
      intros Z. apply HL. apply ln_inv; [exact PS|lra|]. rewrite ln_1.
      apply (Rmult_eq_reg_r (/ ln 10)); [|apply Rinv_neq_0_compat; lra]. unfold Rdiv in Z. lra. }
    rewrite div_nz by exact NL. rewrite div_nz by nra. eauto. }
  destruct X as [t Et]. rewrite Et. f_equal. apply friction_law_darcy in Et; auto.
Qed.
Lemma friction_defined_total Q dx A Rh n sf :
  0 < A -> 0 < Rh -> 0 < n -> friction_defined sf Q A Rh n -> exists t, friction_slope Q dx A Rh n sf = Some t.
Proof.
  intros HA HR Hn HF. eexists. apply friction_defined_ok; auto.
Qed.
Lemma friction_defined_pos Q dx A Rh n sf :
  Q <> 0 -> 0 < dx -> 0 < A -> 0 < Rh -> 0 < n -> friction_defined sf Q A Rh n -> 0 < friction_law sf Q dx A Rh n.
Proof.
  intros HQ Hdx HA HR Hn [HF|(-> & _ & HL)]; [apply friction_pos; auto|].
  pose proof (Rabs_pos_lt _ HQ) as PQ. unfold friction_law. cbv zeta.
  set (s := _ + _) in *.
  assert (PR : 0 < Rabs Q / A * (4 * Rh) / 0.0000010034).
  { apply div_pos_pos; [|lra]. apply Rmult_lt_0_compat; [|lra]. apply div_pos_pos; auto. }
  assert (PS : 0 < s) by (unfold s; apply Rplus_lt_0_compat; apply div_pos_pos; try lra; apply exp_pos).
  assert (0 < ln 10) by (rewrite <- ln_1; apply ln_increasing; lra).
  assert (NL : 0 < (ln s / ln 10) ^ 2).
  { apply sq_pos. intros Z. apply HL. apply ln_inv; [exact PS|lra|]. rewrite ln_1.
    apply (Rmult_eq_reg_r (/ ln 10)); [|apply Rinv_neq_0_compat; lra]. unfold Rdiv in Z. lra. }
  apply div_pos_pos; [|nra]. apply Rmult_lt_0_compat; auto. apply Rmult_lt_0_compat; auto.
  apply Rmult_lt_0_compat; [lra|]. apply div_pos_pos; lra.
Qed.

(** One link. *)
Lemma momentum_sum dx dt n Q A Rh A_c C u_I u_Ip1 ctrl sigma sf b :
  b_ik dx dt n Q A Rh A_c C (a_ik u_I sigma) (c_ik u_Ip1 sigma) ctrl sigma sf = Some b ->
  exists t, friction_slope Q dx A Rh n sf = Some t /\
    a_ik u_I sigma + b + c_ik u_Ip1 sigma =
    dx / dt * sigma + t + (if ctrl then C * A * Rabs Q / A_c ^ 2 else 0).
Proof.
  unfold b_ik, bind. destruct (friction_slope Q dx A Rh n sf) as [t|]; [|discriminate].
  set (k := if ctrl then _ else _). intros E. injection E as <-. exists t. split; [reflexivity|]. ring.
Qed.

Section Net.
  Variables (damp : bool) (L : links) (dt : R) (NL : nat) (b0 : arr).

  Lemma link_coeffs_entries m : link_coeffs damp L dt NL b0 = Some m ->
    let u i := u_ik (l_Q L i) (l_A L i) in
    let sigma i := damping damp (u i) (l_A L i) (l_B L i) in
    (forall i, ma m i = a_ik (u_Ik (l_dx L) u (l_start L) i) (sigma i)) /\
    (forall i, mc m i = c_ik (u_Ip1k (l_dx L) u (l_end L) i) (sigma i)) /\
    (forall i, mP m i = P_ik (l_Qp L i) (l_dx L i) dt (l_A L i) (l_So L i) (sigma i)) /\
    (forall i, (i < NL)%nat ->
       b_ik (l_dx L i) dt (l_n L i) (l_Q L i) (l_A L i) (l_R L i) (l_Ac L i) (l_C L i)
            (ma m i) (mc m i) (l_ctrl L i) (sigma i) (l_sf L i) = Some (mb m i)).
  Proof.
    intros E u sigma. unfold link_coeffs in E.
    match type of E with bind ?x _ = _ => destruct x as [b|] eqn:Eb; [|discriminate] end. simpl in E. inversion E; subst m; clear E; simpl.
    split; [reflexivity|]. split; [reflexivity|]. split; [reflexivity|].
    set (bodyv := fun i => b_ik (l_dx L i) dt (l_n L i) (l_Q L i) (l_A L i) (l_R L i) (l_Ac L i) (l_C L i)
      (a_ik (u_Ik (l_dx L) u (l_start L) i) (sigma i)) (c_ik (u_Ip1k (l_dx L) u (l_end L) i) (sigma i))
      (l_ctrl L i) (sigma i) (l_sf L i)) in *.
    revert Eb.
    refine (for_opt_inv (fun m b => forall i, (i < m)%nat -> bodyv i = Some (b i)) _ _ _ _ _ _).
    - intros; lia.
    - intros i b1 b2 Hi IH Eq j Hj. cbv beta in Eq. change (bind (bodyv i) (fun v => Some (upd b1 i v)) = Some b2) in Eq. unfold bind in Eq.
      destruct (bodyv i) as [v|] eqn:Ev; [|discriminate]. inversion Eq; subst b2.
      destruct (Nat.eq_dec j i) as [->|].
      + now rewrite upd_eq.
      + rewrite upd_neq by auto. apply IH; lia.
  Qed.

  (** Wet links: positive area, radius, length; a friction formula that has a value, with positive coefficient;
      well formed internal control structures. *)
  Hypothesis Hdt : 0 < dt.
  Hypothesis Hwet : forall i, (i < NL)%nat ->
    0 < l_A L i /\ 0 < l_R L i /\ 0 < l_dx L i /\ 0 < l_n L i /\
    friction_defined (l_sf L i) (l_Q L i) (l_A L i) (l_R L i) (l_n L i) /\
    (l_ctrl L i = true -> 0 <= l_C L i /\ l_Ac L i <> 0).

  Lemma link_coeffs_total : exists m, link_coeffs damp L dt NL b0 = Some m.
  Proof.
    unfold link_coeffs.
    set (u := fun i => u_ik (l_Q L i) (l_A L i)). set (sigma := fun i => damping damp (u i) (l_A L i) (l_B L i)).
    set (body := fun i b => _).
    destruct (for_opt_total (fun _ _ => True) NL body b0) as [b [Eb _]]; auto.
    - intros i b1 Hi _. unfold body, b_ik.
      destruct (Hwet i Hi) as (HA & HR & Hdx & Hn & Hsf & _).
      destruct (friction_defined_total (l_Q L i) (l_dx L i) (l_A L i) (l_R L i) (l_n L i) (l_sf L i)) as [t Et]; auto.
      rewrite Et. simpl. eauto.
    - rewrite Eb. simpl. eauto.
  Qed.

  Lemma link_coeffs_signs m : link_coeffs damp L dt NL b0 = Some m ->
    forall i, (i < NL)%nat -> ma m i <= 0 /\ mc m i <= 0 /\ 0 < ma m i + mb m i + mc m i.
  Proof.
    intros E i Hi. destruct (link_coeffs_entries m E) as (Ea & Ec & _ & Eb).
    specialize (Eb i Hi). set (u := fun i => u_ik (l_Q L i) (l_A L i)) in *.
    set (s := damping damp (u i) (l_A L i) (l_B L i)) in *.
    pose proof (damping_range damp (u i) (l_A L i) (l_B L i)) as Hs. fold s in Hs.
    destruct (Hwet i Hi) as (HA & HR & Hdx & Hn & Hsf & Hctrl).
    rewrite Ea, Ec in *. fold s in Eb.
    change (damping damp (u_ik (l_Q L i) (l_A L i)) (l_A L i) (l_B L i)) with s in *.
    split; [apply a_nonpos; tauto|]. split; [apply c_nonpos; tauto|].
    apply momentum_sum in Eb. destruct Eb as (t & Et & Esum). fold s. rewrite Esum.
    assert (Hm : 0 <= (if l_ctrl L i then l_C L i * l_A L i * Rabs (l_Q L i) / l_Ac L i ^ 2 else 0)).
    { destruct (l_ctrl L i) eqn:Ec'; [|lra]. destruct (Hctrl eq_refl) as [HC HAc].
      apply div_nonneg_pos; [|apply sq_pos; auto].
      pose proof (Rabs_pos (l_Q L i)). repeat apply Rmult_le_pos; lra. }
    assert (Ht : 0 <= t) by (eapply friction_nonneg; [| | | |exact Et]; lra).
    assert (0 < l_dx L i / dt) by (apply div_pos_pos; auto).
    destruct (Req_dec s 0) as [Z|NZ].
    - assert (HQ : l_Q L i <> 0) by (eapply damping_zero_moving; [exact HA|exact Z]).
      rewrite friction_defined_ok in Et by auto. inversion Et; subst t.
      pose proof (friction_defined_pos (l_Q L i) (l_dx L i) (l_A L i) (l_R L i) (l_n L i) (l_sf L i) HQ Hdx HA HR Hn Hsf).
      assert (l_dx L i / dt * s = 0) by (rewrite Z; ring). lra.
    - assert (0 < l_dx L i / dt * s) by (apply Rmult_lt_0_compat; lra). lra.
  Qed.
End Net.

(** Continuity coefficients of a chain. *)
Section Nodes.
  Variables (Q0 B h dx A_SI Bu Bd dxu dxd : arr) (kI fwdi bwdi : nat -> nat) (isS isE : nat -> bool) (dt : R) (N : nat).

  Let nw := node_width B dx A_SI Bu Bd dxu dxd kI fwdi bwdi isS isE.

  Lemma node_coeffs_entries D0 E0 D E :
    numba_node_coeffs D0 E0 Q0 B h dx A_SI Bu Bd dxu dxd kI dt fwdi bwdi isS isE N = (D, E) ->
    forall I, (I < N)%nat -> E I = nw I / dt /\ D I = Q0 I + nw I * (h I / dt).
  Proof.
    intros Eq. unfold numba_node_coeffs in Eq.
    assert (G : (fun m (s : arr * arr) => forall I, (I < m)%nat ->
       snd s I = nw I / dt /\ fst s I = Q0 I + nw I * (h I / dt)) N (D, E)).
    2:{ exact G. }
    rewrite <- Eq. apply (for_n_inv (fun m (s : arr * arr) => forall I, (I < m)%nat ->
       snd s I = nw I / dt /\ fst s I = Q0 I + nw I * (h I / dt))).
    - intros; lia.
    - intros I [D1 E1] HI IH J HJ.
      destruct (Nat.eq_dec J I) as [->|HJI].
      + unfold nw, node_width. destruct (isS I), (isE I); simpl; rewrite !upd_eq; unfold E_Ik, D_Ik; split; reflexivity.
      + specialize (IH J ltac:(lia)). simpl in IH.
        destruct (isS I), (isE I); simpl; rewrite !upd_neq by auto; exact IH.
  Qed.
End Nodes.
