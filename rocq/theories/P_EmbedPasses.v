(** Property C77, the exception: with several passes and a positive tolerance the passes are counted for the whole model, so that a
    part which is not connected does have an influence. *)
From Coq Require Import ZArith.
From Verif Require Import Prelude M_Numerics M_Coeffs M_Recurrence M_Assembly M_Step M_Geometry M_Storage M_Controls M_Simulation M_Model
  S_Numerics S_Geometry S_Superlink S_Network S_Step S_Simulation S_Model S_Object S_Replay S_Mirror S_Embed L_Forward L_Backward L_Internals L_Coeffs L_Step
  P_Assembly P_Superlink P_Wellposed P_Step P_Limits P_Simulation
  L_Model L_Gauss P_Model P_Replay L_Relate P_Resume P_Object L_Mirror L_MirrorStep L_MirrorObject P_Mirror P_MirrorCases L_Embed L_EmbedObject P_Embed P_EmbedCases.

(** A channel between two superjunctions with prescribed heads, and T tanks that widen upwards, connected to nothing. *)
Definition pond_net (T : nat) : network :=
  mkNetwork 1 (fun _ => 2%nat) (fun _ => 0%nat) (fun _ => 0%nat) (fun _ => 1%nat) (fun _ => 0%nat) 2 3 (fun _ => 0%nat) (fun I => I) (fun I => (I - 1)%nat)
    (fun I => Nat.eqb I 0) (fun I => Nat.eqb I 2) (fun i => Nat.eqb i 0) (fun i => Nat.eqb i 1)
    (fun _ => 10) (fun _ => 1/100) (fun _ => 0%nat) (fun _ => 0) (fun _ => 1) (fun _ => 1/2) (fun _ => false) (fun _ => 0)
    (fun _ => 1) (fun _ => 1) (fun _ => 1/2) (fun _ => 1) (fun _ => 0) (fun _ => 0) (fun _ => 1/100) (fun _ => 1/100) (fun _ => 0%nat) (fun _ => 0%nat)
    (fun _ => 0) (fun _ => 0) (2 + T) (fun j => Nat.ltb j 2) (fun _ => 0) (fun _ => 100) (1/1000) (fun _ => 50) false BCz true true.
Definition pond (T : nat) : design :=
  mkDesign (pond_net T) (fun i => i) (fun _ => d_sec demo 3%nat) (d_ell demo) (fun _ => Functional 1 1 1)
    (mkOrifices 0 (fun x => x) (fun x => x) zeros zeros zeros zeros zeros (fun _ => false)) (fun _ => 1%nat) zeros zeros zeros
    (mkWeirs 0 (fun x => x) (fun x => x) zeros zeros zeros zeros zeros zeros) no_pumps.
Definition pond_state : hstate := mkHState (fun j => if Nat.ltb j 2 then 2 else 1) (fun _ => 0) (fun _ => 0) (fun _ => 2) (fun _ => 0).
(** Half a cubic metre per second into the first tank, forty into the second. *)
Definition pond_inputs : inputs :=
  mkInputs (fun _ => 2) (fun j => if Nat.eqb j 2 then 1/2 else 40) zeros zeros zeros zeros.
Definition pond_place : place := mkPlace (fun x => x) (fun x => x) (fun x => x) (fun x => x) (fun x => x) 0.

Lemma pond_sound T : sound (pond T).
Proof.
  constructor; try reflexivity.
  - constructor.
    + split; intros; simpl in *; lia.
    + intros [|k] j Hk Hj; simpl in Hk; [|lia]. cbn in *. repeat split; auto; intros; lia.
    + simpl; intros; lia.
    + intros k Hk; simpl; lia.
  - simpl; lra.
  - intros i Hi. split; [apply (sd_links _ demo_sound 3%nat); simpl; lia|]. simpl. repeat split; try lra; try lia; try discriminate.
  - simpl; intros; lra.
  - simpl; intros; lra.
  - intros j Hj. simpl. lra.
  - split; [intros k Hk; simpl in Hk; lia|intros o Ho; simpl in Ho; lia].
  - intros k Hk; simpl in *; lia.
  - split; [intros k Hk; simpl in Hk; lia|intros o Ho; simpl in Ho; lia].
Qed.
Lemma pond_watered T st : (forall I, 0 < h_h st I) -> watered (pond T) st.
Proof. intros P i Hi. pose proof (P (d_Ik (pond T) i)). pose proof (P (d_Ik (pond T) i + 1)%nat). lra. Qed.
Lemma pond_embeds : embedded_design pond_place (pond 1) (pond 2).
Proof.
  constructor.
  - constructor; try reflexivity; auto.
    + split; intros; simpl in *; lia.
    + split; intros; simpl in *; lia.
    + intros x j Hx Lj Hb E. exists x. auto.
    + intros x j Hx Lj Hb E. exists x. auto.
    + intros [|k] j Hk Hl; simpl in Hk; [|lia]. cbn in *. do 2 (destruct j as [|j]; [split; reflexivity|]). lia.
    + intros [|k] j Hk Hl; simpl in Hk; [|lia]. cbn in *. do 2 (destruct j as [|j]; [split; reflexivity|]). lia.
    + intros j Lj. cbn. repeat split; lra.
    + intros [|k] Hk; simpl in Hk; [|lia]. cbn. repeat split; lra.
    + intros [|k] j Hk Hl; simpl in Hk; [|lia]. cbn in *. repeat split.
  - intros [|k] j Hk Hl; simpl in Hk; [|lia]. cbn. lia.
  - intros [|k] j Hk Hl; simpl in Hk; [|lia]. cbn. lia.
  - reflexivity.
  - reflexivity.
  - split; [split; intros; simpl in *; lia|]. split; [|split]; try (intros x j Hx; simpl in Hx; lia). intros x Hx. simpl in Hx. lia.
  - split; [split; intros; simpl in *; lia|]. split; [|split]; try (intros x j Hx; simpl in Hx; lia). intros x Hx. simpl in Hx. lia.
  - split; [split; intros; simpl in *; lia|]. split; [|split]; try (intros x j Hx; simpl in Hx; lia). intros x Hx. simpl in Hx. lia.
Qed.

(** One pass: a tank rises by the inflow over its surface at the last head. *)
Lemma pond_pass T slv i dt sv b b1 b2 : solver (2 + T) slv -> 0 < dt -> watered (pond T) (b_st b) -> reached (pond T) (b_sys b) ->
  setup_body (pond T) i dt sv b = Some b1 -> solve_body (pond T) slv i dt b1 = Some b2 ->
  (forall j, (j < 2)%nat -> h_H (b_st b2) j = limit_head 0 100 (i_Hbc i j)) /\
  (forall j, (2 <= j < 2 + T)%nat -> 1/1000 <= h_H (b_st b) j -> h_H (b_st b2) j = limit_head 0 100 (h_H sv j + i_Qin i j * dt / (h_H (b_st b) j + 1))).
Proof.
  intros Hs Hdt Hw Hr E1 E2. pose proof (pond_sound T) as HD.
  assert (Ha : admissible (pond T) i dt) by (split; [auto|split; simpl; intros; lia]).
  destruct (setup_body_total (pond T) HD i dt sv b Ha Hw Hr) as (b1' & E1' & _ & R1 & Ex & Un).
  rewrite E1 in E1'. injection E1' as <-.
  destruct (setup_body_inv _ i dt sv b b1 E1) as (g & Vs & Ao & u & Eg & _ & _ & _ & C). cbv beta zeta in C.
  unfold solve_body in E2. destruct (Hs _ _ Ex Un) as (H & EH & SH). rewrite EH in E2. cbn [bind] in E2. injection E2 as <-.
  unfold controls_of in C. rewrite C in SH. cbn [b_sys] in SH.
  assert (Hn : forall CO CW CP, c_n CO = 0%nat -> c_n CW = 0%nat -> c_n CP = 0%nat -> network_ok (2 + T) (superlinks_of (pond_net T) (geometry_of g) u) CO CW CP).
  { intros CO CW CP X Y Z. split; [apply (wf_ends _ (sd_wf _ HD))|]. split; [|split]; intros k Hk; lia. }
  assert (SN : same_network (blank_links (pond T)) (superlinks_of (pond_net T) (geometry_of g) u)
                 [blank_or (pond T); blank_we (pond T); blank_pu (pond T)]
                 [orifice_controls (with_areas (pond T) Ao) (b_Qo b) (i_uo i) (h_H (b_st b)) (n_zj (pond_net T));
                  weir_controls (d_we (pond T)) (b_Qw b) (i_uw i) (h_H (b_st b)) (n_zj (pond_net T));
                  pump_controls (d_pu (pond T)) (b_Qp b) (i_up i) (h_H (b_st b)) (n_zj (pond_net T))]) by (repeat split; reflexivity).
  pose proof (reachable_transfer _ _ _ _ _ _ _ _ _ _ _ SN Hr) as Hr'.
  set (CO := orifice_controls _ _ _ _ _) in *. set (CW := weir_controls _ _ _ _ _) in *. set (CP := pump_controls _ _ _ _ _) in *.
  split.
  - intros j Hj. cbn [b_st M_Step.solve_step h_H]. 
    change (limit_head 0 100 (H j) = limit_head 0 100 (i_Hbc i j)). f_equal.
    refine (proj1 (proj2 (C23_boundary_row_prescribes_head (2 + T) _ _ CO CW CP _ _ _ _ dt _ j Hr' (Hn CO CW CP eq_refl eq_refl eq_refl) ltac:(lia) _) H) _).
    + simpl. destruct (Nat.ltb_spec j 2); auto; lia.
    + exact (SH j ltac:(simpl; lia)).
  - intros j Hj Hp. change (limit_head 0 100 (H j) = limit_head 0 100 (h_H sv j + i_Qin i j * dt / (h_H (b_st b) j + 1))). f_equal.
    assert (Bj : n_bc (pond_net T) j = false) by (simpl; destruct (Nat.ltb_spec j 2); auto; lia).
    pose proof (proj1 (C22_row_is_water_balance (2 + T) _ _ CO CW CP _ _ _ _ dt _ H j Hr' (Hn CO CW CP eq_refl eq_refl eq_refl) ltac:(lra) ltac:(lia) Bj) (SH j ltac:(simpl; lia))) as W.
    unfold attached_area, net_inflow, sum_if in W. cbn in W.
    destruct j as [|[|j]]; [lia|lia|]. cbn in W.
    destruct (geometries_inv _ b g Eg) as (_ & _ & _ & EA & _).
    unfold storage_areas in EA. pose proof (all_entries_spec _ _ _ _ EA (S (S j)) ltac:(simpl; lia)) as A. cbv beta in A. cbn in A.
    unfold storage_depth in A. rewrite Rmax_left in A by lra. unfold functional_area in A.
    destruct (Rltb_spec (h_H (b_st b) (S (S j)) - 0) 0) as [X|X]; [lra|]. injection A as A.
    rewrite (proj1 (fpow_pos (h_H (b_st b) (S (S j)) - 0) 1 ltac:(lra))) in A. rewrite Rpower_1 in A by lra. rewrite <- A in W.
    assert (h_H (b_st b) (S (S j)) + 1 <> 0) by lra. assert (dt <> 0) by lra.
    apply (Rmult_eq_reg_r ((h_H (b_st b) (S (S j)) + 1) / dt)); [|apply Rmult_integral_contrapositive; split; [auto|apply Rinv_neq_0_compat; auto]].
    transitivity (i_Qin i (S (S j)) + h_H sv (S (S j)) * ((h_H (b_st b) (S (S j)) + 1) / dt)); [|field; split; auto].
    transitivity ((1 * (h_H (b_st b) (S (S j)) - 0) + 1 + (0 + 0) + (0 + 0)) * (H (S (S j)) - h_H sv (S (S j))) / dt + h_H sv (S (S j)) * ((h_H (b_st b) (S (S j)) + 1) / dt)); [field; auto|].
    lra.
Qed.

Definition pond_object : object := starting pond_state.
Theorem C77_number_of_passes_refuted :
  sound (pond 1) /\ sound (pond 2) /\ embedded_design pond_place (pond 1) (pond 2) /\
  embedded_object pond_place (pond 1) (pond 2) pond_object pond_object /\ embedded_inputs pond_place (pond 1) (pond 2) pond_inputs pond_inputs /\
  admissible (pond 1) pond_inputs 1 /\ admissible (pond 2) pond_inputs 1 /\
  exists r r', perform (pond 1) (gauss 3) (Step pond_inputs 1 2 1) pond_object = Some r /\
    perform (pond 2) (gauss 4) (Step pond_inputs 1 2 1) pond_object = Some r' /\
    h_H (b_st (m_body r)) 2%nat = 5/4 /\ h_H (b_st (m_body r')) 2%nat = 11/9.
Proof.
  assert (A : forall T, admissible (pond T) pond_inputs 1) by (intros T; split; [lra|split; simpl; intros; lia]).
  assert (W : forall T, watered (pond T) pond_state) by (intros T; apply pond_watered; simpl; intros; lra).
  split; [apply pond_sound|]. split; [apply pond_sound|]. split; [apply pond_embeds|].
  assert (St : embedded_state pond_place (pond_net 1) (pond_net 2) pond_state pond_state).
  { constructor; [intros j Hj; cbn; destruct (Nat.ltb j 2); lra|cbn; auto|intros k j _ _; reflexivity|intros k j _ _; reflexivity]. }
  assert (Ct : embedded_controlled pond_place (pond 1) zeros zeros zeros zeros zeros zeros) by (constructor; reflexivity).
  split; [constructor; cbn; auto; split; auto|].
  split; [constructor; cbn; intros; auto; try lra; intros k j _ _; reflexivity|].  split; [apply A|]. split; [apply A|].
  assert (L : forall x, 0 <= x <= 100 -> limit_head 0 100 x = x).
  { intros x Hx. unfold limit_head. rewrite Rmax_left, Rmin_left; lra. }
  (* the first pass *)
  assert (P1 : forall T, exists b1 b2, setup_body (pond T) pond_inputs 1 pond_state (body0 pond_state) = Some b1 /\
    solve_body (pond T) (gauss (2 + T)) pond_inputs 1 b1 = Some b2 /\ watered (pond T) (b_st b2) /\ reached (pond T) (b_sys b2) /\
    (forall j, (j < 2)%nat -> h_H (b_st b2) j = 2) /\ ((1 <= T)%nat -> h_H (b_st b2) 2%nat = 5/4) /\ ((2 <= T)%nat -> h_H (b_st b2) 3%nat = 21)).
  { intros T. destruct (setup_body_total (pond T) (pond_sound T) pond_inputs 1 pond_state (body0 pond_state) (A T) (W T) ltac:(constructor)) as (b1 & E1 & _ & R1 & Sv).
    destruct (solve_body_total (pond T) (pond_sound T) (gauss (2 + T)) (gauss_solver (2 + T)) pond_inputs 1 b1 Sv R1) as (b2 & E2 & W2 & R2 & _).
    exists b1, b2. split; [exact E1|]. split; [exact E2|]. split; [exact W2|]. split; [exact R2|].
    destruct (pond_pass T (gauss (2 + T)) pond_inputs 1 pond_state (body0 pond_state) b1 b2 (gauss_solver (2 + T)) ltac:(lra) (W T) ltac:(constructor) E1 E2) as [X Y].
    split; [intros j Hj; rewrite X by auto; apply L; simpl; lra|].
    split; intros HT; (rewrite Y by (simpl; (lia || lra))); simpl; rewrite L; lra. }
  destruct (P1 1%nat) as (b1 & b2 & E1 & E2 & W2 & R2 & H0 & H2 & _). destruct (P1 2%nat) as (b1' & b2' & E1' & E2' & W2' & R2' & H0' & H2' & H3').
  specialize (H2 ltac:(lia)). specialize (H2' ltac:(lia)). specialize (H3' ltac:(lia)).
  (* the second pass of the whole *)
  destruct (setup_body_total (pond 2) (pond_sound 2) pond_inputs 1 pond_state b2' (A 2%nat) W2' R2') as (b3 & E3 & _ & R3 & Sv3).
  destruct (solve_body_total (pond 2) (pond_sound 2) (gauss 4) (gauss_solver 4) pond_inputs 1 b3 Sv3 R3) as (b4 & E4 & _ & _ & _).
  destruct (pond_pass 2 (gauss 4) pond_inputs 1 pond_state b2' b3 b4 (gauss_solver 4) ltac:(lra) W2' R2' E3 E4) as [_ Y].
  assert (Y2 : h_H (b_st b4) 2%nat = 11/9).
  { rewrite Y by (try lia; rewrite H2'; lra). rewrite H2'. simpl. rewrite L; lra. }
  assert (T1 : all_below 3 1 (heads_of b2) (h_H pond_state) = true).
  { unfold all_below, heads_of. cbn [seq forallb]. rewrite H0, H0, H2 by lia. simpl.
    repeat match goal with |- context[Rltb (Rabs ?x) 1] => destruct (Rltb_spec (Rabs x) 1) as [_|Z]; [|exfalso; apply Z; unfold Rabs; destruct (Rcase_abs x); lra] end. reflexivity. }
  assert (T2 : all_below 4 1 (heads_of b2') (h_H pond_state) = false).
  { unfold all_below, heads_of. cbn [seq forallb]. rewrite H0', H0', H2', H3' by lia. simpl.
    destruct (Rltb_spec (Rabs (21 - 1)) 1) as [Z|_]; [exfalso; unfold Rabs in Z; destruct (Rcase_abs (21 - 1)); lra|]. rewrite !Bool.andb_false_r. reflexivity. }
  set (r := mkModel (0 + 1) (0 + 1)%Z b2 (0, save_body (body0 pond_state)) : object).
  set (r' := mkModel (0 + 1 - 1 + 1) (0 + 1 - 1 + 1)%Z b4 (0, save_body (body0 pond_state)) : object).
  assert (S1 : perform (pond 1) (gauss 3) (Step pond_inputs 1 2 1) pond_object = Some r).
  { unfold perform, object_step, step, setup_step', pond_object, starting. cbn [save_state m_t m_body m_saved m_ic snd save_body v_st body0 b_st].
    change (mkBody pond_state zeros zeros zeros (fun _ => geom0) (fun _ => geom0) (fun _ => geom0) zeros zeros zeros (fun _ => 1) (fun _ => 1) setup0 fresh_system) with (body0 pond_state).
    rewrite E1. cbn [bind]. unfold solve_step'. cbn [m_t m_body m_saved m_ic snd]. change (2 + 1)%nat with 3%nat in E2. rewrite E2. cbn [bind]. 
    change (Nat.ltb 0 (2 - 1)) with true. cbv iota. cbn [m_body m_saved snd v_st save_body body0 b_st]. change (n_M (d_net (pond 1))) with 3%nat. rewrite T1. reflexivity. }
  assert (S2 : perform (pond 2) (gauss 4) (Step pond_inputs 1 2 1) pond_object = Some r').
  { unfold perform, object_step, step, setup_step', pond_object, starting. cbn [save_state m_t m_body m_saved m_ic snd save_body v_st body0 b_st].
    change (mkBody pond_state zeros zeros zeros (fun _ => geom0) (fun _ => geom0) (fun _ => geom0) zeros zeros zeros (fun _ => 1) (fun _ => 1) setup0 fresh_system) with (body0 pond_state).
    rewrite E1'. cbn [bind]. unfold solve_step'. cbn [m_t m_body m_saved m_ic snd]. change (2 + 2)%nat with 4%nat in E2'. rewrite E2'. cbn [bind]. 
    change (Nat.ltb 0 (2 - 1)) with true. cbv iota. cbn [m_body m_saved snd v_st save_body body0 b_st]. change (n_M (d_net (pond 2))) with 4%nat. rewrite T2.
    change (2 - 1)%nat with 1%nat. cbn [iterate]. unfold setup_step'. cbn [m_t m_body m_saved m_ic snd save_body v_st body0 b_st].
    rewrite E3. cbn [bind]. unfold solve_step'. cbn [m_t m_body m_saved m_ic snd]. rewrite E4. cbn [bind]. cbn [m_body]. destruct (all_below 4 1 (heads_of b2') (heads_of b4)); reflexivity. }
  exists r, r'. split; [exact S1|]. split; [exact S2|]. split; [exact H2|exact Y2].
Qed.
