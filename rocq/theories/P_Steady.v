(** Properties C85, C86: steady flow. *)
From Coq Require Import ZArith.
From Verif Require Import Prelude M_Numerics M_Coeffs M_Recurrence M_Assembly M_Step M_Geometry M_Storage M_Controls M_Simulation M_Model
  S_Numerics S_Geometry S_Superlink S_Network S_Step S_Controls S_Simulation S_Model S_Object S_Replay
  L_Forward L_Backward L_Pivots L_Internals L_Coeffs L_Boundary L_Assembly L_Dominance L_Linear L_Step
  P_Superlink P_Assembly P_Wellposed P_Step P_Limits P_Controls P_Simulation L_Model L_Gauss P_Model P_Replay P_Object L_Relate P_Advection P_Resume.
From Verif Require Import S_Steady L_Steady.

Lemma same_state_sym N st st' : same_state N st st' -> same_state N st' st.
Proof. intros [A B C D]. constructor; intros; [now rewrite A|destruct (B k H); auto|now rewrite C|now rewrite D]. Qed.
Lemma same_state_trans N st st' st'' : same_state N st st' -> same_state N st' st'' -> same_state N st st''.
Proof.
  intros [A B C D] [A' B' C' D']. constructor; intros; [rewrite A by auto|destruct (B k H), (B' k H)|rewrite C by auto|rewrite D by auto]; auto; split; congruence.
Qed.
Lemma alike_trans D b b' b'' : alike D b b' -> alike D b' b'' -> alike D b b''.
Proof. intros [A B C E F G] [A' B' C' E' F' G']. constructor; [exact (same_state_trans _ _ _ _ A A')|..]; intros; [rewrite B|rewrite C|rewrite E|rewrite F|rewrite G]; auto. Qed.
Lemma alike_water D b b' : alike D b b' -> same_water D b b'.
Proof. intros [A B C E _ _]. now constructor. Qed.

Section Steady.
Variable D : design.
Variable slv : mat -> arr -> option arr.
Local Notation N := (d_net D).
Hypothesis HD : sound D.
Hypothesis HT : tabled D.
Hypothesis Hslv : solver (n_M N) slv.
Hypothesis Hend : n_end_o N = false.
Hypothesis Hall : all_in_superlinks N.

(** Terms of a junction's balance at the heads of a state. *)
Lemma superlink_flows_net G st Q0 w dt u H j : wet N G -> 0 < dt -> setup_step N G w st st Q0 dt = Some u -> carried N G st u ->
  (forall j, (j < n_M N)%nat -> H j = h_H st j) ->
  net_inflow (superlink_elements (superlinks_of N G u)) H j
  = sum_if (fun k => Nat.eqb (n_Jd N k) j) (h_Qd st) (n_K N) - sum_if (fun k => Nat.eqb (n_Ju N k) j) (h_Qu st) (n_K N).
Proof.
  intros Wt Hdt Hu C EH. pose proof (carried_ends N G st Q0 (sd_wf _ HD) Wt (sd_z _ HD) Hend w dt u Hdt Hu C) as CE.
  pose proof (wf_ends _ (sd_wf _ HD)) as He. unfold net_inflow. simpl.
  f_equal; apply sum_if_ext; intros k Hk; (split; [reflexivity|]); intros _; destruct (He k Hk) as [J1 J2]; rewrite (EH _ J1), (EH _ J2);
    destruct (CE k Hk) as [E _]; [exact (f_equal snd E)|exact (f_equal fst E)].
Qed.
Lemma control_flows_net C (q : arr) H j :
  (forall k, (k < c_n C)%nat -> c_a C k * H (c_Ju C k) + c_b C k * H (c_Jd C k) + c_c C k = q k) ->
  net_inflow (control_elements C) H j
  = sum_if (fun k => Nat.eqb (c_Jd C k) j) q (c_n C) - sum_if (fun k => Nat.eqb (c_Ju C k) j) q (c_n C).
Proof.
  intros E. unfold net_inflow. simpl. f_equal; apply sum_if_ext; intros k Hk; (split; [reflexivity|]); intros _; auto.
Qed.

(** Flows of controls that lie on their laws. *)
Lemma controls_net i dt b Ao H : admissible D i dt -> orifices_open D i -> orifice_areas D (b_st b) (i_uo i) (b_Ao b) = Some Ao ->
  (forall o, (o < o_n (d_or D))%nat -> let O := d_or D in let H := h_H (b_st b) in
     b_Qo b o = orifice_law (Ao o) (o_C O o) (n_zj N (o_Ju O o) + o_z O o) (o_tau O o * o_ymax O o * i_uo i o) (H (o_Ju O o)) (H (o_Jd O o)) (o_oneway O o)) ->
  (forall w, (w < w_n (d_we D))%nat -> let W := d_we D in let H := h_H (b_st b) in
    b_Qw b w = weir_law (w_L W w) (w_s W w) (w_Cr W w) (w_Ct W w)
      (n_zj N (w_Ju W w) + w_z W w + (1 - i_uw i w) * w_ymax W w) (H (w_Ju W w)) (H (w_Jd W w))) ->
  (forall p, (p < p_n (d_pu D))%nat -> let P := d_pu D in let H := h_H (b_st b) in
    let dH := Rmax (p_min P p) (Rmin (p_max P p) (H (p_Jd P p) - H (p_Ju P p))) in
    (H (p_Ju P p) <= n_zj N (p_Ju P p) + p_z P p -> b_Qp b p = 0) /\
    (n_zj N (p_Ju P p) + p_z P p < H (p_Ju P p) -> 0 <= b_Qp b p /\ p_b P p * fpow (b_Qp b p) (p_c P p) = i_up i p * (p_a P p - dH))) ->
  (forall j, (j < n_M N)%nat -> H j = h_H (b_st b) j) ->
  let '(CO, CW, CP) := controls_of D i (b_st b) Ao (b_Qo b) (b_Qw b) (b_Qp b) in
  forall j,
  net_inflow (control_elements CO) H j
    = sum_if (fun o => Nat.eqb (o_Jd (d_or D) o) j) (b_Qo b) (o_n (d_or D)) - sum_if (fun o => Nat.eqb (o_Ju (d_or D) o) j) (b_Qo b) (o_n (d_or D)) /\
  net_inflow (control_elements CW) H j
    = sum_if (fun w => Nat.eqb (w_Jd (d_we D) w) j) (b_Qw b) (w_n (d_we D)) - sum_if (fun w => Nat.eqb (w_Ju (d_we D) w) j) (b_Qw b) (w_n (d_we D)) /\
  net_inflow (control_elements CP) H j
    = sum_if (fun p => Nat.eqb (p_Jd (d_pu D) p) j) (b_Qp b) (p_n (d_pu D)) - sum_if (fun p => Nat.eqb (p_Ju (d_pu D) p) j) (b_Qp b) (p_n (d_pu D)).
Proof.
  intros Ha Ho EO LO LW LP EH. unfold controls_of. destruct Ha as (_ & Hup & _). intros j.
  split; [|split].
  - refine (control_flows_net (orifice_controls (with_areas D Ao) (b_Qo b) (i_uo i) (h_H (b_st b)) (n_zj N)) (b_Qo b) H j _).
    intros o Ho'. cbn in Ho'. destruct (proj1 (sd_or _ HD) o Ho') as [J1 J2].
    pose proof (linearised_fixed _ _ _ _ _ (C35_linearised_orifice_around_any_flow (b_Qo b o) (Ao o) (o_C (d_or D) o) (h_H (b_st b) (o_Ju (d_or D) o))
      (h_H (b_st b) (o_Jd (d_or D) o)) (i_uo i o) (n_zj N (o_Ju (d_or D) o)) (o_z (d_or D) o) (o_tau (d_or D) o) (o_ymax (d_or D) o) (o_oneway (d_or D) o) (Ho o Ho'))
      (LO o Ho')) as X.
    cbn [orifice_controls from_coeffs c_a c_b c_c c_Ju c_Jd with_areas o_n o_Ju o_Jd o_A o_C o_z o_tau o_ymax o_oneway]. rewrite (EH _ J1), (EH _ J2).
    rewrite (LO o Ho') at 4. unfold linear_orifice in X.
    etransitivity; [|exact X]. match goal with |- context [fst (fst ?c)] => destruct c as [[al be] ch] end. reflexivity.
  - refine (control_flows_net (weir_controls (d_we D) (b_Qw b) (i_uw i) (h_H (b_st b)) (n_zj N)) (b_Qw b) H j _).
    intros w Hw. cbn in Hw. destruct (sd_we _ HD w Hw) as [J1 J2].
    pose proof (linearised_fixed _ _ _ _ _ (C35_linearised_weir_around_any_flow (b_Qw b w) (h_H (b_st b) (w_Ju (d_we D) w)) (h_H (b_st b) (w_Jd (d_we D) w))
      (i_uw i w) (n_zj N (w_Ju (d_we D) w)) (w_z (d_we D) w) (w_ymax (d_we D) w) (w_L (d_we D) w) (w_s (d_we D) w) (w_Cr (d_we D) w) (w_Ct (d_we D) w)) (LW w Hw)) as X.
    cbn [weir_controls from_coeffs c_a c_b c_c c_Ju c_Jd]. rewrite (EH _ J1), (EH _ J2).
    rewrite (LW w Hw) at 4. unfold linear_weir in X.
    etransitivity; [|exact X]. match goal with |- context [fst (fst ?c)] => destruct c as [[al be] ch] end. reflexivity.
  - refine (control_flows_net (pump_controls (d_pu D) (b_Qp b) (i_up i) (h_H (b_st b)) (n_zj N)) (b_Qp b) H j _).
    intros p Hp. cbn in Hp. destruct (proj1 (sd_pu _ HD) p Hp) as [J1 J2]. destruct (proj2 (sd_pu _ HD) p Hp) as (B1 & B2 & B3).
    destruct (LP p Hp) as [L1 L2].
    destruct (pump_fixed (b_Qp b p) (h_H (b_st b) (p_Ju (d_pu D) p)) (h_H (b_st b) (p_Jd (d_pu D) p)) (i_up i p) (n_zj N (p_Ju (d_pu D) p)) (p_z (d_pu D) p)
      (p_max (d_pu D) p) (p_min (d_pu D) p) (p_a (d_pu D) p) (p_b (d_pu D) p) (p_c (d_pu D) p) (Hup p Hp) B1 B2 B3 L1 L2) as [_ X].
    cbn [pump_controls from_coeffs c_a c_b c_c c_Ju c_Jd]. rewrite (EH _ J1), (EH _ J2).
    etransitivity; [|exact X]. unfold linear_pump. match goal with |- context [fst (fst ?c)] => destruct c as [[al be] ch] end. reflexivity.
Qed.

(** What a pass reports for the controls, at the heads it found. *)
Lemma pass_controls i dt sv b b1 b2 Ao Vs : setup_body D i dt sv b = Some b1 -> solve_body D slv i dt b1 = Some b2 ->
  orifice_areas D (b_st b) (i_uo i) (b_Ao b) = Some Ao -> storage_volumes D (b_st b) (b_Vs b) = Some Vs -> let H := h_H (b_st b2) in
  (forall o, (o < o_n (d_or D))%nat -> let O := d_or D in b_Qo b2 o
     = solve_orifice_flows (Ao o) (o_C O o) (H (o_Ju O o)) (H (o_Jd O o)) (i_uo i o) (n_zj N (o_Ju O o)) (o_z O o)
                (o_tau O o) (o_ymax O o) (o_oneway O o) (Vs (o_Ju O o)) (Vs (o_Jd O o)) dt) /\
  (forall w, (w < w_n (d_we D))%nat -> let W := d_we D in b_Qw b2 w
     = weir_discharge (H (w_Ju W w)) (H (w_Jd W w)) (i_uw i w) (n_zj N (w_Ju W w)) (w_z W w) (w_ymax W w) (w_L W w) (w_s W w) (w_Cr W w) (w_Ct W w)) /\
  (forall p, (p < p_n (d_pu D))%nat -> let P := d_pu D in b_Qp b2 p
     = pump_discharge (H (p_Ju P p)) (H (p_Jd P p)) (i_up i p) (n_zj N (p_Ju P p)) (p_z P p) (p_max P p) (p_min P p) (p_a P p) (p_b P p) (p_c P p)).
Proof.
  intros E1 E2 EO EV. destruct (setup_body_inv _ _ _ _ _ _ E1) as (bg & Vs' & Ao' & u & Eg & EV' & EO' & Eu & Eb). unfold controls_of in Eb.
  rewrite EO in EO'. rewrite EV in EV'. injection EO' as <-. injection EV' as <-.
  unfold solve_body in E2. destruct (slv _ _) as [Hs|]; [|discriminate]. cbn [bind] in E2. injection E2 as E2. intros H.
  split; [|split].
  - intros o Ho O. unfold H. rewrite <- E2. cbn [b_Qo b_st]. destruct (Nat.eqb_spec (o_n (d_or D)) 0); [lia|]. rewrite Eb. reflexivity.
  - intros w Hw W. unfold H. rewrite <- E2. cbn [b_Qw b_st]. destruct (Nat.eqb_spec (w_n (d_we D)) 0); [lia|]. reflexivity.
  - intros p Hp P. unfold H. rewrite <- E2. cbn [b_Qp b_st]. destruct (Nat.eqb_spec (p_n (d_pu D)) 0); [lia|]. reflexivity.
Qed.

Lemma supply_volume b dt Vs o : orifices_supplied D b dt -> storage_volumes D (b_st b) (b_Vs b) = Some Vs -> (o < o_n (d_or D))%nat ->
  let O := d_or D in let H := h_H (b_st b) in Rabs (b_Qo b o) * dt < (if Rltb (H (o_Jd O o)) (H (o_Ju O o)) then Vs (o_Ju O o) else Vs (o_Jd O o)).
Proof.
  intros S EV Ho. cbv zeta. specialize (S o Ho). cbv zeta in S. destruct (proj1 (sd_or _ HD) o Ho) as [J1 J2].
  destruct (Rltb (h_H (b_st b) (o_Jd (d_or D) o)) (h_H (b_st b) (o_Ju (d_or D) o))); apply S; [exact (all_entries_spec _ _ _ _ EV _ J1)|exact (all_entries_spec _ _ _ _ EV _ J2)].
Qed.

(** A pass that changes nothing started from steady flow. *)
Lemma unchanged_steady i dt b b1 b2 bg : admissible D i dt -> watered D (b_st b) -> reached D (b_sys b) ->
  setup_body D i dt (b_st b) b = Some b1 -> solve_body D slv i dt b1 = Some b2 -> geometries D b = Some bg ->
  same_water D b2 b -> unlimited N (b_st b) -> orifices_supplied D b dt -> orifices_open D i -> steady D i b (geometry_of bg).
Proof.
  intros Ha W Rc E1 E2 Eg0 [SW SO SWe SP] UL OS OP.
  destruct (pass_facts D slv HD Hslv _ _ _ _ _ _ Ha W Rc E1 E2) as (bg' & Vs & Ao & u & H & Eg & Wt & PA & EV & EO & Eu & F).
  rewrite Eg0 in Eg. injection Eg as <-. destruct (pass_controls _ _ _ _ _ _ _ _ E1 E2 EO EV) as (QO & QW & QP).
  pose proof Ha as (Hdt & Hup & _).
  pose proof (fun X => controls_net i dt b Ao H Ha OP EO X) as CN. unfold controls_of in F, CN. destruct F as (Hr & Hn & Sol & _ & Est & _).
  rewrite Est in SW.
  destruct (same_carried N (geometry_of bg) (b_st b) (i_Q0 i) (sd_wf _ HD) Wt (sd_z _ HD) Hend _ dt u H Hdt Eu UL SW) as [C EH].
  pose proof (proj1 (carried_iff N (geometry_of bg) (b_st b) (i_Q0 i) (sd_wf _ HD) Wt (sd_z _ HD) (tb_last _ HT) _ dt u ltac:(lra) Eu) C) as (S1 & S2 & S3).
  rewrite <- Est in SW. pose proof (st_H _ _ _ SW) as EH2.
  assert (LO : forall o, (o < o_n (d_or D))%nat -> let O := d_or D in let H := h_H (b_st b) in
     b_Qo b o = orifice_law (Ao o) (o_C O o) (n_zj N (o_Ju O o) + o_z O o) (o_tau O o * o_ymax O o * i_uo i o) (H (o_Ju O o)) (H (o_Jd O o)) (o_oneway O o)).
  { intros o Ho O H'. destruct (proj1 (sd_or _ HD) o Ho) as [J1 J2]. specialize (QO o Ho). cbv zeta in QO. rewrite (SO o Ho), (EH2 _ J1), (EH2 _ J2) in QO.
    unfold solve_orifice_flows in QO. rewrite C33_orifice_discharge_is_the_law in QO by (apply OP; exact Ho). fold O H' in QO. rewrite QO.
    apply orifice_limit_inactive; [exact Hdt|]. rewrite <- QO. exact (supply_volume b dt Vs o OS EV Ho). }
  assert (LW : forall w, (w < w_n (d_we D))%nat -> let W := d_we D in let H := h_H (b_st b) in
    b_Qw b w = weir_law (w_L W w) (w_s W w) (w_Cr W w) (w_Ct W w)
      (n_zj N (w_Ju W w) + w_z W w + (1 - i_uw i w) * w_ymax W w) (H (w_Ju W w)) (H (w_Jd W w))).
  { intros w Hw W0 H'. destruct (sd_we _ HD w Hw) as [J1 J2]. specialize (QW w Hw). cbv zeta in QW. rewrite (SWe w Hw), (EH2 _ J1), (EH2 _ J2) in QW.
    rewrite QW. apply C36_weir_discharge_is_the_law. }
  assert (LP : forall p, (p < p_n (d_pu D))%nat -> let P := d_pu D in let H := h_H (b_st b) in
    let dH := Rmax (p_min P p) (Rmin (p_max P p) (H (p_Jd P p) - H (p_Ju P p))) in
    (H (p_Ju P p) <= n_zj N (p_Ju P p) + p_z P p -> b_Qp b p = 0) /\
    (n_zj N (p_Ju P p) + p_z P p < H (p_Ju P p) -> 0 <= b_Qp b p /\ p_b P p * fpow (b_Qp b p) (p_c P p) = i_up i p * (p_a P p - dH))).
  { intros p Hp P H' dH. destruct (proj1 (sd_pu _ HD) p Hp) as [J1 J2]. destruct (proj2 (sd_pu _ HD) p Hp) as (B1 & B2 & B3).
    specialize (QP p Hp). cbv zeta in QP. rewrite (SP p Hp), (EH2 _ J1), (EH2 _ J2) in QP. rewrite QP. now apply pump_on_curve; [apply Hup| | |]. }
  specialize (CN LO LW LP EH).
  constructor; auto.
  - intros o Ho O H' z. exists (b_Ao b o), (Ao o). split; [exact (all_entries_spec _ _ _ _ EO o Ho)|]. exact (LO o Ho).
  - intros j Hj Hb N'.
    pose proof (proj1 (C22_row_is_water_balance _ _ _ _ _ _ _ _ _ _ dt _ H j Hr Hn ltac:(lra) Hj Hb) (Sol j Hj)) as B.
    destruct (CN j) as (-> & -> & ->) in B. rewrite (superlink_flows_net _ _ _ _ _ _ _ _ Wt Hdt Eu C EH) in B. rewrite (EH j Hj) in B.
    replace (h_H (b_st b) j - h_H (b_st b) j) with 0 in B by ring. unfold N'. unfold Rdiv in B. rewrite Rmult_0_r, Rmult_0_l in B. rewrite B. ring.
  - intros j Hj Hb. rewrite <- (EH j Hj).
    exact (proj1 (proj2 (C23_boundary_row_prescribes_head _ _ _ _ _ _ _ _ _ _ _ _ j Hr Hn Hj Hb) H) (Sol j Hj)).
Qed.

(** A pass from steady flow changes nothing. *)
Lemma steady_unchanged i dt b b1 b2 bg : admissible D i dt -> watered D (b_st b) -> reached D (b_sys b) ->
  setup_body D i dt (b_st b) b = Some b1 -> solve_body D slv i dt b1 = Some b2 -> geometries D b = Some bg ->
  steady D i b (geometry_of bg) -> settled D b -> unlimited N (b_st b) -> orifices_supplied D b dt -> orifices_open D i -> alike D b2 b.
Proof.
  intros Ha W Rc E1 E2 Eg0 [S1 S2 S3 LO' LW LP SJ SB] ST UL OS OP.
  destruct (pass_facts D slv HD Hslv _ _ _ _ _ _ Ha W Rc E1 E2) as (bg' & Vs & Ao & u & H & Eg & Wt & PA & EV & EO & Eu & F).
  rewrite Eg0 in Eg. injection Eg as <-. destruct (pass_controls _ _ _ _ _ _ _ _ E1 E2 EO EV) as (QO & QW & QP).
  pose proof Ha as (Hdt & Hup & _).
  pose proof (fun H X => controls_net i dt b Ao H Ha OP EO X) as CN. unfold controls_of in F, CN. destruct F as (Hr & Hn & Sol & Un & Est & _ & _ & _ & Tu & Td).
  assert (LO : forall o, (o < o_n (d_or D))%nat -> let O := d_or D in let H := h_H (b_st b) in
     b_Qo b o = orifice_law (Ao o) (o_C O o) (n_zj N (o_Ju O o) + o_z O o) (o_tau O o * o_ymax O o * i_uo i o) (H (o_Ju O o)) (H (o_Jd O o)) (o_oneway O o)).
  { intros o Ho O H'. destruct (LO' o Ho) as (Aold & A & EA & ->). pose proof (all_entries_spec _ _ _ _ EO o Ho) as EA'. cbv beta zeta in EA'.
    assert (X : Ao o = A).
    { unfold orifice_depth in EA'. pose proof (tb_or _ HT o Ho) as Cd. fold O in EA, EA'. revert EA EA'.
      destruct (d_ocode D o) as [|[|[|[|[|[|[|[|[|[|n]]]]]]]]]]; try lia; cbn [orifice_geometry]; congruence. }
    rewrite X. reflexivity. }
  specialize (fun H => CN H LO LW LP).
  pose proof (proj2 (carried_iff N (geometry_of bg) (b_st b) (i_Q0 i) (sd_wf _ HD) Wt (sd_z _ HD) (tb_last _ HT) _ dt u ltac:(lra) Eu)
    (conj S1 (conj S2 S3))) as C.
  assert (EH : forall j, (j < n_M N)%nat -> H j = h_H (b_st b) j).
  { apply Un. intros j Hj. destruct (n_bc N j) eqn:Hb.
    - apply (C23_boundary_row_prescribes_head _ _ _ _ _ _ _ _ _ _ _ _ j Hr Hn Hj Hb). auto.
    - apply (C22_row_is_water_balance _ _ _ _ _ _ _ _ _ _ dt _ _ j Hr Hn ltac:(lra) Hj Hb).
      destruct (CN (h_H (b_st b)) ltac:(auto) j) as (-> & -> & ->). rewrite (superlink_flows_net _ _ _ _ _ _ _ _ Wt Hdt Eu C ltac:(auto)).
      replace (h_H (b_st b) j - h_H (b_st b) j) with 0 by ring. rewrite Rmult_0_r. unfold Rdiv. rewrite Rmult_0_l.
      rewrite (SJ j Hj Hb) at 1. ring. }
  pose proof (carried_same N (geometry_of bg) (b_st b) (i_Q0 i) (sd_wf _ HD) Wt (sd_z _ HD) Hend _ dt u H Hdt Eu C Hall UL EH) as SS.
  rewrite <- Est in SS. pose proof (st_H _ _ _ SS) as EH2.
  constructor.
  - exact SS.
  - intros o Ho. destruct (proj1 (sd_or _ HD) o Ho) as [J1 J2]. rewrite (QO o Ho). rewrite (EH2 _ J1), (EH2 _ J2).
    unfold solve_orifice_flows. rewrite C33_orifice_discharge_is_the_law by (apply OP; exact Ho). pose proof (LO o Ho) as L. cbv zeta in L. rewrite <- L.
    apply orifice_limit_off; [exact Hdt|]. exact (supply_volume b dt Vs o OS EV Ho).
  - intros w Hw. destruct (sd_we _ HD w Hw) as [J1 J2]. rewrite (QW w Hw). rewrite (EH2 _ J1), (EH2 _ J2). rewrite (LW w Hw). apply C36_weir_discharge_is_the_law.
  - intros p Hp. destruct (proj1 (sd_pu _ HD) p Hp) as [J1 J2]. destruct (proj2 (sd_pu _ HD) p Hp) as (B1 & B2 & B3). rewrite (QP p Hp).
    rewrite (EH2 _ J1), (EH2 _ J2). destruct (LP p Hp) as [L1 L2].
    exact (proj1 (pump_fixed _ _ _ _ _ _ _ _ _ _ _ (Hup p Hp) B1 B2 B3 L1 L2)).
  - intros k Hk. rewrite Tu. destruct (ST k Hk) as [-> _]. reflexivity.
  - intros k Hk. rewrite Td. destruct (ST k Hk) as [_ ->]. reflexivity.
Qed.

(** The geometry of a state is determined where the network has elements. *)
Lemma geometry_unique b bg G thu thd : geometries D b = Some bg -> geometry_at D (b_st b) thu thd G ->
  (forall k, (k < n_K N)%nat -> b_thu b k = thu k /\ b_thd b k = thd k) -> same_geometry D G (geometry_of bg).
Proof.
  intros Eg [GL GU GD GS] ET. destruct (geometries_at D b bg Eg) as [GL' GU' GD' GS'].
  split; [|split].
  - intros i Hi. destruct (GL i Hi) as (o & gm & E & -> & -> & ->). destruct (GL' i Hi) as (o' & gm' & E' & -> & -> & ->).
    rewrite (conveying_no_old _ _ _ o o') in E by (apply (sd_links _ HD); auto). rewrite E in E'. injection E' as ->. auto.
  - intros k Hk. destruct (wf_range _ (sd_wf _ HD) k Hk) as [R1 R2]. pose proof (proj1 (wf_layout _ (sd_wf _ HD)) k Hk) as R3. destruct (ET k Hk) as [T1 T2].
    destruct (GU k Hk) as (o & gm & E & -> & -> & ->). destruct (GU' k Hk) as (o' & gm' & E' & -> & -> & ->). rewrite T1 in E'.
    destruct (GD k Hk) as (p & gn & F & -> & -> & ->). destruct (GD' k Hk) as (p' & gn' & F' & -> & -> & ->). rewrite T2 in F'.
    rewrite (conveying_no_old _ _ _ o o') in E by (apply (sd_links _ HD); lia). rewrite E in E'. injection E' as ->.
    rewrite (conveying_no_old _ _ _ p p') in F by (apply (sd_links _ HD); lia). rewrite F in F'. injection F' as ->. auto 10.
  - intros j Hj. specialize (GS j Hj). specialize (GS' j Hj). rewrite GS in GS'. now injection GS'.
Qed.
Lemma steady_geometry i b G G' : same_geometry D G G' -> steady D i b G -> steady D i b G'.
Proof.
  intros (GL & GE & GS) [S1 S2 S3 LO LW LP SJ SB]. constructor; auto.
  - intros k j Hk Hj N' l Q h. destruct (wf_range _ (sd_wf _ HD) k Hk) as [R1 R2]. assert (Hl : (l < n_L N)%nat) by (unfold l, N'; lia).
    destruct (S2 k j Hk Hj) as (s & v & v' & (A1 & A2 & A3) & E). cbv zeta in *. fold N' l Q h in A1, A2, A3, E. exists s, v, v'.
    destruct (GL l Hl) as (a1 & a2 & a3). destruct (GL (l - 1)%nat ltac:(lia)) as (b1 & _). rewrite <- a1, <- a2. split; [|exact E].
    split; [|split]; cbv zeta.
    + rewrite <- a1, <- b1. exact A1.
    + destruct (n_lend N' l) eqn:El; [now rewrite <- a1|]. destruct (tb_last _ HT l Hl) as [X|Hl']; [unfold N' in El; congruence|].
      destruct (GL (l + 1)%nat Hl') as (c1 & _). rewrite <- a1, <- c1. exact A2.
    + rewrite <- a1, <- a3. exact A3.
  - intros k Hk N' st. destruct (GE k Hk) as (a1 & _ & _ & a2 & _). rewrite <- a1, <- a2. exact (S3 k Hk).
Qed.

(** The indicators of submerged ends at the heads of a state. *)
Definition thu_at (st : hstate) : arr := fun k => above (h_H st (n_Ju N k)) (n_zu N k).
Definition thd_at (st : hstate) : arr := fun k => above (h_H st (n_Jd N k)) (n_zd N k).
Lemma settled_geometry b G : settled D b -> (geometry_at D (b_st b) (b_thu b) (b_thd b) G <-> geometry_at D (b_st b) (thu_at (b_st b)) (thd_at (b_st b)) G).
Proof.
  intros ST. split; intros [GL GU GD GS]; constructor; auto; intros k Hk; destruct (ST k Hk) as [E1 E2].
  - specialize (GU k Hk). unfold thu_at. rewrite <- E1. exact GU.
  - specialize (GD k Hk). unfold thd_at. rewrite <- E2. exact GD.
  - specialize (GU k Hk). unfold thu_at in GU. rewrite <- E1 in GU. exact GU.
  - specialize (GD k Hk). unfold thd_at in GD. rewrite <- E2 in GD. exact GD.
Qed.

Lemma one_pass_inv i dt n tol (m m' : object) : admissible D i dt -> healthy D m -> object_step D slv i dt n tol m = Some (m', 1%nat) ->
  exists b1, setup_body D i dt (b_st (m_body m)) (m_body m) = Some b1 /\ solve_body D slv i dt b1 = Some (m_body m') /\ healthy D m'.
Proof.
  intros Ha Hm E. destruct (object_step_total D slv HD Hslv i dt n tol m Ha Hm) as (r & E' & Hh & _). rewrite E in E'. injection E' as <-. cbn [fst] in Hh.
  destruct (step_last D slv HD Hslv (fun _ => True) i dt n tol m m' 1 Ha Hm I) as (mb & Bl & b1 & _ & _ & _ & E1 & E2 & _); auto.
  destruct Bl as [[_ ->]|(q & Q1 & Q2 & _)]; [|lia]. exists b1. auto.
Qed.

Lemma unchanged_settled i dt n tol (m m' : object) : admissible D i dt -> healthy D m -> object_step D slv i dt n tol m = Some (m', 1%nat) ->
  same_water D (m_body m) (m_body m') -> settled D (m_body m').
Proof.
  intros Ha Hm E SW. destruct (one_pass_inv _ _ _ _ _ _ Ha Hm E) as (b1 & E1 & E2 & _).
  destruct (pass_facts D slv HD Hslv _ _ _ _ _ _ Ha (proj1 Hm) (proj1 (proj2 Hm)) E1 E2) as (bg & Vs & Ao & u & H & _ & _ & _ & _ & _ & _ & F).
  unfold controls_of in F. destruct F as (_ & _ & _ & _ & _ & _ & _ & _ & Tu & Td).
  intros k Hk. destruct (wf_ends _ (sd_wf _ HD) k Hk) as [J1 J2]. rewrite Tu, Td.
  rewrite <- (st_H _ _ _ (sw_st _ _ _ SW) _ J1), <- (st_H _ _ _ (sw_st _ _ _ SW) _ J2). split; reflexivity.
Qed.

Lemma water_sym b b' : same_water D b b' -> same_water D b' b.
Proof. intros [A B C E]. constructor; [now apply same_state_sym|..]; intros; symmetry; auto. Qed.
Lemma water_trans b b' b'' : same_water D b b' -> same_water D b' b'' -> same_water D b b''.
Proof. intros [A B C E] [A' B' C' E']. constructor; [exact (same_state_trans _ _ _ _ A A')|..]; intros; [rewrite B|rewrite C|rewrite E]; auto. Qed.

(** C85: if two steps of one pass each, the second with inputs [i], leave everything the object reports as it was, and no
    limit is active, the flow is steady: the laws in [steady] hold exactly, and no time step occurs in them. *)
Theorem C85_unchanged_flow_is_steady : forall m history m0 i0 dt0 n0 tol0 m1 i dt n tol m2,
  constructed D m -> (forall a, In a history -> allowed D a) -> perform_all D slv history m = Some m0 ->
  admissible D i0 dt0 -> object_step D slv i0 dt0 n0 tol0 m0 = Some (m1, 1%nat) -> same_water D (m_body m0) (m_body m1) ->
  admissible D i dt -> object_step D slv i dt n tol m1 = Some (m2, 1%nat) -> same_water D (m_body m1) (m_body m2) ->
  unlimited N (b_st (m_body m1)) -> orifices_supplied D (m_body m1) dt -> orifices_open D i ->
  exists G, geometry_at D (b_st (m_body m1)) (thu_at (b_st (m_body m1))) (thd_at (b_st (m_body m1))) G /\ steady D i (m_body m1) G.
Proof.
  intros m history m0 i0 dt0 n0 tol0 m1 i dt n tol m2 Hc Hh Eh Ha0 E0 SW0 Ha E SW UL OS OP.
  pose proof (healthy_history D slv HD Hslv _ _ _ Hc Hh Eh) as Hm0.
  pose proof (unchanged_settled _ _ _ _ _ _ Ha0 Hm0 E0 SW0) as ST. destruct (one_pass_inv _ _ _ _ _ _ Ha0 Hm0 E0) as (_ & _ & _ & Hm1).
  destruct (one_pass_inv _ _ _ _ _ _ Ha Hm1 E) as (b1 & E1 & E2 & _). pose proof Hm1 as (W & Rc & _).
  destruct (geometries_total D HD (m_body m1) W) as (bg & Eg & _).
  exists (geometry_of bg). split; [apply (settled_geometry (m_body m1) _ ST), geometries_at, Eg|].
  apply (unchanged_steady i dt (m_body m1) b1 (m_body m2) bg); auto. now apply water_sym.
Qed.

(** Actions that repeat the inputs [i] with any step length during which the orifices are supplied, any number of
    iterations and any tolerance; saving is allowed. *)
Definition repeats (i : inputs) (b : body) (a : action) : Prop :=
  match a with Step i' dt _ _ => i' = i /\ admissible D i dt /\ orifices_supplied D b dt | Save => True | _ => False end.

Lemma steady_pass i dt b0 b sv b1 b2 bg : admissible D i dt -> watered D (b_st b0) -> reached D (b_sys b0) -> geometries D b0 = Some bg ->
  steady D i b0 (geometry_of bg) -> settled D b0 -> unlimited N (b_st b0) -> orifices_supplied D b0 dt -> orifices_open D i ->
  alike D b b0 -> same_state N sv (b_st b0) -> watered D (b_st b) -> reached D (b_sys b) ->
  setup_body D i dt sv b = Some b1 -> solve_body D slv i dt b1 = Some b2 -> alike D b2 b0.
Proof.
  intros Ha W0 R0 Eg Sy ST UL OS OP Al Ss W Rc E1 E2.
  destruct (setup_body_total D HD i dt sv b Ha W Rc) as (b1' & E1' & _ & R1 & Sv). rewrite E1 in E1'. injection E1' as <-.
  destruct (setup_body_total D HD i dt (b_st b0) b0 Ha W0 R0) as (c1 & F1 & _ & Q1 & Sv').
  destruct (solve_body_total D HD slv Hslv i dt c1 Sv' Q1) as (c2 & F2 & _).
  apply (alike_trans D b2 c2 b0).
  - apply (solve_body_alike D HD slv slv i dt b1 c1 b2 c2 Hslv Hslv); auto.
    exact (setup_body_alike D HD HT i dt sv (b_st b0) b b0 b1 c1 Al Ss Rc R0 E1 F1).
  - exact (steady_unchanged i dt b0 c1 c2 bg Ha W0 R0 F1 F2 Eg Sy ST UL OS OP).
Qed.

Lemma steady_future i b0 bg : watered D (b_st b0) -> reached D (b_sys b0) -> geometries D b0 = Some bg ->
  steady D i b0 (geometry_of bg) -> settled D b0 -> unlimited N (b_st b0) -> orifices_open D i ->
  forall future (m : object), healthy D m -> alike D (m_body m) b0 -> (forall a, In a future -> repeats i b0 a) ->
  exists m', perform_all D slv future m = Some m' /\ alike D (m_body m') b0.
Proof.
  intros W0 R0 Eg Sy ST UL OP. induction future as [|a l IH]; intros m Hm Al Hf; cbn [perform_all]; [eauto|].
  assert (Ra : repeats i b0 a) by (apply Hf; now left).
  assert (Hl : forall a, In a l -> repeats i b0 a) by (intros; apply Hf; now right).
  destruct a as [i' dt n tol| |t v|]; cbn [repeats] in Ra; try contradiction; cbn [perform].
  - destruct Ra as (-> & Ha & OS). destruct (object_step_total D slv HD Hslv i dt n tol m Ha Hm) as ((m1 & p) & E & Hm1 & _). rewrite E. cbn [bind fst] in *.
    apply IH; auto.
    destruct (step_last D slv HD Hslv (fun b => alike D b b0) i dt n tol m m1 p Ha Hm Al) as (mb & _ & b1 & _ & _ & _ & _ & _ & X & _); auto.
    intros b c1 c2 Ab Wb Rb F1 F2. exact (steady_pass i dt b0 b (b_st (m_body m)) c1 c2 bg Ha W0 R0 Eg Sy ST UL OS OP Ab (al_st _ _ _ Al) Wb Rb F1 F2).
  - cbn [bind]. apply IH; auto. destruct Hm as (A & B & C). repeat split; auto.
Qed.

(** C85: steady flow stays.  After any history, if the laws of steady flow hold for the inputs [i] and no limit is active,
    every sequence of steps with these inputs, of any lengths, numbers of iterations and tolerances, leaves everything the
    object reports as it is. *)
Theorem C85_steady_flow_lasts : forall m history m1 i G future,
  constructed D m -> (forall a, In a history -> allowed D a) -> perform_all D slv history m = Some m1 ->
  geometry_at D (b_st (m_body m1)) (thu_at (b_st (m_body m1))) (thd_at (b_st (m_body m1))) G -> steady D i (m_body m1) G ->
  settled D (m_body m1) -> unlimited N (b_st (m_body m1)) -> orifices_open D i -> (forall a, In a future -> repeats i (m_body m1) a) ->
  exists m', perform_all D slv future m1 = Some m' /\ same_water D (m_body m1) (m_body m').
Proof.
  intros m history m1 i G future Hc Hh Eh Ga Sy ST UL OP Hf.
  pose proof (healthy_history D slv HD Hslv _ _ _ Hc Hh Eh) as Hm. pose proof Hm as (W & Rc & _).
  destruct (geometries_total D HD (m_body m1) W) as (bg & Eg & _).
  pose proof (geometry_unique (m_body m1) bg G _ _ Eg Ga ltac:(intros k Hk; exact (ST k Hk))) as SG.
  destruct (steady_future i (m_body m1) bg W Rc Eg (steady_geometry _ _ _ _ SG Sy) ST UL OP future m1 Hm (alike_refl D _) Hf) as (m' & E & Al).
  exists m'. split; [exact E|]. apply water_sym, alike_water, Al.
Qed.

(** C85: what is steady for one step length is steady for all: if two one-pass steps left everything as it was, so do all
    further steps with the same inputs, however long they are. *)
Theorem C85_steady_for_every_step_length : forall m history m0 i0 dt0 n0 tol0 m1 i dt n tol m2 future,
  constructed D m -> (forall a, In a history -> allowed D a) -> perform_all D slv history m = Some m0 ->
  admissible D i0 dt0 -> object_step D slv i0 dt0 n0 tol0 m0 = Some (m1, 1%nat) -> same_water D (m_body m0) (m_body m1) ->
  admissible D i dt -> object_step D slv i dt n tol m1 = Some (m2, 1%nat) -> same_water D (m_body m1) (m_body m2) ->
  unlimited N (b_st (m_body m1)) -> orifices_supplied D (m_body m1) dt -> orifices_open D i ->
  (forall a, In a future -> repeats i (m_body m1) a) ->
  exists m', perform_all D slv future m2 = Some m' /\ same_water D (m_body m1) (m_body m').
Proof.
  intros m history m0 i0 dt0 n0 tol0 m1 i dt n tol m2 future Hc Hh Eh Ha0 E0 SW0 Ha E SW UL OS OP Hf.
  pose proof (healthy_history D slv HD Hslv _ _ _ Hc Hh Eh) as Hm0.
  pose proof (unchanged_settled _ _ _ _ _ _ Ha0 Hm0 E0 SW0) as ST. destruct (one_pass_inv _ _ _ _ _ _ Ha0 Hm0 E0) as (_ & _ & _ & Hm1).
  destruct (one_pass_inv _ _ _ _ _ _ Ha Hm1 E) as (b1 & E1 & E2 & Hm2). pose proof Hm1 as (W & Rc & _).
  destruct (geometries_total D HD (m_body m1) W) as (bg & Eg & _).
  assert (Sy : steady D i (m_body m1) (geometry_of bg)) by (apply (unchanged_steady i dt (m_body m1) b1 (m_body m2) bg); auto; now apply water_sym).
  pose proof (steady_unchanged i dt (m_body m1) b1 (m_body m2) bg Ha W Rc E1 E2 Eg Sy ST UL OS OP) as Al.
  destruct (steady_future i (m_body m1) bg W Rc Eg Sy ST UL OP future m2 Hm2 Al Hf) as (m' & E' & Al').
  exists m'. split; [exact E'|]. apply water_sym, alike_water, Al'.
Qed.
End Steady.

(** ** C86: momentum in steady flow *)

(** The balance of momentum of link [l] in steady flow: the momentum carried out at its downstream end less what is carried in
    at its upstream end (velocities [v'] and [v]) and friction are balanced by weight and pressure. *)
Definition momentum_conserved (D : design) (b : body) (G : geometry) (k j : nat) : Prop :=
  let N := d_net D in let l := (n_i1 N k + j)%nat in let Q := h_Q (b_st b) l in let h := h_h (b_st b) in
  forall s v v', advection N G (b_st b) l s v v' ->
    Q * (v' - v) + friction_law (n_sf N l) Q (n_dx N l) (g_A G l) (g_R G l) (n_n N l) * Q
    = 9.81 * g_A G l * (n_So N l * n_dx N l + h (n_I1 N k + j)%nat - h (n_I1 N k + (j + 1))%nat).

(** C86: without lateral inflow the flow is the same all along a superlink, and in every link without control point
    friction alone balances weight and pressure: the momentum that the water gains or loses where the section changes has no
    effect on the profile. *)
Theorem C86_steady_profile_has_no_momentum_flux : forall D i b G k, steady D i b G -> (k < n_K (d_net D))%nat ->
  (forall j, (j <= n_nk (d_net D) k)%nat -> i_Q0 i (n_I1 (d_net D) k + j)%nat = 0) ->
  h_Qd (b_st b) k = h_Qu (b_st b) k /\
  forall j, (j < n_nk (d_net D) k)%nat -> let N := d_net D in let l := (n_i1 N k + j)%nat in let h := h_h (b_st b) in
    h_Q (b_st b) l = h_Qu (b_st b) k /\
    (n_ctrl N l = false ->
     friction_law (n_sf N l) (h_Q (b_st b) l) (n_dx N l) (g_A G l) (g_R G l) (n_n N l) * h_Q (b_st b) l
     = 9.81 * g_A G l * (n_So N l * n_dx N l + h (n_I1 N k + j)%nat - h (n_I1 N k + (j + 1))%nat)).
Proof.
  intros D i b G k Sy Hk H0. set (N := d_net D) in *. set (F := flow_along N (b_st b) k).
  assert (C : forall j, (j <= n_nk N k + 1)%nat -> F j = F 0%nat).
  { induction j as [|j IH]; intros Hj; [reflexivity|]. pose proof (sy_along _ _ _ _ Sy k j Hk ltac:(fold N; lia)) as E. fold N F in E.
    rewrite (H0 j ltac:(lia)) in E. replace (S j) with (j + 1)%nat by lia. rewrite E, IH by lia. ring. }
  assert (E0 : F 0%nat = h_Qu (b_st b) k) by reflexivity.
  assert (EJ : forall j, (j < n_nk N k)%nat -> F (j + 1)%nat = h_Q (b_st b) (n_i1 N k + j)%nat).
  { intros j Hj. unfold F, flow_along, local_flows. destruct (Nat.eqb_spec (j + 1) 0); [lia|]. destruct (Nat.leb_spec (j + 1) (n_nk N k)); [|lia]. f_equal. lia. }
  split.
  - rewrite <- E0, <- (C (n_nk N k + 1)%nat ltac:(lia)). unfold F, flow_along, local_flows.
    destruct (Nat.eqb_spec (n_nk N k + 1) 0); [lia|]. destruct (Nat.leb_spec (n_nk N k + 1) (n_nk N k)); [lia|reflexivity].
  - intros j Hj. cbv zeta. split; [rewrite <- EJ, C by (auto; lia); exact E0|].
    intros Hc. destruct (sy_link _ _ _ _ Sy k j Hk Hj) as (s & v & v' & _ & E). cbv zeta in E. fold N in E. fold F in E.
    rewrite Hc, Rplus_0_r in E. rewrite (C (j + 1)%nat ltac:(lia)), (C j ltac:(lia)), (C (j + 2)%nat ltac:(lia)) in E. rewrite <- E. ring.
Qed.

(** ** Examples *)

(** A channel of width 1 in two links of 10 m, 1 m deep upstream, 3 m deep downstream (backwater from a lake with a
    prescribed level); 1 m3/s flows through it.  Each link drops by what friction takes and 1 m. *)
Definition lake_loss (A P : R) : R := (1 / 100) ^ 2 / (A ^ 2 * Rpower (A / P) (4 / 3)).
Definition lake_slope (i : nat) : R := match i with O => lake_loss (3 / 2) 4 + 1 / 10 | _ => lake_loss (5 / 2) 6 + 1 / 10 end.
Definition lake_top : R := 10 * lake_slope 0 + 10 * lake_slope 1.
Definition lake_net : network :=
  mkNetwork 1 (fun _ => 2%nat) (fun _ => 0%nat) (fun _ => 0%nat) (fun _ => 0%nat) (fun _ => 1%nat) 2 3
    (fun _ => 0%nat) (fun I => Nat.min I 1) (fun I => (I - 1)%nat)
    (fun I => Nat.eqb I 0) (fun I => Nat.eqb I 2) (fun i => Nat.eqb i 0) (fun i => Nat.eqb i 1)
    (fun _ => 10) (fun _ => 1/100) (fun _ => 0%nat) lake_slope (fun _ => 1) (fun _ => 0) (fun _ => false) (fun _ => 0)
    (fun _ => 1) (fun _ => 1) (fun _ => 0) (fun _ => 0) (fun _ => lake_top) (fun _ => 0) (fun _ => 1/100) (fun _ => 1/100)
    (fun _ => 0%nat) (fun _ => 0%nat) (fun _ => 0) (fun _ => 0) 2 (fun j => Nat.eqb j 1) (fun j => match j with O => lake_top | _ => 0 end) (fun _ => 100)
    (1/1000) (fun _ => 50) false BCz false true.
Definition lake : design :=
  mkDesign lake_net (fun i => i) (fun _ => Regular {| shape := 3%nat; g1 := 10; g2 := 1; g3 := 0; g4 := 0; g5 := 0; g6 := 0; g7 := 0 |})
    (fun _ _ _ _ => 0) (fun _ => Functional 0 0 5) (d_or drop) (d_ocode drop) (d_o1 drop) (d_o2 drop) (d_o3 drop) (d_we drop) (d_pu drop).
Definition lake_state : hstate :=
  mkHState (fun j => match j with O => lake_top + 1 | _ => 3 end) (fun _ => 1) (fun _ => 1) (fun I => INR I + 1) (fun _ => 1).
Definition lake_object : object := mkModel 0 0%Z (body0 lake_state) (0, save_body (body0 lake_state)).
Definition lake_inputs : inputs := mkInputs (fun _ => 3) (fun j => match j with O => 1 | _ => 0 end) zeros zeros zeros zeros.

Lemma lake_sound : sound lake.
Proof.
  constructor.
  - constructor.
    + split; simpl; intros; lia.
    + intros k j Hk Hj. simpl in *. destruct k; [|lia]. destruct j as [|[|[|j]]]; simpl; try lia; repeat split; auto; lia.
    + intros k Hk; simpl; lia.
    + intros k Hk; simpl; lia.
  - reflexivity.
  - simpl. lra.
  - simpl. intros i Hi. repeat split; try lra; try lia; discriminate.
  - simpl; intros; lra.
  - simpl; intros; lra.
  - simpl; intros; lra.
  - split; intros k Hk; simpl in Hk; lia.
  - intros k Hk; simpl in Hk; lia.
  - split; intros k Hk; simpl in Hk; lia.
Qed.
Lemma lake_tabled : tabled lake.
Proof.
  constructor; simpl; intros; try lia. destruct i as [|[|i]]; [right; lia|left; reflexivity|lia].
Qed.
Lemma lake_all : all_in_superlinks lake_net.
Proof.
  split; simpl; intros i Hi; exists 0%nat, i; lia.
Qed.
Lemma lake_above H z : z <= H -> above H z = 1.
Proof. intros; unfold above. destruct (Rleb_spec z H); lra. Qed.
Lemma lake_settled : settled lake (m_body lake_object).
Proof. intros k Hk. simpl. rewrite !lake_above by (simpl; lra). split; reflexivity. Qed.
Lemma lake_unlimited : unlimited lake_net lake_state.
Proof.
  constructor; simpl.
  - intros j Hj. simpl in *. destruct j as [|[|j]]; simpl; try lra; lia.
  - intros I HI. pose proof (pos_INR I). lra.
  - intros k j Hk H1 H2. assert (j = 1%nat) as -> by lia. simpl. lra.
Qed.
Lemma lake_inj {A} (x y : A) : Some x = Some y -> x = y.
Proof. intros E. exact (f_equal (fun o => match o with Some z => z | None => x end) E). Qed.
Lemma lake_geometry G thu thd : geometry_at lake lake_state thu thd G ->
  g_A G 0%nat = 3 / 2 /\ g_R G 0%nat = 3 / 2 / 4 /\ g_A G 1%nat = 5 / 2 /\ g_R G 1%nat = 5 / 2 / 6.
Proof.
  intros [GL _ _ _]. destruct (GL 0%nat ltac:(simpl; lia)) as (o & gm & X & -> & -> & _). destruct (GL 1%nat ltac:(simpl; lia)) as (o' & gm' & X' & -> & -> & _).
  cbn [lake d_sec d_Ik lake_state h_h] in X, X'. replace (INR 0 + 1) with 1 in X by (simpl; lra). replace (INR (0 + 1) + 1) with 2 in X by (simpl; lra).
  replace (INR 1 + 1) with 2 in X' by (simpl; lra). replace (INR (1 + 1) + 1) with 3 in X' by (simpl; lra).
  unfold section_geometry, hydraulic_geometry in X, X'. cbn [shape g1 g2] in X, X'. apply lake_inj in X. apply lake_inj in X'. subst gm gm'. cbn [gm_A gm_R].
  assert (E : forall a b, 0 <= mid a b <= 10 -> cap 10 (floor0 (mid a b)) = mid a b).
  { intros a b Hm. unfold cap, floor0. destruct (Rltb_spec (mid a b) 0); [lra|]. destruct (Rltb_spec 10 (mid a b)); lra. }
  unfold R_ik, Rect_Open_A_ik, Rect_Open_Pe_ik. rewrite !E by (unfold mid; lra). unfold mid.
  repeat match goal with |- context [Rltb ?x ?y] => destruct (Rltb_spec x y) end; repeat split; try lra.
Qed.

Lemma lake_constructed : constructed lake lake_object.
Proof. split; [reflexivity|]. split; intros i Hi; cbn -[INR]; pose proof (pos_INR i); pose proof (pos_INR (i + 1)); lra. Qed.
Lemma lake_friction A P : 0 < A -> 0 < P -> 9.81 * (1 / 100) ^ 2 * Rabs 1 * 10 / (A * Rpower (A / P) (4 / 3)) * 1 = 9.81 * A * (lake_loss A P * 10).
Proof.
  intros HA HP. unfold lake_loss. rewrite Rabs_R1. assert (0 < Rpower (A / P) (4 / 3)) by (unfold Rpower; apply exp_pos). field. split; lra.
Qed.
Lemma lake_steady G : geometry_at lake lake_state (thu_at lake lake_state) (thd_at lake lake_state) G -> steady lake lake_inputs (m_body lake_object) G.
Proof.
  intros Ga. destruct (lake_geometry _ _ _ Ga) as (A0 & R0 & A1 & R1).
  constructor; try (simpl; intros; lia).
  - intros k j Hk Hj. simpl in Hk, Hj. assert (k = 0%nat) as -> by lia. destruct j as [|[|[|j]]]; [| | |lia]; unfold flow_along, local_flows; simpl; unfold zeros; ring.
  - intros k j Hk Hj. simpl in Hk, Hj. assert (k = 0%nat) as -> by lia. cbv zeta.
    assert (EX : forall l, exists s v v', advection lake_net G lake_state l s v v').
    { intros l. exists 1. set (V := fun m => h_Q lake_state m / g_A G m).
      exists (if n_lstart lake_net l then V l else (V (l - 1)%nat + V l) / 2), (if n_lend lake_net l then V l else (V l + V (l + 1)%nat) / 2).
      split; [|split]; [destruct (n_lstart lake_net l); [reflexivity|]|destruct (n_lend lake_net l); [reflexivity|]|reflexivity];
        change (fun j => h_Q lake_state j / g_A G j) with V; unfold on_the_line; cbn [lake_net n_dx]; change (h_Q lake_state l / g_A G l) with (V l);
        [change (h_Q lake_state (l - 1)%nat / g_A G (l - 1)%nat) with (V (l - 1)%nat)|change (h_Q lake_state (l + 1)%nat / g_A G (l + 1)%nat) with (V (l + 1)%nat)];
        lra. }
    destruct (EX j) as (s & v & v' & Ad). exists s, v, v'. split; [exact Ad|].
    assert (EF : forall m, flow_along lake_net lake_state 0 m = 1).
    { intros m. unfold flow_along, local_flows. destruct (Nat.eqb m 0); [reflexivity|]. destruct (Nat.leb m (n_nk lake_net 0)); reflexivity. }
    change (d_net lake) with lake_net. change (b_st (m_body lake_object)) with lake_state. rewrite !EF.
    cbn [lake_net n_ctrl n_i1 n_I1 n_sf n_dx n_n n_So lake_state h_Q h_h friction_law Nat.add].
    destruct j as [|[|j]]; [| |lia]; cbn [Nat.add lake_slope]; [rewrite A0, R0|rewrite A1, R1];
      [pose proof (lake_friction (3 / 2) 4 ltac:(lra) ltac:(lra)) as F|pose proof (lake_friction (5 / 2) 6 ltac:(lra) ltac:(lra)) as F];
      rewrite !S_INR, ?INR_0; lra.
  - intros k Hk. cbv zeta. simpl in Hk. assert (k = 0%nat) as -> by lia.
    assert (EL : forall Q A, end_loss 0 Q A = 0) by (intros; unfold end_loss; destruct (Req_EM_T A 0); [reflexivity|]; unfold Rdiv; ring).
    cbn [d_net lake lake_net n_Cu n_Cd]. rewrite !EL. simpl. rewrite !lake_above by lra. lra.
  - intros j Hj Hb. cbv zeta. simpl in Hj, Hb. destruct j as [|[|j]]; [|discriminate|lia]. simpl. unfold sum_if, zeros. simpl. lra.
  - intros j Hj Hb. simpl in Hj, Hb. destruct j as [|[|j]]; [discriminate|reflexivity|lia].
Qed.

(** C85: the backwater satisfies the laws of steady flow, and steps of 1 s, 60 s and a day leave it as it is. *)
Example C85_example :
  let future := [Step lake_inputs 1 3 (1/1000); Step lake_inputs 60 1 0; Save; Step lake_inputs 86400 5 0] in
  sound lake /\ tabled lake /\ solver 2 (gauss 2) /\ all_in_superlinks lake_net /\ constructed lake lake_object /\
  settled lake (m_body lake_object) /\ unlimited lake_net lake_state /\
  (exists G, geometry_at lake lake_state (thu_at lake lake_state) (thd_at lake lake_state) G /\ steady lake lake_inputs (m_body lake_object) G) /\
  exists m', perform_all lake (gauss 2) future lake_object = Some m' /\ same_water lake (m_body lake_object) (m_body m').
Proof.
  intros future. pose proof lake_sound as HD. pose proof (gauss_solver 2) as Hs.
  pose proof lake_constructed as C.
  assert (Hm : healthy lake lake_object) by (apply (healthy_history lake (gauss 2) HD Hs lake_object []); auto; intros a []).
  destruct (geometries_total lake HD (m_body lake_object) (proj1 Hm)) as (bg & Eg & _).
  pose proof (proj1 (settled_geometry lake (m_body lake_object) _ lake_settled) (geometries_at lake _ _ Eg)) as Ga.
  pose proof (lake_steady _ Ga) as Sy.
  repeat (split; [solve [auto | exact lake_tabled | exact lake_all | exact lake_settled | exact lake_unlimited | eauto]|]).
  apply (C85_steady_flow_lasts lake (gauss 2) HD lake_tabled Hs eq_refl lake_all lake_object [] lake_object lake_inputs _ future C ltac:(intros a []) eq_refl Ga Sy lake_settled lake_unlimited).
  - intros o Ho. simpl in Ho. lia.
  - intros a Ha. repeat (destruct Ha as [<-|Ha]; [first [exact I|simpl; split; [reflexivity|split; [split; [lra|split; simpl; intros; lia]|intros o Ho; simpl in Ho; lia]]]|]). destruct Ha.
Qed.

(** C86: in the same steady flow the momentum carried by the water is not conserved: it slows down from 2/3 m/s to 2/5 m/s, and
    no force is there that does it. *)
Theorem C86_momentum_is_conserved_refuted :
  ~ (forall D i b G k j, sound D -> tabled D -> all_in_superlinks (d_net D) -> n_end_o (d_net D) = false -> watered D (b_st b) ->
       geometry_at D (b_st b) (thu_at D (b_st b)) (thd_at D (b_st b)) G -> steady D i b G ->
       unlimited (d_net D) (b_st b) -> (k < n_K (d_net D))%nat -> (j < n_nk (d_net D) k)%nat -> momentum_conserved D b G k j).
Proof.
  intros X. pose proof lake_sound as HD. pose proof (gauss_solver 2) as Hs.
  pose proof lake_constructed as C.
  assert (Hm : healthy lake lake_object) by (apply (healthy_history lake (gauss 2) HD Hs lake_object []); auto; intros a []).
  destruct (geometries_total lake HD (m_body lake_object) (proj1 Hm)) as (bg & Eg & _).
  pose proof (proj1 (settled_geometry lake (m_body lake_object) _ lake_settled) (geometries_at lake _ _ Eg)) as Ga. pose proof (lake_steady _ Ga) as Sy.
  remember (geometry_of bg) as G eqn:EG. clear EG. destruct (lake_geometry _ _ _ Ga) as (A0 & R0 & A1 & R1).
  specialize (X lake lake_inputs (m_body lake_object) _ 0%nat 0%nat HD lake_tabled lake_all eq_refl (proj1 Hm) Ga Sy lake_unlimited ltac:(simpl; lia) ltac:(simpl; lia)).
  destruct (C86_steady_profile_has_no_momentum_flux lake lake_inputs _ _ 0%nat Sy ltac:(simpl; lia) ltac:(intros; reflexivity)) as (_ & Y).
  destruct (Y 0%nat ltac:(simpl; lia)) as (_ & Z). specialize (Z eq_refl).
  specialize (X 1 (2 / 3) ((2 / 3 + 2 / 5) / 2)). cbv zeta in X. rewrite <- Z in X.
  match type of X with ?P -> _ => assert (AD : P) end.
  { split; [|split; [|reflexivity]]; simpl; [rewrite A0; lra|]. unfold on_the_line. simpl. rewrite A0, A1. lra. }
  specialize (X AD). simpl in X. lra.
Qed.
