(** Property C76: slopes of the end pieces of superlinks; C53: positions of internal junctions after construction. *)
From Verif Require Import Prelude M_Coeffs M_Recurrence M_Step M_Layout M_EndSlopes S_Layout S_MomentumEnds S_Superlink P_Superlink P_MomentumEnds P_Layout.

(** A piece of bed of length [dx] from elevation [z] to elevation [z'] has slope [s] (0 if it has no length). *)
Definition falls (dx z z' s : R) : Prop := s * dx = z - z' /\ (dx = 0 -> s = 0).

(** C76: if both end pieces have a length, both slopes are those of the bed. *)
Theorem C76_two_end_pieces : forall dx_u dx_d z_u z_1 z_n z_d,
  0 < dx_u -> 0 < dx_d ->
  exists s s', S_o_uk dx_u z_u z_1 = Some s /\ S_o_dk dx_u dx_d z_n z_d = Some s' /\ falls dx_u z_u z_1 s /\ falls dx_d z_n z_d s'.
Proof.
  intros dx_u dx_d z_u z_1 z_n z_d Hu Hd. unfold S_o_uk, S_o_dk, div. destruct (Rltb_spec 0 dx_u); [|contradiction].
  destruct (Reqb_spec dx_u 0); [lra|]. destruct (Reqb_spec dx_d 0); [lra|].
  eexists. eexists. split; [reflexivity|]. split; [reflexivity|]. unfold falls. split; (split; [field; lra|intros; lra]).
Qed.

(** C76: without end pieces, both slopes are 0. *)
Theorem C76_no_end_pieces : forall z_u z_d,
  exists s s', S_o_uk 0 z_u z_u = Some s /\ S_o_dk 0 0 z_d z_d = Some s' /\ falls 0 z_u z_u s /\ falls 0 z_d z_d s'.
Proof.
  intros. unfold S_o_uk, S_o_dk. destruct (Rltb_spec 0 0); [lra|]. exists 0, 0. unfold falls. repeat split; auto; lra.
Qed.

(** C76: in a superlink whose internal junctions were generated, the end pieces have the slope of the whole pipe. *)
Theorem C76_generated_superlink : forall z_u z_d dx dx_u dx_d,
  0 < dx -> 0 < dx_u -> 0 < dx_d ->
  S_o_uk dx_u z_u (b_0 z_u z_d dx dx_u dx_d) = Some ((z_u - z_d) / (dx + dx_u + dx_d)) /\
  S_o_dk dx_u dx_d (b_1 z_u z_d dx dx_u dx_d) z_d = Some ((z_u - z_d) / (dx + dx_u + dx_d)).
Proof.
  intros z_u z_d dx dx_u dx_d H Hu Hd. unfold S_o_uk, S_o_dk, div. destruct (Rltb_spec 0 dx_u); [|contradiction].
  destruct (Reqb_spec dx_u 0); [lra|]. destruct (Reqb_spec dx_d 0); [lra|].
  unfold b_0, b_1, slope. split; f_equal; field; lra.
Qed.

(** C76, refuted: an end piece at the downstream end only is taken to be level however steep it is; one at the upstream end
    only makes the other slope not a number. *)
Theorem C76_one_end_piece_refuted : forall dx z_n z_d,
  0 < dx -> z_n <> z_d ->
  (forall s, S_o_dk 0 dx z_n z_d = Some s -> ~ falls dx z_n z_d s) /\
  S_o_dk dx 0 z_n z_d = None.
Proof.
  intros dx z_n z_d H Hz. unfold S_o_dk, div. destruct (Rltb_spec 0 0); [lra|]. destruct (Rltb_spec 0 dx); [|lra]. destruct (Reqb_spec 0 0); [|lra].
  split; auto. intros s E [F _]. injection E as <-. rewrite Rmult_0_l in F. apply Hz. lra.
Qed.

(** C76, what follows with the momentum boundary method: for still water at head H the depth that the end relation gives
    at the downstream end of such a superlink is not the depth below the level surface; it is wrong by the fall of the
    end piece. *)
Theorem C76_still_water_depth_refuted : forall H z_n z_d dx A C Rh n sf dt s,
  0 < dx -> 0 < A -> 0 < Rh -> 0 < n -> (sf <= 1)%nat -> 0 < dt -> z_d <= H -> z_n <> z_d ->
  S_o_dk 0 dx z_n z_d = Some s ->
  exists hd, downstream_head_coefficients BCb H z_d 0 0 dx A C Rh n sf s dt = Some hd /\
    let h := hk hd * 0 + hl hd * H + hm hd in h - (H - z_n) = z_n - z_d /\ h <> H - z_n.
Proof.
  intros H z_n z_d dx A C Rh n sf dt s Hx HA HR Hn Hs Ht Hz Hne E.
  unfold S_o_dk in E. destruct (Rltb_spec 0 0); [lra|]. injection E as <-.
  destruct (C68_end_depths_without_friction H z_d 0 0 dx A C Rh n sf 0 dt HA HR Hn Hs (or_introl eq_refl) Ht Hz) as (hu & hd & _ & Ed & _ & R).
  exists hd. split; [exact Ed|]. cbv zeta. set (h := hk hd * 0 + hl hd * H + hm hd).
  pose proof (proj1 (R 0 H h) eq_refl) as M. unfold end_momentum in M.
  assert (h = H - z_d).
  { replace (dx / dt * (0 - 0) + friction_law sf 0 dx A Rh n * 0 + C * Rabs 0 / (2 * A) * 0) with 0 in M by ring.
    symmetry in M. apply Rmult_integral in M. destruct M as [M|M]; [nra|]. lra. }
  split; lra.
Qed.

Example C76_example :
  S_o_uk 10 7 6 = Some (1 / 10) /\ S_o_dk 10 5 3 2 = Some (1 / 5) /\ S_o_dk 0 5 3 2 = Some 0 /\
  b_0 7 2 30 10 10 = 6 /\ b_1 7 2 30 10 10 = 3.
Proof.
  unfold S_o_uk, S_o_dk, div, b_0, b_1, slope. destruct (Rltb_spec 0 10); [|lra]. destruct (Rltb_spec 0 0); [lra|].
  destruct (Reqb_spec 10 0); [lra|]. destruct (Reqb_spec 5 0); [lra|]. repeat split; try (f_equal; lra); lra.
Qed.

(** ** C53: positions of the internal junctions after construction *)

(** Positions run from the end of the upstream end piece to the start of the downstream one, in steps of the link lengths. *)
Theorem C53_starting_positions : forall dx_u dx_d dx i1 n,
  x_Ik dx_u dx i1 0 = dx_u /\ (forall j, x_Ik dx_u dx i1 (S j) - x_Ik dx_u dx i1 j = dx (i1 + j)%nat) /\
  x_Ik dx_u dx i1 n + dx_d = dx_u + sum_n (fun l => dx (i1 + l)%nat) n + dx_d.
Proof.
  intros. unfold x_Ik. split; [|split]; [unfold sum_n; simpl; ring| |ring]. intros j. cbn [sum_n]. ring.
Qed.

(** Without end pieces the positions of a superlink generated with a mobile element are those of its chain. *)
Theorem C53_constructed_positions : forall n L x, mobile_x n L = Some x -> (2 <= n)%nat -> 0 < L ->
  forall j, (j <= n)%nat -> x_Ik 0 (diff x) 0 j = x j.
Proof.
  intros n L x E Hn HL. destruct (C38_mobile_chain_is_straight n L 0 0 0 0 HL ltac:(lra) ltac:(lra)) as [_ G].
  destruct (G Hn) as (x' & z & Ex & _ & X0 & _). rewrite E in Ex. injection Ex as <-.
  intros j. induction j as [|j IH]; intros Hj.
  - unfold x_Ik. simpl. rewrite X0. unfold sum_n. simpl. ring.
  - destruct (C53_starting_positions 0 0 (diff x) 0 0) as (_ & S & _). specialize (S j). rewrite IH in S by lia. unfold diff at 2 in S. simpl in S. lra.
Qed.
