(** Property C16: what the advection coefficients of a link are, in a whole network. *)
From Verif Require Import Prelude M_Coeffs L_Coeffs P_Superlink.

(** The value [v] at position [x] lies on the straight line through (x0, v0) and (x1, v1). *)
Definition on_the_line (x0 v0 x1 v1 x v : R) : Prop := v * (x1 - x0) = v0 * (x1 - x) + v1 * (x - x0).
(** Share of inertia kept at Froude number [F]: all of it in slow flow, nothing in fast flow. *)
Definition inertia_kept (F s : R) : Prop :=
  (F <= 1 / 2 -> s = 1) /\ (1 / 2 <= F <= 1 -> s = 2 * (1 - F)) /\ (1 <= F -> s = 0).

(** C16: the advection coefficients at both ends of a link are minus the velocity there, as far as it carries momentum into the
    link, times the share of inertia kept.  The velocity at a junction between two links is interpolated between the middles
    of the links (junction at position 0); at the ends of a superlink it is the link's own. *)
Theorem C16_advection : forall damp L dt NL b0 m i,
  link_coeffs damp L dt NL b0 = Some m -> 0 < l_A L i -> 0 <= l_B L i -> 0 < l_dx L i ->
  let V j := l_Q L j / l_A L j in
  exists s v v', ma m i = - Rmax v 0 * s /\ mc m i = - Rmax (- v') 0 * s /\
    (if l_start L i then v = V i else
       0 < l_dx L (i - 1)%nat -> 0 < l_A L (i - 1)%nat -> on_the_line (- (l_dx L (i - 1)%nat / 2)) (V (i - 1)%nat) (l_dx L i / 2) (V i) 0 v) /\
    (if l_end L i then v' = V i else
       0 < l_dx L (i + 1)%nat -> 0 < l_A L (i + 1)%nat -> on_the_line (- (l_dx L i / 2)) (V i) (l_dx L (i + 1)%nat / 2) (V (i + 1)%nat) 0 v') /\
    (if damp then exists F, 0 <= F /\ F ^ 2 * (9.81 * l_A L i) = V i ^ 2 * l_B L i /\ inertia_kept F s else s = 1).
Proof.
  intros damp L dt NL b0 m i E HA HB Hx V. destruct (link_coeffs_entries _ _ _ _ _ _ E) as (Ea & Ec & _ & _). cbv zeta in Ea, Ec.
  set (u := fun j => u_ik (l_Q L j) (l_A L j)) in *.
  exists (damping damp (u i) (l_A L i) (l_B L i)), (u_Ik (l_dx L) u (l_start L) i), (u_Ip1k (l_dx L) u (l_end L) i).
  assert (U : forall j, 0 < l_A L j -> u j = V j).
  { intros j Hj. unfold u, u_ik, V. destruct (Reqb_spec (l_A L j) 0); [lra|reflexivity]. }
  split; [rewrite Ea; reflexivity|]. split; [rewrite Ec; reflexivity|]. split; [|split].
  - unfold u_Ik. destruct (l_start L i); [now apply U|]. intros Hd Hd'. rewrite !U by auto.
    destruct (Reqb_spec (l_dx L i + l_dx L (i - 1)%nat) 0); [lra|]. unfold on_the_line. field. lra.
  - unfold u_Ip1k. destruct (l_end L i); [now apply U|]. intros Hd Hd'. rewrite !U by auto.
    destruct (Reqb_spec (l_dx L i + l_dx L (i + 1)%nat) 0); [lra|]. unfold on_the_line. field. lra.
  - unfold damping. destruct damp; [|reflexivity]. rewrite U by auto.
    assert (P : 0 < sqrt (g * l_A L i)) by (apply sqrt_lt_R0; unfold g; lra).
    assert (S : sqrt (g * l_A L i) * sqrt (g * l_A L i) = g * l_A L i) by (apply sqrt_sqrt; unfold g; lra).
    assert (S' : sqrt (l_B L i) * sqrt (l_B L i) = l_B L i) by now apply sqrt_sqrt.
    exists (Fr_ik (V i) (l_A L i) (l_B L i)). unfold Fr_ik. destruct (Reqb_spec (sqrt (g * l_A L i)) 0); [lra|].
    set (F := Rabs (V i) * sqrt (l_B L i) / sqrt (g * l_A L i)). split; [|split].
    + unfold F. apply Rmult_le_pos; [apply Rmult_le_pos; [apply Rabs_pos|apply sqrt_pos]|]. now apply Rlt_le, Rinv_0_lt_compat.
    + change 9.81 with g. rewrite <- S. transitivity (Rabs (V i) ^ 2 * (sqrt (l_B L i) * sqrt (l_B L i))); [unfold F; field; lra|].
      rewrite S', pow2_abs. reflexivity.
    + unfold inertia_kept, sigma_ik. destruct (Rltb_spec F 0.5); destruct (Rltb_spec 1 F); repeat split; intros; lra.
Qed.

(** C16: what leaves a link with the velocity at its downstream junction enters the next one with the same velocity. *)
Theorem C16_one_velocity_per_junction : forall damp L dt NL b0 m i,
  link_coeffs damp L dt NL b0 = Some m -> damp = false ->
  (S i < NL)%nat -> l_end L i = false -> l_start L (S i) = false ->
  exists v, mc m i = - Rmax (- v) 0 /\ ma m (S i) = - Rmax v 0 /\ ma m (S i) * mc m i = 0.
Proof.
  intros damp L dt NL b0 m i E -> Hi He Hs. destruct (link_coeffs_entries _ _ _ _ _ _ E) as (Ea & Ec & _ & _). cbv zeta in Ea, Ec.
  set (u := fun j => u_ik (l_Q L j) (l_A L j)) in *. exists (u_Ip1k (l_dx L) u (l_end L) i).
  assert (Q : u_Ik (l_dx L) u (l_start L) (S i) = u_Ip1k (l_dx L) u (l_end L) i).
  { unfold u_Ik, u_Ip1k. rewrite He, Hs. replace (S i - 1)%nat with i by lia. replace (i + 1)%nat with (S i) by lia.
    rewrite (Rplus_comm (l_dx L (S i)) (l_dx L i)). destruct (Reqb_spec (l_dx L i + l_dx L (S i)) 0); [reflexivity|]. f_equal. ring. }
  rewrite Ea, Ec, Q. unfold a_ik, c_ik, damping. set (v := u_Ip1k _ _ _ _). split; [ring|]. split; [ring|].
  unfold Rmax. destruct (Rle_dec v 0), (Rle_dec (- v) 0); try (ring || lra).
Qed.

Example C16_advection_example : exists m, link_coeffs false ex_links 60 5 (fun _ => 0) = Some m /\ 0 < l_A ex_links 1%nat /\ 0 <= l_B ex_links 1%nat /\ 0 < l_dx ex_links 1%nat.
Proof.
  destruct (C16_wet_network_coefficients false ex_links 60 5 (fun _ => 0) ltac:(lra) ex_links_wet) as (m & E & _).
  exists m. split; [exact E|]. simpl. lra.
Qed.
