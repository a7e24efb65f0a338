(** Specification of the hydraulics of one superlink: the discretised momentum equation of every
    link and continuity equation of every junction.  Nothing here mentions the solver's recurrences.

    A superlink has [n] links; its arrays of link coefficients start at index [i1], those of its
    [n + 1] junctions at [I1].  In local numbering [h 0 .. h n] are the depths of its junctions,
    [Q 1 .. Q n] the flows of its links, [Q 0] the flow entering at the upstream end and [Q (n + 1)]
    the flow leaving at the downstream end. *)
From Verif Require Import Prelude.

Section SuperlinkSpec.
  Variables a b c P A E D : arr.
  Variables i1 I1 n : nat.

  (** Momentum:  a Q_(i-1) + b Q_i + c Q_(i+1) = P + g A (h_I - h_(I+1)),  g = 9.81. *)
  Definition momentum (Q h : arr) : Prop :=
    forall j, (j < n)%nat ->
      a (i1 + j)%nat * Q j + b (i1 + j)%nat * Q (j + 1)%nat + c (i1 + j)%nat * Q (j + 2)%nat
      = P (i1 + j)%nat + 9.81 * A (i1 + j)%nat * (h j - h (j + 1)%nat).

  (** Continuity:  E h_I - D = Q_(i-1) - Q_i  at every junction, ends included. *)
  Definition continuity (Q h : arr) : Prop :=
    forall j, (j <= n)%nat ->
      E (I1 + j)%nat * h j - D (I1 + j)%nat = Q j - Q (j + 1)%nat.

  Definition superlink_solution (Q h : arr) : Prop := momentum Q h /\ continuity Q h.

  (** A wet superlink: positive flow area in every link, non-negative storage at every junction,
      and momentum coefficients with non-positive advection part and positive sum. *)
  Definition wet_superlink : Prop :=
    (forall j, (j < n)%nat ->
       0 < A (i1 + j)%nat /\ a (i1 + j)%nat <= 0 /\ c (i1 + j)%nat <= 0 /\
       0 < a (i1 + j)%nat + b (i1 + j)%nat + c (i1 + j)%nat) /\
    (forall j, (j <= n)%nat -> 0 <= E (I1 + j)%nat).
End SuperlinkSpec.

(** Layout of the internal arrays: superlink k owns links [i_1k k .. i_1k k + nk k - 1] and junctions
    [I_1k k .. I_1k k + nk k]; the blocks of different superlinks do not overlap. *)
Definition layout (NK : nat) (nk i_1k I_1k : nat -> nat) : Prop :=
  (forall k, (k < NK)%nat -> (1 <= nk k)%nat) /\
  (forall k k', (k < k')%nat -> (k' < NK)%nat ->
     (i_1k k + nk k <= i_1k k')%nat /\ (I_1k k + nk k < I_1k k')%nat).

(** Friction term of a link's momentum equation (the coefficient of its flow): Chezy-Manning (0),
    Hazen-Williams (1) and Darcy-Weisbach with the Swamee-Jain friction factor (2). *)
Definition friction_law (sf : nat) (Q dx A Rh n : R) : R :=
  match sf with
  | 0%nat => 9.81 * n ^ 2 * Rabs Q * dx / (A * Rpower Rh (4 / 3))
  | 1%nat => 1.354 * 9.81 * (if Req_EM_T Q 0 then 0 else Rpower (Rabs Q) 0.85) * dx / (Rpower A 0.85 * Rpower n 1.85 * Rpower Rh 1.1655)
  | _ => let Re := Rabs Q / A * (4 * Rh) / 0.0000010034 in
         let f := 0.25 / (ln (n / (3.7 * (4 * Rh)) + 5.74 / Rpower Re 0.9) / ln 10) ^ 2 in
         0.01274 * 9.81 * f * Rabs Q * dx / (A * Rh)
  end.

(** The friction formula has a value: Manning and Hazen-Williams always; Darcy-Weisbach when the water moves and the
    logarithm of the Swamee-Jain formula is not zero. *)
Definition friction_defined (sf : nat) (Q A Rh n : R) : Prop :=
  (sf <= 1)%nat \/
  sf = 2%nat /\ Q <> 0 /\ n / (3.7 * (4 * Rh)) + 5.74 / Rpower (Rabs Q / A * (4 * Rh) / 0.0000010034) 0.9 <> 1.

(** Where the index tables used by the continuity coefficients point: junction j of superlink k follows
    link j-1 and precedes link j of that superlink. *)
Definition chain_tables (NK : nat) (nk i_1k I_1k : nat -> nat) (kI forward_I_i backward_I_i : nat -> nat)
           (is_start is_end : nat -> bool) : Prop :=
  forall k j, (k < NK)%nat -> (j <= nk k)%nat ->
    kI (I_1k k + j)%nat = k /\
    is_start (I_1k k + j)%nat = Nat.eqb j 0 /\
    is_end (I_1k k + j)%nat = Nat.eqb j (nk k) /\
    ((j < nk k)%nat -> forward_I_i (I_1k k + j)%nat = (i_1k k + j)%nat) /\
    ((1 <= j)%nat -> backward_I_i (I_1k k + j)%nat = (i_1k k + j - 1)%nat).

(** Boundary system of a superlink: two recurrence relations between end flows and end depths, and two
    head relations  h = kappa Q + lambda H + mu  between end depths, end flows and junction heads. *)
Definition end_equations (X Y Z U V W ku lu mu kd ld md H_u H_d Q_u Q_d h_u h_d : R) : Prop :=
  Q_u = X * h_u + Y + Z * h_d /\
  Q_d = U * h_d + V + W * h_u /\
  h_u = ku * Q_u + lu * H_u + mu /\
  h_d = kd * Q_d + ld * H_d + md.

(** What a user sees of superlink k after a step: flow entering ([Q_uk]), the flows of its links, flow
    leaving ([Q_dk]). *)
Definition local_flows (Q : arr) (i1 n : nat) (Q_u Q_d : R) : arr :=
  fun j => if Nat.eqb j 0 then Q_u else if Nat.leb j n then Q (i1 + j - 1)%nat else Q_d.

(** Water surface attributed to internal junction I: half of each adjacent link (the boundary piece of length
    dx_uk, dx_dk at the two ends of the superlink) plus its own storage area. *)
Definition node_width (B dx A_SI B_u B_d dx_u dx_d : arr) (kI forward_I_i backward_I_i : nat -> nat)
           (is_start is_end : nat -> bool) (I : nat) : R :=
  let after := forward_I_i I in
  let before := backward_I_i I in
  if is_start I then B after * dx after / 2 + B_u (kI I) * dx_u (kI I) / 2 + A_SI I
  else if is_end I then B_d (kI I) * dx_d (kI I) / 2 + B before * dx before / 2 + A_SI I
  else B after * dx after / 2 + B (after - 1)%nat * dx (after - 1)%nat / 2 + A_SI I.
