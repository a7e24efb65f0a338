(** Specification for the momentum boundary method: the water between a junction and the end of a pipe. *)
From Verif Require Import Prelude.

(** Momentum of the water in an end piece of length [dx] and area [A], implicit in the new flow [q] and linearised around
    the flow [Q] of the previous iteration: inertia, friction ([f] as in a link's equation, see [friction_law]) and local
    loss are driven by the fall [drop] of the water surface along the piece.  [Q_old]: flow at the start of the step. *)
Definition end_momentum (A dx dt C f Q Q_old q drop : R) : Prop :=
  dx / dt * (q - Q_old) + f * q + C * Rabs Q / (2 * A) * q = 9.81 * A * drop.
