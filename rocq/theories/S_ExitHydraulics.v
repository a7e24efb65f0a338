(** Specification for exit hydraulics: segments of a circle, critical and uniform flow, and what a bracketing root
    finder does.  Independent of the model. *)
From Verif Require Import Prelude.

(** Area and wetted perimeter of a round pipe of diameter d filled to depth h: the half angle t of the wetted arc
    satisfies r cos t = r - h. *)
Definition half_angle (d h t : R) : Prop := 0 <= t <= PI /\ d / 2 * cos t = d / 2 - h.
Definition segment_area (d h A : R) : Prop := exists t, half_angle d h t /\ A = (d / 2) ^ 2 * (t - cos t * sin t).
Definition wetted_arc (d h P : R) : Prop := exists t, half_angle d h t /\ P = d * t.
(** Width of the surface of an open depth. *)
Definition surface_width (d h : R) : R := 2 * sqrt (h * (d - h)).

(** Critical flow: the square of the Froude number Q^2 B / (g A^3) is one. *)
Definition critical_flow (Q d h : R) : Prop :=
  exists A, segment_area d h A /\ 0 < A /\ Q ^ 2 * surface_width d h / (9.81 * A ^ 3) = 1.
(** Uniform flow with Manning's roughness n on slope S. *)
Definition uniform_flow (Q d n S h : R) : Prop :=
  exists A P, segment_area d h A /\ wetted_arc d h P /\
    Q = sqrt S * Rpower A (5 / 3) / Rpower P (2 / 3) / n.

(** A bracketing root finder on functions with values in the reals and minus infinity ([None]). *)
Definition positive (v : option R) : Prop := exists a, v = Some a /\ 0 < a.
Definition negative (v : option R) : Prop := match v with Some a => a < 0 | None => True end.
Record root_finder (root : (R -> option R) -> R -> R -> option R) : Prop := {
  (* an answer is a root inside the bracket *)
  rf_sound : forall f lo hi c, lo <= hi -> root f lo hi = Some c -> lo <= c <= hi /\ f c = Some 0;
  (* a bracket whose ends have the same sign is refused *)
  rf_refuses : forall f lo hi, lo <= hi ->
    positive (f lo) /\ positive (f hi) \/ negative (f lo) /\ negative (f hi) -> root f lo hi = None;
  (* a single change of sign is found *)
  rf_finds : forall f lo hi c, lo < c < hi -> f c = Some 0 ->
    (forall y, lo <= y < c -> positive (f y)) -> (forall y, c < y <= hi -> negative (f y)) ->
    root f lo hi = Some c
}.
