(** Specification vocabulary for surveyed cross-sections (independent of the model's case distinctions). *)
From Coq Require Import Ranalysis RiemannInt.
From Verif Require Import Prelude.

Definition vertex : Type := (R * R)%type.

(** Ground level on the straight piece from p0 to p1 at the fraction s of its length. *)
Definition ground (p0 p1 : vertex) (s : R) : R := snd p0 + s * (snd p1 - snd p0).

(** [f]: the fraction of the piece that is at or below the level w; this part is one interval. *)
Definition wet_fraction (w : R) (p0 p1 : vertex) (f : R) : Prop :=
  ((forall s, 0 <= s <= 1 -> w < ground p0 p1 s) /\ f = 0) \/
  exists s0 s1, 0 <= s0 /\ s0 <= s1 /\ s1 <= 1 /\ f = s1 - s0 /\
    forall s, 0 <= s <= 1 -> (ground p0 p1 s <= w <-> s0 <= s <= s1).

(** [d]: mean water depth over the piece, as an integral over its length. *)
Definition mean_depth (w : R) (p0 p1 : vertex) (d : R) : Prop :=
  exists pr : Riemann_integrable (fun s => Rmax 0 (w - ground p0 p1 s)) 0 1, RiemannInt pr = d.

Definition run (p0 p1 : vertex) : R := fst p1 - fst p0.
Definition length_of (p0 p1 : vertex) : R := sqrt ((fst p1 - fst p0) ^ 2 + (snd p1 - snd p0) ^ 2).

(** [v] is the sum over the pieces of the polyline of values allowed by [V]. *)
Inductive total (V : vertex -> vertex -> R -> Prop) : list vertex -> R -> Prop :=
| total_none : total V [] 0
| total_point p : total V [p] 0
| total_piece p0 p1 t u v : V p0 p1 u -> total V (p1 :: t) v -> total V (p0 :: p1 :: t) (u + v).

Definition water_area (w : R) := total (fun p0 p1 v => exists d, mean_depth w p0 p1 d /\ v = run p0 p1 * d).
Definition water_width (w : R) := total (fun p0 p1 v => exists f, wet_fraction w p0 p1 f /\ v = run p0 p1 * f).
Definition wetted_length (w : R) := total (fun p0 p1 v => exists f, wet_fraction w p0 p1 f /\ v = length_of p0 p1 * f).

(** The survey runs from left to right (vertical steps allowed / not allowed). *)
Definition left_to_right (t : list vertex) : Prop :=
  forall i p q, nth_error t i = Some p -> nth_error t (S i) = Some q -> fst p <= fst q.
Definition strictly_left_to_right (t : list vertex) : Prop :=
  forall i p q, nth_error t i = Some p -> nth_error t (S i) = Some q -> fst p < fst q.
(** No horizontal piece at level w. *)
Definition no_flat_piece (w : R) (t : list vertex) : Prop :=
  forall i p q, nth_error t i = Some p -> nth_error t (S i) = Some q -> ~ (snd p = w /\ snd q = w).
