(** Specification vocabulary for infiltration: independent of the model's update code. *)
From Verif Require Import Prelude.

(** Integrated Green-Ampt equation: residual of F2 as cumulative depth a time [tau] after F1 under ponding. *)
Definition ga_residual (K psi dtheta F1 tau F2 : R) : R :=
  F2 - F1 - K * tau - psi * dtheta * ln ((F2 + psi * dtheta) / (F1 + psi * dtheta)).
(** Depth needed to bring the surface to saturation at constant intensity [ia] > K (Mein-Larson). *)
Definition ponding_depth_needed (K psi dtheta ia : R) : R := K * psi * dtheta / (ia - K).
(** Root-finder tolerance of the code (metres). *)
Definition tolerance : R := 1.48 / 10 ^ 8.
(** [F2] is the Green-Ampt depth, or the supply [top] if the soil could take more, up to the tolerance. *)
Definition ga_limited (K psi dtheta F1 tau top F2 : R) : Prop :=
  F1 - tolerance < F2 <= top /\
  (ga_residual K psi dtheta F1 tau top <= 0 -> top - tolerance < F2) /\
  (0 < ga_residual K psi dtheta F1 tau top -> Rabs (ga_residual K psi dtheta F1 tau F2) < tolerance).
(** A rainfall history: positive step sizes, non-negative rates. *)
Definition rain_ok (l : list (R * R)) : Prop := Forall (fun p => 0 < fst p /\ 0 <= snd p) l.
