(** Model of the forcing of a simulation: tables over time, sampled at the end of each step
    (pipedream_solver/simulation.py 576-624). *)
From Verif Require Import Prelude M_Numerics M_Step M_Geometry M_Storage M_Controls M_Simulation M_Model.

(** One table of a [Simulation] (a pandas frame): its index, and the column of each element. *)
Record forcing : Type := mkForcing { fo_t : list R; fo_col : nat -> list R }.
(** simulation.py:582-584, 592-594, 602-604: one row, sampled at time t.  Simplification: where [interpolate_sample] raises (never for
    a table whose columns are as long as its index, C01) the model reads 0. *)
Definition sampled (method : nat) (f : forcing) (t : R) : arr :=
  fun j => match interpolate_sample t (fo_t f) (fo_col f j) method with Some v => v | None => 0 end.
(** simulation.py:576-624 [_step]: what is handed to the model's step.  The control signals are keyword arguments, the same for
    all steps of a call. *)
Definition forced (method : nat) (H_bc Q_in Q_Ik : forcing) (uo uw up : arr) (t : R) : inputs :=
  mkInputs (sampled method H_bc t) (sampled method Q_in t) (sampled method Q_Ik t) uo uw up.
