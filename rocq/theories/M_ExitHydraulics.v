(** Model of the option [exit_hydraulics]: the depth at the downstream end of each superlink
    (pipedream_solver/superlink.py 3536-3642, called at 4069-4073; pipedream_solver/geometry.py 21-122).
    nSuperLink inherits these methods.

    Simplifications.  [scipy.optimize.brentq] is a parameter [root]: it takes a function and a bracket and returns a
    depth, or [None] where it raises.  [np.log] of 0 is minus infinity, modelled as [None].  [np.asscalar] is read as
    the function NumPy had until release 1.22.  Arrays are total maps. *)
From Verif Require Import Prelude M_Coeffs.

(** geometry.py:41-45, 115-119: the angle of the surface *)
Definition py_theta (d y : R) : R :=
  let phi := y / (d / 2) in
  let phi := if Rltb phi 0 then 0 else phi in
  let phi := if Rltb 2 phi then 2 else phi in
  acos (1 - phi).
(** geometry.py:26-47, one entry *)
Definition py_circ_A (h0 h1 g1 : R) : R :=
  let d := g1 in
  let y := (h0 + h1) / 2 in
  let y := if Rltb y 0 then 0 else y in
  let y := if Rltb d y then d else y in
  let r := d / 2 in
  let theta := py_theta d y in
  r ^ 2 * (theta - cos theta * sin theta).
(** geometry.py:94-122, one entry, with the default slot 0.001 *)
Definition py_circ_B (h0 h1 g1 : R) : R :=
  let d := g1 in
  let y := (h0 + h1) / 2 in
  let y := if Rltb y 0 then 0 else y in
  let r := d / 2 in
  let theta := py_theta d y in
  if Rltb y d then 2 * r * sin theta else 0.001 * d.

(** superlink.py:3633-3637 [_critical_depth]; [None] is minus infinity *)
Definition critical_log (Q d h : R) : option R :=
  let x := Q ^ 2 * py_circ_B h h d / (9.81 * py_circ_A h h d ^ 3) in
  if Rltb 0 x then Some (ln x) else None.

(** What the step reads. *)
Record exits := {
  x_NK : nat;
  x_g1 : nat -> R;       (* _g1_ik[_i_nk] *)
  x_z : nat -> R;        (* _z_inv_dk *)
  x_J : nat -> nat;      (* _J_dk *)
  x_min : R              (* min_depth *)
}.

Section ExitHydraulics.
Variable root : (R -> option R) -> R -> R -> option R.
Variable x : exits.

(** 3536-3549 [exit_conditions] *)
Definition exit_condition (H : nat -> R) (k : nat) : bool :=
  Rltb (H (x_J x k) - x_z x k) (x_g1 x k).
(** 3551-3576 [solve_critical_depth]; [_eps = np.finfo(np.float64).eps] *)
Definition np_eps : R := / 2 ^ 52.
Definition solve_critical_depth (H Q_dk : nat -> R) : option (nat -> R) :=
  for_opt (x_NK x) (fun k h_c =>
    if exit_condition H k
    then do c <- root (critical_log (Q_dk k) (x_g1 x k)) np_eps (x_g1 x k); Some (upd h_c k c)
    else Some h_c) (fun _ => 0).
(** 3604-3631 [solve_exit_hydraulics] *)
Definition solve_exit_hydraulics (H h_c h_n h_dk : nat -> R) : nat -> R :=
  let h_j := fun k => H (x_J x k) - x_z x k in
  let backwater := fun k => Rltb (h_c k) (h_j k) && exit_condition H k in
  let mild := fun k => (negb (backwater k) && Rltb (h_c k) (h_n k)) && exit_condition H k in
  let critical := fun k => (negb (backwater k) && Reqb (h_n k) (h_c k)) && exit_condition H k in
  let h := fun k => if backwater k then h_j k else h_dk k in
  let h := fun k => if mild k then h_c k else h k in
  let h := fun k => if critical k then h_c k else h k in
  fun k => if Rltb (h k) (x_min x) then x_min x else h k.
(** 4069-4073 in [_solve_step]; the call of [solve_normal_depth] is commented out, so that [_h_n] keeps the zeros
    of line 751 *)
Definition exit_step (H Q_dk h_dk : nat -> R) : option (nat -> R) :=
  do h_c <- solve_critical_depth H Q_dk;
  Some (solve_exit_hydraulics H h_c (fun _ => 0) h_dk).
End ExitHydraulics.
