(** Model of the numerical utilities: table interpolation and root finders. *)
From Verif Require Import Prelude.

(** ** Interpolation *)

(** [np.searchsorted(xp, x)] (side='left'), called at nutils.py:23 and
    ngeometry.py:1217: the number of leading entries smaller than [x].
    NumPy does a binary search; on an ascending [xp] (assumed by every theorem) the result is the same. *)
Fixpoint searchsorted (xp : list R) (x : R) : nat :=
  match xp with
  | [] => O
  | a :: l => if Rltb a x then S (searchsorted l x) else O
  end.

(** nutils.py:5-39 [interpolate_sample] and ngeometry.py:1201-1234
    [interpolate_geometry] (same body; so is utils.py:3-36, without numba).  Simplification: one column of the table [fp] at a time
    (NumPy treats the columns of a row independently).  [None]: the call raises
    (index out of range, ZeroDivisionError at nutils.py:32, or [result] unbound because [method]
    is neither 0 nor 1). *)
Definition interpolate_sample (x : R) (xp fp : list R) (method : nat) : option R :=
  let n := length xp in
  let ix := searchsorted xp x in
  if Nat.eqb ix 0 then nth_error fp 0
  else if Nat.leb n ix then nth_error fp (n - 1)
  else
    match nth_error xp (ix - 1), nth_error xp ix, nth_error fp (ix - 1), nth_error fp ix with
    | Some xl, Some xr, Some fl, Some fr =>
        let dx_0 := x - xl in
        let dx_1 := xr - x in
        if Nat.eqb method 1 then
          if Reqb (dx_0 + dx_1) 0 then None
          else let frac := dx_0 / (dx_0 + dx_1) in
               Some ((1 - frac) * fl + frac * fr)
        else if Nat.eqb method 0 then
          if Rleb (Rabs dx_0) (Rabs dx_1) then Some fl else Some fr
        else None
    | _, _, _, _ => None
    end.

(** ** Root finders *)

(** Result of a root finder: value, or one of the exceptions it raises. *)
Inductive root_result : Type :=
| Root (x : R)
| DerivativeIsZero        (* ValueError('Derivative is zero'), nutils.py:71 *)
| NoZeroFound             (* ValueError('No solution found'), nutils.py:76; 'No zero found', nutils.py:142 *)
| ZeroDivision.           (* ZeroDivisionError, would be raised at nutils.py:130 *)

(** nutils.py:41-76 [newton_raphson]: the loop with [n] iterations left.
    [f] and [df] are the functions already applied to [args]. *)
Fixpoint newton_loop (f df : R -> R) (atol rtol : R) (n : nat) (p0 : R) : root_result :=
  match n with
  | O => NoZeroFound
  | S n' =>
      let fx := f p0 in
      if Reqb fx 0 then Root p0
      else
        let dfx := df p0 in
        if Reqb dfx 0 then DerivativeIsZero
        else
          let p := p0 - fx / dfx in
          if Rleb (Rabs (p - p0)) (atol + rtol * Rabs p0) then Root p
          else newton_loop f df atol rtol n' p
  end.

(** nutils.py:41-76 [newton_raphson]. *)
Definition newton_raphson (f df : R -> R) (x0 : R) (max_iter : nat) (atol rtol : R) : root_result :=
  newton_loop f df atol rtol max_iter (1 * x0).

(** Local variables of the loop nutils.py:122-141. *)
Record bstate : Type := mkB { b_x : R; b_lb : R; b_ub : R; b_dx : R; b_fx : R; b_dfx : R }.

(** nutils.py:123-131: choice between bisection and Newton step; gives the new ([dx], [x]).
    [None]: ZeroDivisionError at line 130. *)
Definition bnewton_move (s : bstate) : option (R * R) :=
  let '(mkB x lb ub dx fx dfx) := s in
  let cond_0 := Rleb 0 (((x - ub) * dfx - fx) * ((x - lb) * dfx - fx)) in
  let cond_1 := Rltb (Rabs (dx * dfx)) (Rabs (2 * fx)) in
  if cond_0 || cond_1 then
    let dx' := 0.5 * (ub - lb) in Some (dx', lb + dx')
  else
    if Reqb dfx 0 then None
    else let dx' := fx / dfx in Some (dx', x - dx').

(** nutils.py:136-141: re-evaluation and bracket update at the new [x]. *)
Definition bnewton_update (f df : R -> R) (s : bstate) (dx' x' : R) : bstate :=
  let fx := f x' in
  let dfx := df x' in
  if Rltb fx 0 then mkB x' x' (b_ub s) dx' fx dfx
  else mkB x' (b_lb s) x' dx' fx dfx.

(** nutils.py:122-142: the loop with [n] iterations left. *)
Fixpoint bnewton_loop (f df : R -> R) (atol : R) (n : nat) (s : bstate) : root_result :=
  match n with
  | O => NoZeroFound
  | S n' =>
      match bnewton_move s with
      | None => ZeroDivision
      | Some (dx', x') =>
          if Rltb (Rabs dx') atol then Root x'
          else bnewton_loop f df atol n' (bnewton_update f df s dx' x')
      end
  end.

(** nutils.py:106-120: swap of the bounds, start point, initial step. *)
Definition bnewton_init (f df : R -> R) (x0 x_lb x_ub : R) : bstate :=
  let f_lx := f x_lb in
  let f_ux := f x_ub in
  let (lb, ub) := if Rltb f_ux f_lx then (x_ub, x_lb) else (x_lb, x_ub) in
  let x := if Rltb x0 lb || Rltb ub x0 then (lb + ub) / 2 else x0 in
  let dx := Rabs (ub - lb) in
  mkB x lb ub dx (f x) (df x).

(** nutils.py:78-142 [bounded_newton_raphson] ([rtol] is accepted but never used).  The copy without
    numba, utils.py:38-98, has the same loop (zero derivatives aside: there NumPy returns an infinity), other default
    settings, and returns None where this one raises 'No zero found'. *)
Definition bounded_newton_raphson (f df : R -> R) (x0 x_lb x_ub : R)
           (max_iter : nat) (atol : R) : root_result :=
  bnewton_loop f df atol max_iter (bnewton_init f df x0 x_lb x_ub).
