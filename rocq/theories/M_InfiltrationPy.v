(** Model of the infiltration class used when numba is not installed (pipedream_solver/infiltration.py [GreenAmpt];
    pipedream_solver/hydrology.py 6-9 chooses between it and [nGreenAmpt]), one soil element.

    The two classes have the same [step] and the same cases; they differ in the root finder, which is a parameter
    [run] here.  [scipy.optimize.newton] is modelled with its default arguments (tol=1.48e-8, maxiter=50, rtol=0,
    disp=True). *)
From Verif Require Import Prelude M_Coeffs M_Numerics M_Infiltration.

(** scipy.optimize.newton with a derivative, scalar case.  [f x = None]: the logarithm is not a finite number; then no
    later test succeeds and the call raises.  [None]: RuntimeError (zero derivative, or no convergence). *)
Fixpoint scipy_newton (f : R -> option R) (df : R -> R) (tol : R) (n : nat) (x : R) : option R :=
  match n with
  | O => None
  | S n =>
      do v <- f x;
      if Reqb v 0 then Some x
      else if Reqb (df x) 0 then None
      else let p := x - v / df x in
           if Rleb (Rabs (p - x)) tol then Some p else scipy_newton f df tol n p
  end.

(** infiltration.py:316-340 [integrated_green_ampt] *)
Definition py_integrated (F_1 dt Ks theta_d psi_s F_2 : R) : option R :=
  if Rltb 0 (F_2 + Rabs psi_s * theta_d) then Some (integrated F_1 dt Ks theta_d psi_s F_2) else None.
(** infiltration.py:265-270 and 300-303; [derivative_green_ampt] (342-365) is the compiled one. *)
Definition py_newton (x0 F_1 dt Ks theta_d psi_f ia : R) : option R :=
  scipy_newton (py_integrated F_1 dt Ks theta_d psi_f) (derivative theta_d psi_f) ga_atol 50 x0.

Section Solver.
Variable run : R -> R -> R -> R -> R -> R -> R -> option R.

(** infiltration.py:273-314 [saturated_case] *)
Definition saturated_case_with (s : soil) (dt ia : R) (x : gstate) : option gstate :=
  do F_2 <- run (gF x) (gF x) dt (Ks s) (gtheta_d x) (psi_f s) ia;
  let dF := F_2 - gF x in
  let cond := Rltb (ia * dt) dF in
  let dF := if cond then ia * dt else dF in
  Some {| gd := gd x; gF := gF x + dF; gf := dF / dt; gT := Tr s;
          gsat := if cond then false else gsat x;
          gtheta_du := clip (theta_dmax s) (gtheta_du x - dF / Lu s); gtheta_d := gtheta_d x;
          gQ := gQ x; giter := giter x; gt := gt x |}.

(** infiltration.py:192-271 [unsaturated_case_3] *)
Definition unsaturated_case_3_with (s : soil) (dt ia : R) (x : gstate) : option gstate :=
  let Fs := Ks s * psi_f s * gtheta_d x / (ia - Ks s) in
  let cond_0 := Rleb Fs (gF x) in
  let cond_1 := (Rltb (gF x + ia * dt) Fs && negb cond_0)%bool in
  if cond_0 then saturated_case_with s dt ia (set_sat true x)
  else if cond_1 then
    let dF := ia * dt in
    Some {| gd := gd x; gF := gF x + dF; gf := ia; gT := Tr s; gsat := gsat x;
            gtheta_du := clip (theta_dmax s) (gtheta_du x - dF / Lu s); gtheta_d := gtheta_d x;
            gQ := gQ x; giter := giter x; gt := gt x |}
  else
    let sub_dt := dt - (Fs - gF x) / ia in
    do F_2 <- run (gF x) Fs sub_dt (Ks s) (gtheta_d x) (psi_f s) ia;
    let dF := F_2 - gF x in
    Some {| gd := gd x; gF := F_2; gf := dF / dt; gT := Tr s; gsat := gsat x;
            gtheta_du := clip (theta_dmax s) (gtheta_du x - dF / Lu s); gtheta_d := gtheta_d x;
            gQ := gQ x; giter := giter x; gt := gt x |}.

(** infiltration.py:379-407 [step] *)
Definition gstep_with (s : soil) (dt i : R) (x : gstate) : option gstate :=
  let ia := i + gd x / dt in
  let x := {| gd := gd x; gF := gF x; gf := gf x; gT := gT x - dt; gsat := gsat x; gtheta_du := gtheta_du x;
              gtheta_d := gtheta_d x; gQ := gQ x; giter := giter x; gt := gt x |} in
  do y <- (if gsat x then saturated_case_with s dt ia x
           else
             let x1 := if Reqb ia 0 then unsaturated_case_1 s dt x else x in
             if Rleb ia (Ks s) then Some (unsaturated_case_2 s dt ia x1)
             else unsaturated_case_3_with s dt ia x1);
  Some {| gd := compute_ponding_depth i y; gF := gF y; gf := gf y; gT := gT y; gsat := gsat y;
          gtheta_du := gtheta_du y; gtheta_d := gtheta_d y; gQ := compute_runoff s i y;
          giter := S (giter y); gt := gt y + dt |}.
Fixpoint ghistory_with (s : soil) (x : gstate) (l : list (R * R)) : option gstate :=
  match l with
  | [] => Some x
  | (dt, i) :: l => do y <- gstep_with s dt i x; ghistory_with s y l
  end.
End Solver.

(** The class without numba. *)
Definition py_step : soil -> R -> R -> gstate -> option gstate := gstep_with py_newton.
Definition py_history : soil -> gstate -> list (R * R) -> option gstate := ghistory_with py_newton.
