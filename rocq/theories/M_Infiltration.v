(** Model of Green-Ampt infiltration (pipedream_solver/ninfiltration.py, pipedream_solver/infiltration.py),
    one soil element (every operation of the code is element-wise; the boolean masks become conditionals).
    [None]: the step raises (root finder gives up). *)
From Verif Require Import Prelude M_Coeffs M_Numerics.

(** Soil parameters (infiltration.py:40-62). *)
Record soil := { psi_f : R; Ks : R; theta_s : R; theta_i : R; A_s : R }.
(** 47-51, 53-62 *)
Definition theta_dmax (s : soil) : R := theta_s s - theta_i s.
Definition rootK (s : soil) : R := sqrt (Ks s * 39.97 * 3600).
Definition Lu (s : soil) : R := 4 * rootK s * 0.0254.
Definition kr (s : soil) : R := rootK s / 75 * (1 / 3600).
Definition Tr (s : soil) : R := 4.5 / rootK s * 3600.

(** Time-dependent variables (infiltration.py:47-71). *)
Record gstate := { gd : R; gF : R; gf : R; gT : R; gsat : bool; gtheta_du : R; gtheta_d : R; gQ : R; giter : nat; gt : R }.
Definition ginit (s : soil) : gstate :=
  {| gd := 0; gF := 0; gf := 0; gT := 0; gsat := false; gtheta_du := theta_dmax s; gtheta_d := theta_dmax s;
     gQ := 0; giter := 0; gt := 0 |}.

(** ninfiltration.py:266-292 [numba_integrated_green_ampt] *)
Definition integrated (F_1 dt Ks theta_d psi_s F_2 : R) : R :=
  let C := Ks * dt + F_1 - psi_s * theta_d * ln (F_1 + Rabs psi_s * theta_d) in
  C + psi_s * theta_d * ln (F_2 + Rabs psi_s * theta_d) - F_2.
(** ninfiltration.py:295-320 [numba_derivative_green_ampt]; its division is by a positive number in every use. *)
Definition derivative (theta_d psi_s F_2 : R) : R := psi_s * theta_d / (psi_s * theta_d + F_2) - 1.

Definition ga_atol : R := 1.48 / 10 ^ 8.
(** ninfiltration.py:206-263 [run_green_ampt_newton], one element, default arguments. *)
Definition run_green_ampt_newton (x0 F_1 dt Ks theta_d psi_f ia : R) : option R :=
  match bounded_newton_raphson (integrated F_1 dt Ks theta_d psi_f) (derivative theta_d psi_f)
          x0 0 (F_1 + ia * dt) 50 ga_atol with
  | Root x => Some x
  | _ => None
  end.

(** [np.minimum(np.maximum(x, 0), top)] *)
Definition clip (top x : R) : R := Rmin (Rmax x 0) top.

(** ninfiltration.py:122-170 [saturated_case] *)
Definition saturated_case (s : soil) (dt ia : R) (x : gstate) : option gstate :=
  do F_2 <- run_green_ampt_newton (gF x) (gF x) dt (Ks s) (gtheta_d x) (psi_f s) ia;
  let dF := F_2 - gF x in
  let cond := Rltb (ia * dt) dF in
  let dF := if cond then ia * dt else dF in
  Some {| gd := gd x; gF := gF x + dF; gf := dF / dt; gT := Tr s;
          gsat := if cond then false else gsat x;
          gtheta_du := clip (theta_dmax s) (gtheta_du x - dF / Lu s); gtheta_d := gtheta_d x;
          gQ := gQ x; giter := giter x; gt := gt x |}.

(** infiltration.py:116-154 [unsaturated_case_1] *)
Definition unsaturated_case_1 (s : soil) (dt : R) (x : gstate) : gstate :=
  let d_theta := kr s * theta_dmax s * dt in
  let du := clip (theta_dmax s) (gtheta_du x + d_theta) in
  let F := gF x - d_theta * Lu s in
  let cond := Rleb (gT x) 0 in
  {| gd := gd x; gF := if cond then 0 else F; gf := 0; gT := gT x; gsat := gsat x;
     gtheta_du := du; gtheta_d := if cond then du else gtheta_d x; gQ := gQ x; giter := giter x; gt := gt x |}.

(** infiltration.py:156-190 [unsaturated_case_2] *)
Definition unsaturated_case_2 (s : soil) (dt ia : R) (x : gstate) : gstate :=
  let dF := ia * dt in
  {| gd := gd x; gF := gF x + dF; gf := ia; gT := gT x; gsat := gsat x;
     gtheta_du := clip (theta_dmax s) (gtheta_du x - dF / Lu s); gtheta_d := gtheta_d x;
     gQ := gQ x; giter := giter x; gt := gt x |}.

Definition set_sat (b : bool) (x : gstate) : gstate :=
  {| gd := gd x; gF := gF x; gf := gf x; gT := gT x; gsat := b; gtheta_du := gtheta_du x; gtheta_d := gtheta_d x;
     gQ := gQ x; giter := giter x; gt := gt x |}.
(** ninfiltration.py:45-120 [unsaturated_case_3] *)
Definition unsaturated_case_3 (s : soil) (dt ia : R) (x : gstate) : option gstate :=
  let Fs := Ks s * psi_f s * gtheta_d x / (ia - Ks s) in
  let cond_0 := Rleb Fs (gF x) in
  let cond_1 := (Rltb (gF x + ia * dt) Fs && negb cond_0)%bool in
  if cond_0 then saturated_case s dt ia (set_sat true x)
  else if cond_1 then
    let dF := ia * dt in
    Some {| gd := gd x; gF := gF x + dF; gf := ia; gT := Tr s; gsat := gsat x;
            gtheta_du := clip (theta_dmax s) (gtheta_du x - dF / Lu s); gtheta_d := gtheta_d x;
            gQ := gQ x; giter := giter x; gt := gt x |}
  else
    let sub_dt := dt - (Fs - gF x) / ia in
    do F_2 <- run_green_ampt_newton (gF x) Fs sub_dt (Ks s) (gtheta_d x) (psi_f s) ia;
    let dF := F_2 - gF x in
    Some {| gd := gd x; gF := F_2; gf := dF / dt; gT := Tr s; gsat := gsat x;
            gtheta_du := clip (theta_dmax s) (gtheta_du x - dF / Lu s); gtheta_d := gtheta_d x;
            gQ := gQ x; giter := giter x; gt := gt x |}.

(** infiltration.py:369-377 [compute_runoff], [compute_ponding_depth] *)
Definition compute_runoff (s : soil) (i : R) (x : gstate) : R := Rmax (i - gf x) 0 * A_s s.
Definition compute_ponding_depth (i : R) (x : gstate) : R := Rmax (gd x + (i - gf x)) 0.

(** ninfiltration.py:172-203 [step].  The three unsaturated masks are computed before any case runs; a dry
    unsaturated element (ia = 0 <= Ks) runs case 1 and then also case 2. *)
Definition gstep (s : soil) (dt i : R) (x : gstate) : option gstate :=
  let ia := i + gd x / dt in
  let x := {| gd := gd x; gF := gF x; gf := gf x; gT := gT x - dt; gsat := gsat x; gtheta_du := gtheta_du x;
              gtheta_d := gtheta_d x; gQ := gQ x; giter := giter x; gt := gt x |} in
  do y <- (if gsat x then saturated_case s dt ia x
           else
             let x1 := if Reqb ia 0 then unsaturated_case_1 s dt x else x in
             if Rleb ia (Ks s) then Some (unsaturated_case_2 s dt ia x1)
             else unsaturated_case_3 s dt ia x1);
  Some {| gd := compute_ponding_depth i y; gF := gF y; gf := gf y; gT := gT y; gsat := gsat y;
          gtheta_du := gtheta_du y; gtheta_d := gtheta_d y; gQ := compute_runoff s i y;
          giter := S (giter y); gt := gt y + dt |}.

(** A history of steps (dt, rainfall). *)
Fixpoint ghistory (s : soil) (x : gstate) (l : list (R * R)) : option gstate :=
  match l with
  | [] => Some x
  | (dt, i) :: l => do y <- gstep s dt i x; ghistory s y l
  end.
