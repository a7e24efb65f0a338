(** Model of the suction head of a soil (pipedream_solver/infiltration.py 70-84, class methods of [GreenAmpt]). *)
From Verif Require Import Prelude M_Coeffs.

(** [x ** y] for a float [x]; [None]: not a real number (negative base). *)
Definition float_pow (x y : R) : option R := if Rltb x 0 then None else Some (fpow x y).

(** infiltration.py:70-75 [_s2] *)
Definition s2 (theta_i theta_s theta_r Ks psi_b lambda_o : R) : option R :=
  do l <- div 1 lambda_o;
  do ps <- float_pow (theta_s - theta_r) (l + 3);
  do pi <- float_pow (theta_i - theta_r) (l + 3);
  let num := 2 * (theta_s - theta_i) * Ks * psi_b * (ps - pi) in
  let den := lambda_o * ps * (l + 3) in
  div num den.

(** infiltration.py:77-84 [suction_head] *)
Definition suction_head (theta_i theta_s theta_r Ks psi_b lambda_o : R) : option R :=
  do num <- s2 theta_i theta_s theta_r Ks psi_b lambda_o;
  let den := 2 * Ks * (theta_s - theta_i) in
  div num den.
