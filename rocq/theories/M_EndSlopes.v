(** Model of the slopes of the end pieces of superlinks (superlink.py:731-740) and of the positions of internal junctions
    after construction (superlink.py:499-501). *)
From Verif Require Import Prelude M_Coeffs M_Layout.

(** superlink.py:732, 736, 738: slope of the upstream end piece of one superlink.  [None]: not a finite number (NumPy
    divides by zero with a warning). *)
Definition S_o_uk (dx_uk z_inv_uk z_1 : R) : option R :=
  if Rltb 0 dx_uk then div (z_inv_uk - z_1) dx_uk else Some 0.

(** superlink.py:733, 737, 739: slope of the downstream end piece; the condition reads [dx_uk], as in the code. *)
Definition S_o_dk (dx_uk dx_dk z_Np1 z_inv_dk : R) : option R :=
  if Rltb 0 dx_uk then div (z_Np1 - z_inv_dk) dx_dk else Some 0.
