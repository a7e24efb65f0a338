(** Model of the wetted perimeter of elliptical links, which both solvers take from scipy's elliptic integrals. *)
From Verif Require Import Prelude M_Coeffs M_Geometry.
Local Open Scope R_scope.

Section Ellipse.
(** [scipy.special.ellipeinc phi m]; [scipy.special.ellipe m] is its value at pi/2. *)
Variable ellipeinc : R -> R -> R.
Definition ellipe (m : R) : R := ellipeinc (PI / 2) m.

(** geometry.py:637-663 [Elliptical.Pe_ik], one link; called by nsuperlink.py:1689-1699 [handle_elliptical_perimeter]. *)
Definition Elliptical_Pe_ik (h0 h1 g1 g2 : R) : R :=
  let b := g1 / 2 in
  let a := g2 / 2 in
  let y := cap g1 (floor0 (mid h0 h1)) in
  let theta := asin ((y - b) / b) in
  let m := 1 - a ^ 2 / b ^ 2 in
  2 * b * ellipe m + 2 * b * ellipeinc theta m.
End Ellipse.
