(** Specification vocabulary for cross-sections: what each shape is as plane geometry, written without
    the model's functions. *)
From Verif Require Import Prelude M_Geometry.

(** Dimensions a user may give (widths and side slopes may be 0 where the shape degenerates to another valid one). *)
Definition dims_ok (s : section) : Prop :=
  match shape s with
  | 1%nat | 9%nat => 0 < g1 s /\ 0 <= g2 s
  | 2%nat => 0 < g1 s /\ 0 < g2 s /\ 0 <= g3 s
  | 3%nat | 6%nat | 7%nat | 8%nat => 0 < g1 s /\ 0 < g2 s
  | 4%nat => 0 < g1 s /\ 0 <= g2 s
  | 5%nat => 0 < g1 s /\ 0 <= g2 s /\ 0 <= g3 s
  | 10%nat => 0 < g1 s /\ 0 <= g2 s /\ 0 <= g3 s /\ 0 <= g4 s /\ 0 <= g5 s /\ 0 <= g6 s /\ 0 <= g7 s
  | _ => False
  end.

(** Area of the full section: g1 is the height (diameter). *)
Definition full_area (s : section) : R :=
  match shape s with
  | 1%nat | 9%nat => PI * (g1 s / 2) ^ 2
  | 2%nat | 3%nat | 8%nat => g1 s * g2 s
  | 4%nat => g2 s * g1 s ^ 2
  | 5%nat => g1 s * (g2 s + g3 s * g1 s)
  | 6%nat => 2 / 3 * g1 s * g2 s
  | 7%nat => PI * (g1 s / 2) * (g2 s / 2)
  | 10%nat => let ya := Rmin (g1 s) (g2 s) in
          let yb := Rmin (Rmax (g1 s - g2 s) 0) (g3 s) in
          let yc := Rmax (g1 s - (g2 s + g3 s)) 0 in
          g5 s * ya ^ 2 + (2 * g5 s * ya + g6 s * yb) * yb
          + (2 * g5 s * ya + 2 * g6 s * yb + g4 s * yc) * yc + g7 s * g1 s
  | _ => 0
  end.

(** Length of the horizontal chord of the section at height y above its bottom. *)
Definition chord (s : section) (y : R) : R :=
  match shape s with
  | 1%nat => 2 * sqrt (y * (g1 s - y))
  | 2%nat | 3%nat | 8%nat => g2 s
  | 4%nat => 2 * g2 s * y
  | 5%nat => g2 s + 2 * g3 s * y
  | 6%nat => g2 s * sqrt (y / g1 s)
  | 7%nat => g2 s * sqrt (1 - ((y - g1 s / 2) / (g1 s / 2)) ^ 2)
  | 10%nat => g7 s + 2 * g5 s * Rmin y (g2 s) + 2 * g6 s * Rmin (Rmax (y - g2 s) 0) (g3 s)
          + 2 * g4 s * Rmax (y - (g2 s + g3 s)) 0
  | _ => 0
  end.

(** Length of the wetted boundary at depth y (0 <= y <= g1); sides of slope m have length sqrt(y^2 + (m y)^2).
    Of a closed rectangle only bottom and sides count; a force main is always full. *)
Definition side (m y : R) : R := sqrt (y ^ 2 + (m * y) ^ 2).
Definition wetted_perimeter (s : section) (y P : R) : Prop :=
  match shape s with
  | 1%nat => exists angle, 0 <= angle <= PI /\ cos angle = (g1 s / 2 - y) / (g1 s / 2) /\ P = 2 * (g1 s / 2 * angle)
  | 2%nat | 3%nat => P = g2 s + 2 * y
  | 4%nat => P = 2 * side (g2 s) y
  | 5%nat => P = g2 s + 2 * side (g3 s) y
  | 8%nat => P = g2 s
  | 9%nat => P = PI * g1 s
  | 10%nat => P = 2 * side (g5 s) (Rmin y (g2 s)) + 2 * side (g6 s) (Rmin (Rmax (y - g2 s) 0) (g3 s))
              + 2 * side (g4 s) (Rmax (y - (g2 s + g3 s)) 0) + (if Rlt_dec 0 y then g7 s else 0)
  | _ => 0 <= P
  end.

(** Depth of water in the section: mean of the end depths, between empty and full. *)
Definition depth_in (s : section) (h0 h1 : R) : R := Rmin (Rmax ((h0 + h1) / 2) 0) (g1 s).
