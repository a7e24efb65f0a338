(** Model of cross-section geometry (pipedream_solver/ngeometry.py 19-1112) and of its dispatch in
    pipedream_solver/nsuperlink.py (385-389, 1702-1772, 1779-1850, 1856-1883).
    A scalar division by zero inside a compiled function raises ZeroDivisionError: result [None].
    [np.arccos], [np.arcsin], [np.sqrt], [np.log] are the real functions. *)
From Verif Require Import Prelude M_Coeffs.

(** ngeometry.py:19 [eps = np.finfo(float).eps] = 2^-52 *)
Definition geom_eps : R := / 2 ^ 52.

(** The lines [y = (h_Ik + h_Ip1k) / 2; if y < 0: y = 0; if y > top: y = top] shared by the functions below. *)
Definition mid (h0 h1 : R) : R := (h0 + h1) / 2.
Definition floor0 (y : R) : R := if Rltb y 0 then 0 else y.
Definition cap (top y : R) : R := if Rltb top y then top else y.

(** All [*_R_ik] functions (85, 197, 304, 400, 510, 617, 693, 792, 876, 1047) have the same body. *)
Definition R_ik (A Pe : R) : R := if Rltb 0 Pe then A / Pe else 0.

(** ngeometry.py:42-48, 73-79, 126-132: the angle [theta]. *)
Definition circle_theta (d y : R) : option R :=
  do phi <- div y (d / 2);
  let phi := if Rltb phi 0 then 0 else phi in
  let phi := if Rltb 2 phi then 2 else phi in
  Some (acos (1 - phi)).
(** 23-50 *)
Definition Circular_A_ik (h0 h1 g1 : R) : option R :=
  let d := g1 in
  let y := cap d (floor0 (mid h0 h1)) in
  let r := d / 2 in
  do theta <- circle_theta d y;
  Some (r ^ 2 * (theta - cos theta * sin theta)).
(** 54-81 *)
Definition Circular_Pe_ik (h0 h1 g1 : R) : option R :=
  let d := g1 in
  let y := cap d (floor0 (mid h0 h1)) in
  let r := d / 2 in
  do theta <- circle_theta d y;
  Some (2 * r * theta).
(** 105-138 *)
Definition Circular_B_ik (h0 h1 g1 g2 : R) : option R :=
  let d := g1 in
  let pslot := g2 in
  let y := floor0 (mid h0 h1) in
  let r := d / 2 in
  do theta <- circle_theta d y;
  Some (if Rltb y d then 2 * r * sin theta else pslot * d).

(** 143-166, 170-193, 217-245 *)
Definition Rect_Closed_A_ik (h0 h1 g1 g2 : R) : R := cap g1 (floor0 (mid h0 h1)) * g2.
Definition Rect_Closed_Pe_ik (h0 h1 g1 g2 : R) : R := g2 + 2 * cap g1 (floor0 (mid h0 h1)).
Definition Rect_Closed_B_ik (h0 h1 g1 g2 g3 : R) : R :=
  if Rltb (floor0 (mid h0 h1)) g1 then g2 else g3 * g2.

(** 250-273, 277-300, 324-341 *)
Definition Rect_Open_A_ik (h0 h1 g1 g2 : R) : R := cap g1 (floor0 (mid h0 h1)) * g2.
Definition Rect_Open_Pe_ik (h0 h1 g1 g2 : R) : R := g2 + 2 * cap g1 (floor0 (mid h0 h1)).
Definition Rect_Open_B_ik (h0 h1 g1 g2 : R) : R := g2.

(** 346-369, 373-396, 420-445 *)
Definition Triangular_A_ik (h0 h1 g1 g2 : R) : R := g2 * cap g1 (floor0 (mid h0 h1)) ^ 2.
Definition Triangular_Pe_ik (h0 h1 g1 g2 : R) : R := 2 * cap g1 (floor0 (mid h0 h1)) * sqrt (1 + g2 ^ 2).
Definition Triangular_B_ik (h0 h1 g1 g2 : R) : R :=
  let y := floor0 (mid h0 h1) in
  if Rltb y g1 then 2 * g2 * y else 2 * g2 * g1.

(** 450-476, 480-506, 530-558 *)
Definition Trapezoidal_A_ik (h0 h1 g1 g2 g3 : R) : R :=
  let y := cap g1 (floor0 (mid h0 h1)) in y * (g2 + g3 * y).
Definition Trapezoidal_Pe_ik (h0 h1 g1 g2 g3 : R) : R :=
  g2 + 2 * cap g1 (floor0 (mid h0 h1)) * sqrt (1 + g3 ^ 2).
Definition Trapezoidal_B_ik (h0 h1 g1 g2 g3 : R) : R :=
  let y := floor0 (mid h0 h1) in
  if Rltb y g1 then g2 + 2 * g3 * y else g2 + 2 * g3 * g1.

(** 562-585, 589-613, 637-658 *)
Definition Parabolic_A_ik (h0 h1 g1 g2 : R) : R := 2 * g2 * cap g1 (floor0 (mid h0 h1)) / 3.
Definition Parabolic_Pe_ik (h0 h1 g1 g2 : R) : option R :=
  let y := mid h0 h1 in
  let y := cap g1 (if Rleb y 0 then geom_eps else y) in
  do x <- div (4 * y) g2;
  do ix <- div 1 x;
  Some (g2 / 2 * (sqrt (1 + x ^ 2) + ix * ln (x + sqrt (1 + x ^ 2)))).
Definition Parabolic_B_ik (h0 h1 g1 g2 : R) : option R :=
  do q <- div (floor0 (mid h0 h1)) g1;
  Some (g2 * sqrt q).

(** 662-689, 713-739 *)
Definition Elliptical_A_ik (h0 h1 g1 g2 : R) : option R :=
  let b := g1 / 2 in
  let a := g2 / 2 in
  let y := cap g1 (floor0 (mid h0 h1)) in
  do q <- div (y - b) b;
  let theta := asin q in
  Some (a * b * (PI / 2 + theta) + a * b * cos theta * sin theta).
Definition Elliptical_B_ik (h0 h1 g1 g2 : R) : option R :=
  let b := g1 / 2 in
  let a := g2 / 2 in
  let y := cap g1 (floor0 (mid h0 h1)) in
  do q <- div (y - b) b;
  let theta := asin q in
  Some (2 * cos theta * sqrt (a ^ 2 * cos theta ^ 2 + b ^ 2 * sin theta ^ 2)).

(** 744-767, 771-788, 812-829 *)
Definition Wide_A_ik (h0 h1 g1 g2 : R) : R := cap g1 (floor0 (mid h0 h1)) * g2.
Definition Wide_Pe_ik (h0 h1 g1 g2 : R) : R := g2.
Definition Wide_B_ik (h0 h1 g1 g2 : R) : R := g2.

(** 833-851, 855-872, 896-914 *)
Definition Force_Main_A_ik (h0 h1 g1 g2 : R) : R := PI * (g1 / 2) ^ 2.
Definition Force_Main_Pe_ik (h0 h1 g1 g2 : R) : R := PI * g1.
Definition Force_Main_B_ik (h0 h1 g1 g2 : R) : R := g2 * g1.

(** [(y > 0)] used as a number *)
Definition num (b : bool) : R := if b then 1 else 0.
(** 918-980; the last [elif] (y >= h_mid) is written [else]: it can only fail for h_mid > y >= h_low, the previous case. *)
Definition Floodplain_A_ik (h0 h1 g1 g2 g3 g4 g5 g6 g7 : R) : R :=
  let h_low := g2 in
  let h_mid := g2 + g3 in
  let m_top := g4 in let m_base := g5 in let m_middle := g6 in
  let y := cap g1 (floor0 (mid h0 h1)) in
  let '(y_base, y_middle, y_top, b_middle, b_top) :=
    if Rltb y h_low then (y, 0, 0, 0, 0)
    else if (Rleb h_low y && Rltb y h_mid)%bool then (h_low, y - h_low, 0, 2 * m_base * h_low, 0)
    else (h_low, h_mid - h_low, y - h_mid, 2 * m_base * h_low,
          2 * m_base * h_low + 2 * m_middle * (h_mid - h_low)) in
  let A_base := y_base * (m_base * y_base) in
  let A_middle := y_middle * (b_middle + m_middle * y_middle) in
  let A_top := y_top * (b_top + m_top * y_top) in
  A_base + A_middle + A_top + g7 * y * num (Rltb 0 y).
(** 985-1043 (its [b_middle], [b_top] are never used) *)
Definition Floodplain_Pe_ik (h0 h1 g1 g2 g3 g4 g5 g6 g7 : R) : R :=
  let h_low := g2 in
  let h_mid := g2 + g3 in
  let m_top := g4 in let m_base := g5 in let m_middle := g6 in
  let y := cap g1 (floor0 (mid h0 h1)) in
  let '(y_base, y_middle, y_top) :=
    if Rltb y h_low then (y, 0, 0)
    else if (Rleb h_low y && Rltb y h_mid)%bool then (h_low, y - h_low, 0)
    else (h_low, h_mid - h_low, y - h_mid) in
  2 * y_base * sqrt (1 + m_base ^ 2) + 2 * y_middle * sqrt (1 + m_middle ^ 2)
  + 2 * y_top * sqrt (1 + m_top ^ 2) + g7 * num (Rltb 0 y).
(** 1067-1112 *)
Definition Floodplain_B_ik (h0 h1 g1 g2 g3 g4 g5 g6 g7 : R) : R :=
  let h_low := g2 in
  let h_mid := g2 + g3 in
  let m_top := g4 in let m_base := g5 in let m_middle := g6 in
  let y := cap g1 (floor0 (mid h0 h1)) in
  if Rltb y h_low then 2 * m_base * y + g7 * num (Rltb 0 y)
  else if (Rleb h_low y && Rltb y h_mid)%bool then
    2 * m_base * h_low + 2 * m_middle * (y - h_low) + g7 * num (Rltb 0 y)
  else 2 * m_base * h_low + 2 * m_middle * (h_mid - h_low) + 2 * m_top * (y - h_mid) + g7 * num (Rltb 0 y).

(** One row of the superlink table: shape code (ngeometry.py:6-17) and dimensions g1..g7. *)
Record section := { shape : nat; g1 : R; g2 : R; g3 : R; g4 : R; g5 : R; g6 : R; g7 : R }.

(** nsuperlink.py:385-389: default Preissmann slots. *)
Definition default_slots (s : section) : section :=
  let slot x := if Reqb x 0 then / 1000 else x in
  {| shape := shape s; g1 := g1 s;
     g2 := if (Nat.eqb (shape s) 1 || Nat.eqb (shape s) 9)%bool then slot (g2 s) else g2 s;
     g3 := if Nat.eqb (shape s) 2 then slot (g3 s) else g3 s;
     g4 := g4 s; g5 := g5 s; g6 := g6 s; g7 := g7 s |}.

Record geom := { gm_A : R; gm_Pe : R; gm_R : R; gm_B : R }.

(** nsuperlink.py:1702-1772 [numba_hydraulic_geometry] and 1779-1850 [numba_boundary_geometry], one entry.
    [old] is what the arrays held; code 0 and unknown codes change nothing; code 7 keeps the old perimeter. *)
Definition hydraulic_geometry (s : section) (h0 h1 : R) (old : geom) : option geom :=
  let mk a pe b := Some {| gm_A := a; gm_Pe := pe; gm_R := R_ik a pe; gm_B := b |} in
  match shape s with
  | 1 => do a <- Circular_A_ik h0 h1 (g1 s);
         do pe <- Circular_Pe_ik h0 h1 (g1 s);
         do b <- Circular_B_ik h0 h1 (g1 s) (g2 s);
         mk a pe b
  | 2 => mk (Rect_Closed_A_ik h0 h1 (g1 s) (g2 s)) (Rect_Closed_Pe_ik h0 h1 (g1 s) (g2 s))
            (Rect_Closed_B_ik h0 h1 (g1 s) (g2 s) (g3 s))
  | 3 => mk (Rect_Open_A_ik h0 h1 (g1 s) (g2 s)) (Rect_Open_Pe_ik h0 h1 (g1 s) (g2 s))
            (Rect_Open_B_ik h0 h1 (g1 s) (g2 s))
  | 4 => mk (Triangular_A_ik h0 h1 (g1 s) (g2 s)) (Triangular_Pe_ik h0 h1 (g1 s) (g2 s))
            (Triangular_B_ik h0 h1 (g1 s) (g2 s))
  | 5 => mk (Trapezoidal_A_ik h0 h1 (g1 s) (g2 s) (g3 s)) (Trapezoidal_Pe_ik h0 h1 (g1 s) (g2 s) (g3 s))
            (Trapezoidal_B_ik h0 h1 (g1 s) (g2 s) (g3 s))
  | 6 => do pe <- Parabolic_Pe_ik h0 h1 (g1 s) (g2 s);
         do b <- Parabolic_B_ik h0 h1 (g1 s) (g2 s);
         mk (Parabolic_A_ik h0 h1 (g1 s) (g2 s)) pe b
  | 7 => do a <- Elliptical_A_ik h0 h1 (g1 s) (g2 s);
         do b <- Elliptical_B_ik h0 h1 (g1 s) (g2 s);
         mk a (gm_Pe old) b
  | 8 => mk (Wide_A_ik h0 h1 (g1 s) (g2 s)) (Wide_Pe_ik h0 h1 (g1 s) (g2 s)) (Wide_B_ik h0 h1 (g1 s) (g2 s))
  | 9 => mk (Force_Main_A_ik h0 h1 (g1 s) (g2 s)) (Force_Main_Pe_ik h0 h1 (g1 s) (g2 s))
            (Force_Main_B_ik h0 h1 (g1 s) (g2 s))
  | 10 => mk (Floodplain_A_ik h0 h1 (g1 s) (g2 s) (g3 s) (g4 s) (g5 s) (g6 s) (g7 s))
             (Floodplain_Pe_ik h0 h1 (g1 s) (g2 s) (g3 s) (g4 s) (g5 s) (g6 s) (g7 s))
             (Floodplain_B_ik h0 h1 (g1 s) (g2 s) (g3 s) (g4 s) (g5 s) (g6 s) (g7 s))
  | _ => Some old
  end%nat.

(** nsuperlink.py:1856-1883 [numba_orifice_geometry], one orifice with opening [u] and effective depth [he]. *)
Definition orifice_geometry (c : nat) (u he d1 d2 d3 A_old : R) : option R :=
  match c with
  | 1 => Circular_A_ik he he (d1 * u)
  | 2 => Some (Rect_Closed_A_ik he he (d1 * u) d2)
  | 3 => Some (Rect_Open_A_ik he he (d1 * u) d2)
  | 4 => Some (Triangular_A_ik he he (d1 * u) d2)
  | 5 => Some (Trapezoidal_A_ik he he (d1 * u) d2 d3)
  | 6 => Some (Parabolic_A_ik he he (d1 * u) d2)
  | 7 => Elliptical_A_ik he he (d1 * u) d2
  | 8 => Some (Wide_A_ik he he (d1 * u) d2)
  | 9 => Some (Force_Main_A_ik he he (d1 * u) d2)
  | _ => Some A_old
  end%nat.

(** nsuperlink.py:638-664: effective depth at an orifice. *)
Definition orifice_depth (H_u H_d z_inv_u z_o : R) : R := Rmax H_u H_d - z_inv_u - z_o.
