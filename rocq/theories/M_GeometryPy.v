(** Model of the cross-section classes of pipedream_solver/geometry.py, which work on whole arrays.
    Arrays are total maps; NumPy's division by zero (a warning, then inf or nan) is the total division of the reals, so the
    theorems ask for dimensions that are not 0. *)
From Verif Require Import Prelude M_Coeffs M_Geometry.
From Coq Require Import List.
Import ListNotations.

Definition arr : Type := nat -> R.
(** [a[c] = v[c]]: entries selected by the mask [c] are replaced. *)
Definition put (c : nat -> bool) (v a : arr) : arr := fun i => if c i then v i else a i.
(** [y = (h_Ik + h_Ip1k) / 2; y[y < 0] = 0] *)
Definition depths (h0 h1 : arr) : arr :=
  let y := fun i => (h0 i + h1 i) / 2 in put (fun i => Rltb (y i) 0) (fun _ => 0) y.
(** [y[y > y_max] = y_max[y > y_max]] *)
Definition capped (ymax y : arr) : arr := put (fun i => Rltb (ymax i) (y i)) ymax y.
(** [R_ik] of every class except Floodplain and Irregular (geometry.py:78-92, 177-191, 274-288, 364-378, 465-479,
    565-579, 666-680, 760-774, 842-856): [R = zeros; R[cond] = A[cond] / Pe[cond]]. *)
Definition array_R_ik (A Pe : arr) : arr := put (fun i => Rltb 0 (Pe i)) (fun i => A i / Pe i) (fun _ => 0).

(** geometry.py:39-43, 70-74, 112-116: [phi] limited to [0, 2] and [theta]. *)
Definition array_theta (d y : arr) : arr :=
  let phi := fun i => y i / (d i / 2) in
  let phi := put (fun i => Rltb (phi i) 0) (fun _ => 0) phi in
  let phi := put (fun i => Rltb 2 (phi i)) (fun _ => 2) phi in
  fun i => acos (1 - phi i).
(** geometry.py:25-46 *)
Definition CircularPy_A_ik (h0 h1 g1 : arr) : arr :=
  let theta := array_theta g1 (capped g1 (depths h0 h1)) in
  fun i => (g1 i / 2) ^ 2 * (theta i - cos (theta i) * sin (theta i)).
(** 49-75 *)
Definition CircularPy_Pe_ik (h0 h1 g1 : arr) : arr :=
  let theta := array_theta g1 (capped g1 (depths h0 h1)) in fun i => 2 * (g1 i / 2) * theta i.
(** 95-122; [pslot] is a keyword with default 0.001 *)
Definition CircularPy_B_ik (pslot : R) (h0 h1 g1 : arr) : arr :=
  let y := depths h0 h1 in
  let theta := array_theta g1 y in
  let cond := fun i => Rltb (y i) (g1 i) in
  let B := put (fun i => negb (cond i)) (fun i => pslot * g1 i) (fun _ => 0) in
  put cond (fun i => 2 * (g1 i / 2) * sin (theta i)) B.

(** 129-150, 153-174, 194-219 *)
Definition Rect_ClosedPy_A_ik (h0 h1 g1 g2 : arr) : arr := fun i => capped g1 (depths h0 h1) i * g2 i.
Definition Rect_ClosedPy_Pe_ik (h0 h1 g1 g2 : arr) : arr := fun i => g2 i + 2 * capped g1 (depths h0 h1) i.
Definition Rect_ClosedPy_B_ik (pslot : R) (h0 h1 g1 g2 : arr) : arr :=
  let y := depths h0 h1 in
  let cond := fun i => Rltb (y i) (g1 i) in
  put cond g2 (put (fun i => negb (cond i)) (fun i => pslot * g2 i) (fun _ => 0)).

(** 226-247, 250-271, 291-308 *)
Definition Rect_OpenPy_A_ik (h0 h1 g1 g2 : arr) : arr := fun i => capped g1 (depths h0 h1) i * g2 i.
Definition Rect_OpenPy_Pe_ik (h0 h1 g1 g2 : arr) : arr := fun i => g2 i + 2 * capped g1 (depths h0 h1) i.
Definition Rect_OpenPy_B_ik (h0 h1 g1 g2 : arr) : arr := g2.

(** 316-337, 340-361, 381-404 *)
Definition TriangularPy_A_ik (h0 h1 g1 g2 : arr) : arr := fun i => g2 i * capped g1 (depths h0 h1) i ^ 2.
Definition TriangularPy_Pe_ik (h0 h1 g1 g2 : arr) : arr :=
  fun i => 2 * capped g1 (depths h0 h1) i * sqrt (1 + g2 i ^ 2).
Definition TriangularPy_B_ik (h0 h1 g1 g2 : arr) : arr :=
  let y := depths h0 h1 in
  let cond := fun i => Rltb (y i) (g1 i) in
  put cond (fun i => 2 * g2 i * y i) (put (fun i => negb (cond i)) (fun i => 2 * g2 i * g1 i) (fun _ => 0)).

(** 411-435, 438-462, 482-509 *)
Definition TrapezoidalPy_A_ik (h0 h1 g1 g2 g3 : arr) : arr :=
  let y := capped g1 (depths h0 h1) in fun i => y i * (g2 i + g3 i * y i).
Definition TrapezoidalPy_Pe_ik (h0 h1 g1 g2 g3 : arr) : arr :=
  let y := capped g1 (depths h0 h1) in fun i => g2 i + 2 * y i * sqrt (1 + g3 i ^ 2).
Definition TrapezoidalPy_B_ik (h0 h1 g1 g2 g3 : arr) : arr :=
  let y := depths h0 h1 in
  let cond := fun i => Rltb (y i) (g1 i) in
  put cond (fun i => g2 i + 2 * g3 i * y i)
    (put (fun i => negb (cond i)) (fun i => g2 i + 2 * g3 i * g1 i) (fun _ => 0)).

(** 516-537, 540-562, 582-602 *)
Definition ParabolicPy_A_ik (h0 h1 g1 g2 : arr) : arr := fun i => 2 * g2 i * capped g1 (depths h0 h1) i / 3.
Definition ParabolicPy_Pe_ik (h0 h1 g1 g2 : arr) : arr :=
  let y := fun i => (h0 i + h1 i) / 2 in
  let y := put (fun i => Rleb (y i) 0) (fun _ => geom_eps) y in
  let y := capped g1 y in
  let x := fun i => 4 * y i / g2 i in
  fun i => g2 i / 2 * (sqrt (1 + x i ^ 2) + 1 / x i * ln (x i + sqrt (1 + x i ^ 2))).
Definition ParabolicPy_B_ik (h0 h1 g1 g2 : arr) : arr := fun i => g2 i * sqrt (depths h0 h1 i / g1 i).

(** 609-634, 683-707 (the perimeter, 637-663, is an elliptic integral of SciPy and is not modelled) *)
Definition EllipticalPy_A_ik (h0 h1 g1 g2 : arr) : arr :=
  let b := fun i => g1 i / 2 in let a := fun i => g2 i / 2 in
  let y := capped g1 (depths h0 h1) in
  let theta := fun i => asin ((y i - b i) / b i) in
  fun i => a i * b i * (PI / 2 + theta i) + a i * b i * cos (theta i) * sin (theta i).
Definition EllipticalPy_B_ik (h0 h1 g1 g2 : arr) : arr :=
  let b := fun i => g1 i / 2 in let a := fun i => g2 i / 2 in
  let y := capped g1 (depths h0 h1) in
  let theta := fun i => asin ((y i - b i) / b i) in
  fun i => 2 * cos (theta i) * sqrt (a i ^ 2 * cos (theta i) ^ 2 + b i ^ 2 * sin (theta i) ^ 2).

(** 715-736, 739-757, 777-794 *)
Definition WidePy_A_ik (h0 h1 g1 g2 : arr) : arr := fun i => capped g1 (depths h0 h1) i * g2 i.
Definition WidePy_Pe_ik (h0 h1 g1 g2 : arr) : arr := g2.
Definition WidePy_B_ik (h0 h1 g1 g2 : arr) : arr := g2.

(** 801-819, 822-839, 859-877 *)
Definition Force_MainPy_A_ik (h0 h1 g1 g2 : arr) : arr := fun i => PI * (g1 i / 2) ^ 2.
Definition Force_MainPy_Pe_ik (h0 h1 g1 g2 : arr) : arr := fun i => PI * g1 i.
Definition Force_MainPy_B_ik (h0 h1 g1 g2 : arr) : arr := fun i => g1 i * g2 i.

(** Area, perimeter, radius and width of the class of a shape code (geometry.py:5-16), for arrays of depths and
    dimensions; [pslot] is what the caller passes.  [None]: Floodplain (geometry.py:880-897) raises NotImplementedError,
    and there is no class for other codes.  The perimeter of an ellipse is [pe7]. *)
Record array_geom := { ag_A : arr; ag_Pe : arr; ag_R : arr; ag_B : arr }.
Definition class_geometry (code : nat) (pslot : R) (pe7 : arr) (h0 h1 g1 g2 g3 : arr) : option array_geom :=
  let mk a pe b := Some {| ag_A := a; ag_Pe := pe; ag_R := array_R_ik a pe; ag_B := b |} in
  match code with
  | 1 => mk (CircularPy_A_ik h0 h1 g1) (CircularPy_Pe_ik h0 h1 g1) (CircularPy_B_ik pslot h0 h1 g1)
  | 2 => mk (Rect_ClosedPy_A_ik h0 h1 g1 g2) (Rect_ClosedPy_Pe_ik h0 h1 g1 g2) (Rect_ClosedPy_B_ik pslot h0 h1 g1 g2)
  | 3 => mk (Rect_OpenPy_A_ik h0 h1 g1 g2) (Rect_OpenPy_Pe_ik h0 h1 g1 g2) (Rect_OpenPy_B_ik h0 h1 g1 g2)
  | 4 => mk (TriangularPy_A_ik h0 h1 g1 g2) (TriangularPy_Pe_ik h0 h1 g1 g2) (TriangularPy_B_ik h0 h1 g1 g2)
  | 5 => mk (TrapezoidalPy_A_ik h0 h1 g1 g2 g3) (TrapezoidalPy_Pe_ik h0 h1 g1 g2 g3)
            (TrapezoidalPy_B_ik h0 h1 g1 g2 g3)
  | 6 => mk (ParabolicPy_A_ik h0 h1 g1 g2) (ParabolicPy_Pe_ik h0 h1 g1 g2) (ParabolicPy_B_ik h0 h1 g1 g2)
  | 7 => mk (EllipticalPy_A_ik h0 h1 g1 g2) pe7 (EllipticalPy_B_ik h0 h1 g1 g2)
  | 8 => mk (WidePy_A_ik h0 h1 g1 g2) (WidePy_Pe_ik h0 h1 g1 g2) (WidePy_B_ik h0 h1 g1 g2)
  | 9 => mk (Force_MainPy_A_ik h0 h1 g1 g2) (Force_MainPy_Pe_ik h0 h1 g1 g2) (Force_MainPy_B_ik h0 h1 g1 g2)
  | _ => None
  end%nat.

(** ** Surveyed sections (geometry.py:901-1020) *)

(** [scipy.interpolate.interp1d] (linear) over points in the order of their abscissae: outside of them it raises. *)
Fixpoint interp1d (t : list (R * R)) (v : R) : option R :=
  match t with
  | p0 :: ((p1 :: _) as t') =>
      if Rltb v (fst p0) then None
      else if Rleb v (fst p1) then Some (snd p0 + (snd p1 - snd p0) / (fst p1 - fst p0) * (v - fst p0))
      else interp1d t' v
  | _ => None
  end.

(** [np.linspace(lo, hi, n)] and its step, for n of at least 2 *)
Definition spacing (lo hi : R) (n : nat) : R := (hi - lo) / INR (n - 1).
Definition linspace (lo hi : R) (n : nat) : arr := fun i => lo + INR i * spacing lo hi n.

(** [np.maximum(h - yy, 0)] *)
Definition wet (yy : arr) (h : R) : arr := fun i => Rmax (h - yy i) 0.
(** geometry.py:957-971 [A_ik_lut], one depth: [np.trapz(hh, xx)] *)
Definition A_ik_lut (n : nat) (xx yy : arr) (h : R) : R :=
  sum_n (fun i => (xx (S i) - xx i) * (wet yy h (S i) + wet yy h i) / 2) (n - 1).
(** [np.gradient] of one row: differences between neighbours, one-sided at the ends *)
Definition gradient (n : nat) (a : arr) : arr := fun i =>
  if Nat.eqb i 0 then a 1%nat - a O
  else if Nat.eqb (S i) n then a i - a (i - 1)%nat
  else (a (S i) - a (i - 1)%nat) / 2.
(** geometry.py:973-992 [Pe_ik_lut], one depth *)
Definition Pe_ik_lut (n : nat) (xstep : R) (yy : arr) (h : R) : R :=
  let hh := wet yy h in
  let dh := gradient n hh in
  let dx := put (fun i => Rltb 0 (hh i)) (fun _ => xstep) (fun _ => 0) in
  sum_n (fun i => sqrt (dx i ^ 2 + dh i ^ 2)) n.
(** geometry.py:1003-1020 [B_ik_lut], one depth of an array: [hh = h >= yy] *)
Definition B_ik_lut (n : nat) (xstep : R) (yy : arr) (h : R) : R :=
  sum_n (put (fun i => Rleb (yy i) h) (fun _ => xstep) (fun _ => 0)) n.

(** [ndarray.min()], [ndarray.max()] of the points of the survey *)
Fixpoint least (v : R) (l : list R) : R := match l with [] => v | w :: l => least (Rmin v w) l end.
Fixpoint greatest (v : R) (l : list R) : R := match l with [] => v | w :: l => greatest (Rmax v w) l end.

(** Attributes of an object of class Irregular that its methods read. *)
Record survey := { sv_ymin : R; sv_ymax : R; sv_width : R; sv_A : list (R * R); sv_Pe : list (R * R); sv_R : list (R * R);
                   sv_B : list (R * R) }.

(** geometry.py:902-923, for a survey (x, y) with x in ascending order (interp1d sorts), [n] horizontal and [m] vertical
    points.  [None]: min() of an empty array raises.  [yy] are the samples the interpolator returns; they exist since
    xmin <= xx <= xmax (see [samples_exist] in P_GeometryPy). *)
Definition sample (t : list (R * R)) (xx : arr) : arr := fun i => match interp1d t (xx i) with Some y => y | None => 0 end.
Definition Irregular_init (t : list (R * R)) (n m : nat) : option survey :=
  match t with
  | [] => None
  | p :: t' =>
      let ymin := least (snd p) (map snd t') in
      let ymax := greatest (snd p) (map snd t') in
      let xmin := least (fst p) (map fst t') in
      let xmax := greatest (fst p) (map fst t') in
      let xx := linspace xmin xmax n in
      let xstep := spacing xmin xmax n in
      let yy := sample t xx in
      let h := linspace ymin ymax m in
      let A := fun j => A_ik_lut n xx yy (h j) in
      let Pe := fun j => Pe_ik_lut n xstep yy (h j) in
      let R := array_R_ik A Pe in
      let B := fun j => B_ik_lut n xstep yy (h j) in
      let tab f := map (fun j => (h j, f j)) (seq 0 m) in
      Some {| sv_ymin := ymin; sv_ymax := ymax; sv_width := xmax - xmin;
              sv_A := tab A; sv_Pe := tab Pe; sv_R := tab R; sv_B := tab B |}
  end.

(** geometry.py:925-955: the four methods differ only in the table. *)
Definition look_up (tab : list (R * R)) (ymax h0 h1 : R) : option R :=
  let y := (h0 + h1) / 2 in
  let y := if Rltb y 0 then 0 else y in
  let y := if Rltb ymax y then ymax else y in
  interp1d tab y.
