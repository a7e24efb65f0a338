(** Model of pipedream_solver/visualization.py: what is drawn, as lists of points.  Colours, widths and other keyword arguments
    that are handed on to matplotlib, and the creation of figures and axes, are left out. *)
From Coq Require Import Arith List.
From Verif Require Import Prelude.
Import ListNotations.
Local Open Scope R_scope.

Definition point : Type := (R * R)%type.
Definition shape : Type := list point.

(** What the functions read from the model.  Superjunctions 0..M-1, superlinks 0..K-1; superlink k has [v_nk k] links and the
    internal junctions [v_I1 k] .. [v_I1 k + v_nk k]; [v_x] their positions ([_x_Ik]), [v_len] the sums of link lengths ([_dx_k]). *)
Record view : Type := mkView {
  v_M : nat; v_K : nat; v_sj0 : nat -> nat; v_sj1 : nat -> nat; v_nk : nat -> nat; v_I1 : nat -> nat;
  v_x : arr; v_z : arr; v_h : arr; v_len : arr; v_zj : arr; v_H : arr; v_mx : arr; v_my : arr }.

(** numpy's [min] and [max] over the entries 0..n. *)
Fixpoint min_upto (f : arr) (n : nat) : R := match n with O => f O | S m => Rmin (min_upto f m) (f n) end.
Fixpoint max_upto (f : arr) (n : nat) : R := match n with O => f O | S m => Rmax (max_upto f m) (f n) end.

Section Profile.
Variable v : view.

(** Internal junction j of superlink k: position and surface (visualization.py:29-39). *)
Definition at_x (k j : nat) (off : R) : R := v_x v (v_I1 v k + j)%nat + off.
Definition at_z (k j : nat) : R := v_z v (v_I1 v k + j)%nat.
Definition at_s (k j : nat) : R := v_z v (v_I1 v k + j)%nat + v_h v (v_I1 v k + j)%nat.

(** visualization.py:28-47 [_plot_superlink_profile]: the bed, and one polygon for the water in each link. *)
Definition superlink_bed (k : nat) (off : R) : shape := map (fun j => (at_x k j off, at_z k j)) (seq 0 (S (v_nk v k))).
Definition link_water (k : nat) (off : R) (j : nat) : shape :=
  [(at_x k j off, at_z k j); (at_x k j off, at_s k j); (at_x k (S j) off, at_s k (S j)); (at_x k (S j) off, at_z k (S j))].
Definition superlink_water (k : nat) (off : R) : list shape := map (link_water k off) (seq 0 (v_nk v k)).

(** visualization.py:49-59 [_plot_superjunction_profile]. *)
Definition superjunction_bed (j : nat) (off width : R) : shape := [(off, v_zj v j); (off + width, v_zj v j)].
Definition superjunction_water (j : nat) (off width : R) : shape :=
  [(off, v_zj v j); (off, v_H v j); (off + width, v_H v j); (off + width, v_zj v j)].

(** visualization.py:65-68: the dictionary from pairs of superjunctions to superlinks; a later superlink replaces an earlier one. *)
Definition superlink_of (a b : nat) : option nat :=
  for_n (v_K v) (fun k acc => if (Nat.eqb (v_sj0 v k) a && Nat.eqb (v_sj1 v k) b)%bool then Some k else acc) None.

(** The figure: polygons of water in the order of drawing, bed lines, the offset reached and the vertical range. *)
Record figure : Type := mkFigure { g_water : list shape; g_beds : list shape; g_off : R; g_lo : R; g_hi : R }.

(** visualization.py:74-90: one pair of superjunctions on the path. *)
Definition draw_pair (width : R) (f : figure) (key : nat * nat) : figure :=
  let '(j0, j1) := key in
  let off := g_off f + width in
  let water := (g_water f ++ [superjunction_water j0 (g_off f) width])%list in
  let beds := (g_beds f ++ [superjunction_bed j0 (g_off f) width])%list in
  match superlink_of j0 j1 with
  | None => mkFigure water beds off (g_lo f) (g_hi f)
  | Some k =>
      let zmin := min_upto (at_z k) (v_nk v k) in
      let hmax := max_upto (at_s k) (v_nk v k) in
      mkFigure (water ++ superlink_water k off) (beds ++ [superlink_bed k off]) (off + v_len v k)
        (Rmin (Rmin (Rmin (g_lo f) (v_zj v j0)) (v_zj v j1)) zmin) (Rmax (Rmax (Rmax (g_hi f) (v_H v j0)) (v_H v j1)) hmax)
  end.
(** visualization.py:69: consecutive pairs of the path. *)
Fixpoint pairs (js : list nat) : list (nat * nat) :=
  match js with a :: ((b :: _) as l) => (a, b) :: pairs l | _ => [] end.
(** visualization.py:61-100 [plot_profile].  For fewer than two superjunctions the name j1 is unbound when the last one is drawn:
    the call raises ([None]).  The axes reach 2% beyond [0, g_off] and [g_lo, g_hi] (lines 95-98). *)
Definition plot_profile (js : list nat) (width : R) : option figure :=
  match js with
  | a :: b :: _ =>
      let f0 := mkFigure [] [] 0 (max_upto (v_H v) (v_M v - 1)) (min_upto (v_H v) (v_M v - 1)) in
      let f := fold_left (draw_pair width) (pairs js) f0 in
      let j1 := last js 0%nat in
      Some (mkFigure (g_water f ++ [superjunction_water j1 (g_off f) width]) (g_beds f ++ [superjunction_bed j1 (g_off f) width])
              (g_off f + width) (g_lo f) (g_hi f))
  | _ => None
  end.
Definition x_limits (f : figure) : R * R := (0 - 2/100 * g_off f, g_off f + 2/100 * g_off f).
Definition y_limits (f : figure) : R * R := (g_lo f - 2/100 * (g_hi f - g_lo f), g_hi f + 2/100 * (g_hi f - g_lo f)).

(** visualization.py:116-118 and 170, 176-177: where internal junction j of superlink k stands on the map of plot_network_2d and
    plot_network_3d.  [_J_uk], [_J_dk] are the columns sj_0, sj_1 of the superlinks table. *)
Definition fraction (k j : nat) : R := v_x v (v_I1 v k + j)%nat / v_len v k.
Definition on_map (m : arr) (k j : nat) : R := fraction k j * (m (v_sj1 v k) - m (v_sj0 v k)) + m (v_sj0 v k).
Definition map_position (k j : nat) : point := (on_map (v_mx v) k j, on_map (v_my v) k j).

(** visualization.py:245-246 *)
Definition map_limits (m : arr) : R * R := (min_upto m (v_M v - 1), max_upto m (v_M v - 1)).
(** visualization.py:247-250: the vertical range of the 3D plot, with the default signals, over J internal junctions. *)
Definition z_limits (J : nat) : R * R :=
  (Rmin (min_upto (fun I => v_z v I + v_h v I) (J - 1)) (min_upto (fun j => v_zj v j + (v_H v j - v_zj v j)) (v_M v - 1)),
   Rmax (max_upto (fun I => v_z v I + v_h v I) (J - 1)) (max_upto (fun j => v_zj v j + (v_H v j - v_zj v j)) (v_M v - 1))).
End Profile.
