(** Model of superjunction storage (pipedream_solver/nsuperlink.py 413-480, 666-694, 1615-1648, 1951-2027;
    pipedream_solver/storage.py Tabular, Functional). *)
From Verif Require Import Prelude M_Coeffs M_Numerics.

(** [np.maximum(H_j - _z_inv_j, min_depth)] (nsuperlink.py:687, 1639). *)
Definition storage_depth (H z_inv min_depth : R) : R := Rmax (H - z_inv) min_depth.

(** nsuperlink.py:1951-1962 [numba_compute_functional_storage_areas], one superjunction. *)
Definition functional_area (h a b c : R) : R :=
  if Rltb h 0 then 0 else a * fpow h b + c.
(** nsuperlink.py:1964-1975 [numba_compute_functional_storage_volumes]; [None]: ZeroDivisionError (b = -1). *)
Definition functional_volume (h a b c : R) : option R :=
  if Rltb h 0 then Some 0
  else do q <- div a (b + 1); Some (q * fpow h (b + 1) + c * h).

(** [ndarray.min()], [ndarray.max()] (of a non-empty array; they raise on an empty one). *)
Definition lmin (l : list R) : R := match l with [] => 0 | a :: l => fold_left Rmin l a end.
Definition lmax (l : list R) : R := match l with [] => 0 | a :: l => fold_left Rmax l a end.

(** [scipy.integrate.cumtrapz(y, x, initial=0.)]: trapezoidal sums of y against x. *)
Fixpoint cumtrapz_from (acc : R) (y x : list R) : list R :=
  match y, x with
  | y0 :: ((y1 :: _) as y'), x0 :: ((x1 :: _) as x') =>
      acc :: cumtrapz_from (acc + (x1 - x0) * (y0 + y1) / 2) y' x'
  | _ :: _, _ :: _ => [acc]
  | _, _ => []
  end.
Definition cumtrapz (y x : list R) : list R := cumtrapz_from 0 y x.

(** nsuperlink.py:453 and storage.py:65 [V = cumtrapz(h, A, initial=0.)]. *)
Definition volume_table (hs As : list R) : list R := cumtrapz hs As.

(** nsuperlink.py:1991-1999: linear interpolation in the cell found by searchsorted. *)
Definition cell (h : R) (hs vs : list R) (ix : nat) : option R :=
  match nth_error hs (ix - 1), nth_error hs ix, nth_error vs (ix - 1), nth_error vs ix with
  | Some hl, Some hr, Some vl, Some vr =>
      let dx_0 := h - hl in
      let dx_1 := hr - h in
      do frac <- div dx_0 (dx_0 + dx_1);
      Some ((1 - frac) * vl + frac * vr)
  | _, _, _, _ => None
  end.
(** nsuperlink.py:1977-2001 [numba_compute_tabular_storage_areas], one superjunction. *)
Definition tabular_area (h : R) (hs As : list R) : option R :=
  let ix := searchsorted hs h in
  if Nat.eqb ix 0 then Some (lmin As)
  else if Nat.leb (length hs) ix then Some (lmax As)
  else cell h hs As ix.
(** nsuperlink.py:2003-2029 [numba_compute_tabular_storage_volumes], one superjunction. *)
Definition tabular_volume (h : R) (hs As Vs : list R) : option R :=
  let ix := searchsorted hs h in
  if Nat.eqb ix 0 then Some (lmin Vs)
  else if Nat.leb (length hs) ix then Some (lmax Vs + lmax As * (h - lmax hs))
  else cell h hs Vs ix.

(** ** Packing of the tables (nsuperlink.py:433-468).
    [tables]: the storages in the order of the dictionary; [ranks]: position of each name among the sorted names
    ([storage_name_to_ind[name]]). *)
Fixpoint offsets_from (ix : nat) (tables : list (list R)) : list nat :=
  match tables with [] => [] | t :: l => ix :: offsets_from (ix + length t) l end.
(** 444-460 [_storage_inds] before reordering *)
Definition offsets (tables : list (list R)) : list nat := offsets_from 0 tables.
Fixpoint index_of (c : nat) (l : list nat) : nat :=
  match l with [] => O | a :: l => if Nat.eqb a c then O else S (index_of c l) end.
(** 461 [np.argsort(order)] of a list of distinct ranks 0..n-1 *)
Definition argsort (ranks : list nat) : list nat :=
  map (fun c => index_of c ranks) (seq 0 (length ranks)).
(** 462-466: concatenated tables, start indices and lengths in the new order *)
Definition packed (tables : list (list R)) (ranks : list nat) : list R :=
  concat (map (fun i => nth i tables []) (argsort ranks)).
Definition packed_inds (tables : list (list R)) (ranks : list nat) : list nat :=
  map (fun i => nth i (offsets tables) O) (argsort ranks).
Definition packed_lens (tables : list (list R)) (ranks : list nat) : list nat :=
  map (fun i => nth i (map (@length R) tables) O) (argsort ranks).
(** 1981-1985: [h_range = hs[ind:ind+size]] for the storage of code [st]. *)
Definition read_table (tables : list (list R)) (ranks : list nat) (st : nat) : list R :=
  firstn (nth st (packed_lens tables ranks) O) (skipn (nth st (packed_inds tables ranks) O) (packed tables ranks)).
