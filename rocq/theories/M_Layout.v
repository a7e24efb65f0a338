(** Model of the construction of the network tables: orientation of superlinks, generated internal links and
    junctions, index tables, and the repositioning of mobile junctions
    (pipedream_solver/superlink.py 297-310, 360-432, 495-501, 650-668, 1002-1122; nsuperlink.py 1651-1686, 3148-3210).

    Simplification: the indices of the superlink and superjunction tables are 0, 1, 2, ... (the code uses the labels
    as array positions). *)
From Verif Require Import Prelude M_Coeffs M_Numerics.

(** ** Orientation *)

(** Columns of the superlink table used here. *)
Record superlink_row : Type := mkRow { r_sj0 : nat; r_sj1 : nat; r_in : R; r_out : R; r_dx : R }.

(** superlink.py:298-309: one pass of the loop over superlinks. *)
Definition orient_row (z_inv : arr) (r : superlink_row) : superlink_row :=
  if Rltb (z_inv (r_sj0 r) + r_in r) (z_inv (r_sj1 r) + r_out r)
  then mkRow (r_sj1 r) (r_sj0 r) (r_in r) (r_out r) (r_dx r) else r.
Definition orient (NK : nat) (z_inv : arr) (rows : nat -> superlink_row) : nat -> superlink_row :=
  for_n NK (fun k rows => upd rows k (orient_row z_inv (rows k))) rows.

(** superlink.py:370-379: end junctions and end inverts. *)
Definition J_uk (rows : nat -> superlink_row) (k : nat) : nat := r_sj0 (rows k).
Definition J_dk (rows : nat -> superlink_row) (k : nat) : nat := r_sj1 (rows k).
Definition z_inv_uk (z_inv : arr) (rows : nat -> superlink_row) (k : nat) : R := z_inv (J_uk rows k) + r_in (rows k).
Definition z_inv_dk (z_inv : arr) (rows : nat -> superlink_row) (k : nat) : R := z_inv (J_dk rows k) + r_out (rows k).

(** ** Generated internal links and junctions *)

(** [np.cumsum(np.repeat(c, n))] at position k. *)
Fixpoint cumsum_const (c k : nat) : nat := match k with O => c | S k => cumsum_const c k + c end.
(** [np.delete(l, idx)]: elements at positions not in [idx]. *)
Fixpoint del_from (pos : nat) (idx : list nat) (l : list nat) : list nat :=
  match l with
  | [] => []
  | x :: l => if existsb (Nat.eqb pos) idx then del_from (S pos) idx l else x :: del_from (S pos) idx l
  end.
Definition np_delete (l idx : list nat) : list nat := del_from 0 idx l.

(** superlink.py:1018-1021, 1040-1042: junctions before and after every link; n = internal_links. *)
Definition upstream_nodes (n NK : nat) : list nat := map (fun k => (cumsum_const (n + 1) k - (n + 1))%nat) (seq 0 NK).
Definition downstream_nodes (n NK : nat) : list nat := map (fun k => (cumsum_const (n + 1) k - 2)%nat) (seq 0 NK).
Definition link_j0 (n NK : nat) : list nat := np_delete (seq 0 ((n + 1) * NK)) (map S (downstream_nodes n NK)).
Definition link_j1 (n NK : nat) : list nat := np_delete (seq 0 ((n + 1) * NK)) (upstream_nodes n NK).
(** superlink.py:1029, 1048: [np.repeat(superlinks.index.values, nlinks)], and for junctions. *)
Definition link_k (n : nat) (i : nat) : nat := (i / n)%nat.
Definition junction_k (n : nat) (I : nat) : nat := (I / (n + 1))%nat.

(** superlink.py:1100-1101: [groupby('k')['j_0'].min()], [['j_1'].max()] over the NL = n * NK links. *)
Definition group_values (n NK k : nat) (col : list nat) : list nat :=
  map (fun i => nth i col O) (filter (fun i => Nat.eqb (link_k n i) k) (seq 0 (n * NK))).
Definition list_min (l : list nat) : nat := match l with [] => O | x :: l => fold_left Nat.min l x end.
Definition list_max (l : list nat) : nat := fold_left Nat.max l O.
Definition start_node (n NK k : nat) : nat := list_min (group_values n NK k (link_j0 n NK)).
Definition end_node (n NK k : nat) : nat := list_max (group_values n NK k (link_j1 n NK)).

(** [np.linspace(0, L, m)] *)
Definition linspace (L : R) (m i : nat) : R :=
  if Nat.ltb 1 m && Nat.eqb i (m - 1) then L else INR i * (L / INR (m - 1)).

(** superlink.py:1065-1067: slope and end elevations of the internal chain of superlink k. *)
Definition slope (z_u z_d dx dx_u dx_d : R) : R := (z_d - z_u) / (dx + dx_u + dx_d).
Definition b_0 (z_u z_d dx dx_u dx_d : R) : R := z_u + slope z_u z_d dx dx_u dx_d * dx_u.
Definition b_1 (z_u z_d dx dx_u dx_d : R) : R := z_d - slope z_u z_d dx dx_u dx_d * dx_d.

(** superlink.py:1089-1091, 1096: chain coordinates, inverts and lengths without mobile elements. *)
Definition chain_x (n : nat) (L : R) (j : nat) : R := linspace L (n + 1) j.
Definition chain_z (n : nat) (L m b0 : R) (j : nat) : R := chain_x n L j * m + b0.
Definition diff (x : arr) (j : nat) : R := x (S j) - x j.

(** Stable [np.argsort] of the first n entries.  Simplification: NumPy's default sort leaves the order of equal
    entries unspecified. *)
Fixpoint insert_by (f : arr) (i : nat) (l : list nat) : list nat :=
  match l with
  | [] => [i]
  | j :: l' => if Rleb (f i) (f j) then i :: j :: l' else j :: insert_by f i l'
  end.
Definition argsort (n : nat) (f : arr) : list nat := fold_right (insert_by f) [] (seq 0 n).
(** [np.take(f, ix)] *)
Definition take (f : arr) (ix : list nat) : arr := fun i => f (nth i ix O).

(** superlink.py:1069-1088: chain coordinates with one mobile element per superlink; [None]: the ValueError. *)
Definition mobile_xc (n : nat) (L : R) : R :=
  if Nat.odd (n + 1) then L / 2 else L / 2 + L / INR n / 2.
Definition mobile_raw_x (n : nat) (L : R) : arr := upd (fun j => linspace L n j) n (mobile_xc n L).
Definition mobile_x (n : nat) (L : R) : option arr :=
  if Nat.ltb 1 n then let x := mobile_raw_x n L in Some (take x (argsort (n + 1) x)) else None.
Definition mobile_z (n : nat) (L m b0 : R) : option arr :=
  if Nat.ltb 1 n then
    let x := mobile_raw_x n L in
    let z := (fun j => x j * m + b0) in
    Some (take z (argsort (n + 1) x))
  else None.

(** ** Index tables *)

(** [a[idx] = vals] for position lists. *)
Definition scatter {A : Type} (n : nat) (a : nat -> A) (idx : nat -> nat) (vals : nat -> A) : nat -> A :=
  for_n n (fun i a => upd a (idx i) (vals i)) a.

(** Tables of superlink.py:405-432 and 650-668, for NL links with ends j0, j1, NJ junctions, and NK superlinks with
    start and end nodes. *)
Record tables : Type := mkTables {
  t_is_start : nat -> bool; t_is_end : nat -> bool;
  t_nk : nat -> nat;
  t_forward_I_I : nat -> nat; t_backward_I_I : nat -> nat; t_forward_I_i : nat -> nat; t_backward_I_i : nat -> nat;
  t_I_1k : nat -> nat; t_i_1k : nat -> nat; t_I_Np1k : nat -> nat; t_I_Nk : nat -> nat; t_i_nk : nat -> nat;
  t_link_start : nat -> bool; t_link_end : nat -> bool }.

(** [np.bincount(_ki)] at k. *)
Definition bincount (NL : nat) (ki : nat -> nat) (k : nat) : nat := length (filter (fun i => Nat.eqb (ki i) k) (seq 0 NL)).

Definition make_tables (NL NK : nat) (j0 j1 ki start_nodes end_nodes : nat -> nat) : tables :=
  let is_start := scatter NK (fun _ => false) start_nodes (fun _ => true) in
  let is_end := scatter NK (fun _ => false) end_nodes (fun _ => true) in
  let fII := scatter NL (fun I => I) j0 j1 in
  let bII := scatter NL (fun I => I) j1 j0 in
  let fIi := scatter NL (fun I => I) j0 (fun i => i) in
  let bIi := scatter NL (fun I => I) j1 (fun i => i) in
  let fIi := scatter NK fIi end_nodes (fun k => bIi (start_nodes k)) in
  let bIi := scatter NK bIi start_nodes (fun k => fIi (start_nodes k)) in
  let i_1k := (fun k => fIi (start_nodes k)) in
  let i_nk := (fun k => bIi (end_nodes k)) in
  mkTables is_start is_end (bincount NL ki) fII bII fIi bIi
           start_nodes i_1k end_nodes (fun k => bII (end_nodes k)) i_nk
           (scatter NK (fun _ => false) i_1k (fun _ => true)) (scatter NK (fun _ => false) i_nk (fun _ => true)).

(** Tables of a model built without link and junction tables. *)
Definition generated_tables (n NK : nat) : tables :=
  make_tables (n * NK) NK (fun i => nth i (link_j0 n NK) O) (fun i => nth i (link_j1 n NK) O) (link_k n)
              (start_node n NK) (end_node n NK).

(** superlink.py:499-501: [_x_Ik], position along the superlink: running sums of the lengths of the links of the same
    superlink, started at dx_uk.  [s] is the first junction, [i1] the first link of the superlink. *)
Definition x_Ik (dx_u : R) (dx : arr) (i1 j : nat) : R := sum_n (fun l => dx (i1 + l)%nat) j + dx_u.

(** ** Repositioning *)

(** One superlink's slice of the arrays, positions relative to its first junction or link; [c_pos] is the position
    of the mobile junction. *)
Record chain : Type := mkChain { c_x : arr; c_z : arr; c_h : arr; c_dx : arr; c_Q : arr; c_pos : nat }.

(** Position of value p in a list ([np.argsort] of a permutation gives the inverse permutation). *)
Fixpoint position (p : nat) (l : list nat) : nat :=
  match l with [] => O | x :: l => if Nat.eqb x p then O else S (position p l) end.

(** nsuperlink.py:3148-3210 [numba_reposition_junctions], one superlink with nlinks links whose first junction has
    the global number [I_1].  [None]: line 3173 reads the slice of the superlink at the global index; beyond the
    slice the compiled code reads foreign memory (or raises IndexError with bounds checking).
    [xs] are the indices 0..nlinks of the slice for [np.searchsorted]. *)
Definition reposition (I_1 nlinks : nat) (H_d b0 zc xc m : R) (s : chain) : option chain :=
  let njunctions := (nlinks + 1)%nat in
  let pos_prev := c_pos s in
  let move := Rltb (c_z s nlinks) H_d && Rltb H_d (c_z s O) in
  do zx <- (if move then
              if Nat.ltb I_1 njunctions then
                do q <- div (H_d - b0) m;
                Some (H_d, q + c_x s I_1)
              else None
            else Some (zc, xc));
  let '(z_m, x_m) := zx in
  let c := searchsorted (map (c_x s) (seq 0 njunctions)) x_m in
  let cm1 := (match c with O => nlinks | S c => c end) in
  do q <- div (x_m - c_x s cm1) (c_x s c - c_x s cm1);
  let h_m := (1 - q) * c_h s cm1 + q * c_h s c in
  do r <- div (c_dx s (pos_prev - 1)%nat) (c_dx s (pos_prev - 1)%nat + c_dx s pos_prev);
  let x := upd (c_x s) pos_prev x_m in
  let z := upd (c_z s) pos_prev z_m in
  let h := upd (c_h s) pos_prev h_m in
  let Ix := argsort njunctions x in
  let x' := take x Ix in
  let pos_next := position pos_prev Ix in
  let Q := c_Q s in
  let Q' := if Nat.eqb pos_prev pos_next then Q else
              let ix := upd (fun i => INR i) pos_prev (INR pos_next) in
              (* ix.sort(): ix holds 0..nlinks-1 with entry pos_prev replaced *)
              let sorted := map (fun i => if Nat.eqb i pos_prev then pos_next else i) (argsort nlinks ix) in
              let Q := upd Q (pos_prev - 1)%nat ((1 - r) * Q (pos_prev - 1)%nat + r * Q pos_prev) in
              take Q sorted in
  Some (mkChain x' (take z Ix) (take h Ix) (diff x') Q' pos_next).
