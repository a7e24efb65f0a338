(** Model of how a model and a simulation read the user's tables: direction of superlinks, renumbering of superjunctions
    (pipedream_solver/superlink.py 290-378, 965-1000) and columns of the forcing tables (pipedream_solver/simulation.py 86-108).

    A pandas frame is its number of rows, the label of each row and its columns as functions of the row's position.  Labels, ids
    and names are natural numbers. *)
From Verif Require Import Prelude M_Coeffs M_Layout M_Banded M_Forcing.

(** Table of superjunctions: labels (frame index), columns id, z_inv, h_0, bc, name. *)
Record junction_table : Type := mkJT {
  jt_n : nat; jt_label : nat -> nat; jt_id : nat -> nat; jt_z : arr; jt_h0 : arr; jt_bc : nat -> bool; jt_name : nat -> nat }.
(** Table of superlinks: columns sj_0, sj_1, in_offset, out_offset, Q_0, and (where the user supplies internal tables) the
    first and last internal junction j_0, j_1.  Simplification: superlinks have distinct labels, so [.loc] reads and writes one row. *)
Record superlink_table : Type := mkLT {
  lt_n : nat; lt_0 : nat -> nat; lt_1 : nat -> nat; lt_in : arr; lt_out : arr; lt_Q0 : arr; lt_j0 : nat -> nat; lt_j1 : nat -> nat }.

(** superlink.py:303-304: [superjunctions.loc[label, 'z_inv']].  [None]: no row has the label (KeyError), or several have and
    the comparison of line 307 is ambiguous (ValueError). *)
Definition loc_z (J : junction_table) (label : nat) : option R :=
  match filter (fun r => Nat.eqb (jt_label J r) label) (seq 0 (jt_n J)) with [r] => Some (jt_z J r) | _ => None end.

(** superlink.py:299-310: superlinks that rise from sj_0 to sj_1 are turned round. *)
Definition orient_one (J : junction_table) (k : nat) (S : superlink_table) : option superlink_table :=
  do z_inv_0 <- loc_z J (lt_0 S k);
  do z_inv_1 <- loc_z J (lt_1 S k);
  if Rltb (z_inv_0 + lt_in S k) (z_inv_1 + lt_out S k)
  then Some (mkLT (lt_n S) (upd (lt_0 S) k (lt_1 S k)) (upd (lt_1 S) k (lt_0 S k)) (lt_in S) (lt_out S) (lt_Q0 S) (lt_j0 S) (lt_j1 S))
  else Some S.
Definition orient (J : junction_table) (S : superlink_table) : option superlink_table :=
  for_opt (lt_n S) (orient_one J) S.

(** superlink.py:976-980: ids are renumbered, the rows sorted by them.  [None]: an id outside [perm_inv] (IndexError). *)
Definition permute_junctions (perm_inv : nat -> nat) (J : junction_table) : option junction_table :=
  if forallb (fun r => Nat.ltb (jt_id J r) (jt_n J)) (seq 0 (jt_n J)) then
    let id := renumber perm_inv (jt_id J) in
    let ix := argsort (jt_n J) (fun r => INR (id r)) in
    let row p := nth p ix O in
    Some (mkJT (jt_n J) (fun p => id (row p)) (fun p => id (row p)) (fun p => jt_z J (row p)) (fun p => jt_h0 J (row p))
               (fun p => jt_bc J (row p)) (fun p => jt_name J (row p)))
  else None.
(** superlink.py:981-992: ends are renumbered (superlinks; orifices, weirs and pumps likewise). *)
Definition permute_superlinks (M : nat) (perm_inv : nat -> nat) (S : superlink_table) : option superlink_table :=
  if forallb (fun k => Nat.ltb (lt_0 S k) M && Nat.ltb (lt_1 S k) M)%bool (seq 0 (lt_n S)) then
    Some (mkLT (lt_n S) (renumber perm_inv (lt_0 S)) (renumber perm_inv (lt_1 S)) (lt_in S) (lt_out S) (lt_Q0 S) (lt_j0 S) (lt_j1 S))
  else None.

(** superlink.py:290-336: the tables of the model and [permutations].  [auto]: the order returned by reverse_cuthill_mckee and
    its inverse [np.argsort(permutations)], or [None] without [auto_permute]. *)
Record built : Type := mkBuilt { bt_J : junction_table; bt_S : superlink_table; bt_perm : nat -> nat }.
Definition construct (auto : option ((nat -> nat) * (nat -> nat))) (J : junction_table) (S : superlink_table) : option built :=
  do S <- orient J S;
  match auto with
  | None => Some (mkBuilt J S (fun p => p))
  | Some (perm, perm_inv) =>
      do J' <- permute_junctions perm_inv J;
      do S' <- permute_superlinks (jt_n J) perm_inv S;
      Some (mkBuilt J' S' perm)
  end.

(** superlink.py:366-378: inverts of the two ends of superlink k, read by position ([None]: IndexError). *)
Definition end_inverts (J : junction_table) (S : superlink_table) (k : nat) : option (R * R) :=
  if (Nat.ltb (lt_0 S k) (jt_n J) && Nat.ltb (lt_1 S k) (jt_n J))%bool
  then Some (jt_z J (lt_0 S k) + lt_in S k, jt_z J (lt_1 S k) + lt_out S k)
  else None.

(** A forcing table as the user gives it: its columns have names. *)
Record frame : Type := mkFrame { fr_t : list R; fr_name : nat -> nat; fr_col : nat -> list R }.
(** simulation.py:91-102: [Q_in.iloc[:, model.permutations]] (H_bc likewise); [.values] (585, 596) drops the names. *)
Definition junction_forcing (perm : nat -> nat) (f : frame) : forcing := mkForcing (fr_t f) (fun p => fr_col f (perm p)).
(** simulation.py:103-105: Q_Ik is taken as it is. *)
Definition internal_forcing (f : frame) : forcing := mkForcing (fr_t f) (fr_col f).

(** simulation.py:237-248 [__exit__]: a recorded row of heads as (name, value) pairs, one for each column. *)
Definition named_heads (B : built) (H : arr) : list (nat * R) :=
  map (fun p => (jt_name (bt_J B) p, H p)) (seq 0 (jt_n (bt_J B))).
