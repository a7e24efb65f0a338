(** Model of the adjacency matrix, the bandwidth and the renumbering of junctions (pipedream_solver/superlink.py 927-1000). *)
From Verif Require Import Prelude.

(** superlink.py:927-947 [adjacency_matrix]: connections listed by (J_u, J_d), entries 0/1 as booleans. *)
Definition adjacency (n : nat) (J_u J_d : nat -> nat) : nat -> nat -> bool :=
  fun i j => for_n n (fun k r =>
    (Nat.eqb i (J_u k) && Nat.eqb j (J_d k)) || (Nat.eqb i (J_d k) && Nat.eqb j (J_u k)) || r)%bool false.

(** [np.diag(At, k=k).any()] of superlink.py:953 for an M x M matrix. *)
Definition diag_any (At : nat -> nat -> bool) (M k : nat) : bool :=
  for_n (M - k) (fun i r => (At i (i + k)%nat || r)%bool) false.

(** superlink.py:949-957 [_compute_bandwidth]: the loop stops at the first empty diagonal. *)
Fixpoint bandwidth_from (At : nat -> nat -> bool) (M k fuel bw : nat) : nat :=
  match fuel with
  | O => bw
  | S fuel => if diag_any At M k then bandwidth_from At M (k + 1) fuel k else bw
  end.
Definition compute_bandwidth (At : nat -> nat -> bool) (M : nat) : nat := bandwidth_from At M 1 (M - 1) 0.

(** superlink.py:965-1000 [_initialize_with_permuted_columns]: [perm] is the order returned by
    reverse_cuthill_mckee, [perm_inv = np.argsort(perm)] its inverse.  Junction columns are re-sorted, end junctions of
    elements are renumbered; simulation.py:93,99 re-sorts the input tables' columns the same way. *)
Definition resort {A : Type} (perm : nat -> nat) (column : nat -> A) : nat -> A := fun p => column (perm p).
Definition renumber (perm_inv : nat -> nat) (J : nat -> nat) : nat -> nat := fun k => perm_inv (J k).
