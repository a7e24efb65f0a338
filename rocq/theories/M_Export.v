(** Model of the matrices the model object hands out after an assembly: [state_space_system], [_semi_implicit_system]
    and [_augmented_system] (pipedream_solver/superlink.py 3811-3905; inherited by the compiled solver). *)
From Verif Require Import Prelude M_Coeffs M_Recurrence M_Assembly.

(** [np.diag(np.where(~bc, _A_sj / _dt, 0))], superlink.py:3875 and 3904 (and the diagonal of 3844). *)
Definition previous_head_matrix (M : nat) (bc : nat -> bool) (A_sj : arr) (dt : R) : mat :=
  fun i j => if Nat.ltb i M && Nat.eqb i j then (if bc i then 0 else A_sj i / dt) else 0.

Record state_space : Type := mkStateSpace { ss_A1 : mat; ss_A2 : mat; ss_D : arr; ss_next : arr; ss_prev : arr; ss_Q : arr }.

(** superlink.py:3878-3905 [state_space_system].  [s]: the assembled system; [H]: current heads; [H_prev]: heads of the
    saved state; [Q_in]: the inflows of the step (superlink.py:4021; the model takes them as given, in the code they may be
    [None]). *)
Definition state_space_system (M n_o n_w n_p : nat) (bc : nat -> bool) (s : system) (A_sj H H_prev Q_in : arr) (dt : R) : state_space :=
  mkStateSpace (system_matrix n_o n_w n_p s) (previous_head_matrix M bc A_sj dt) (s_D s) H H_prev Q_in.

(** superlink.py:3852-3876 [_semi_implicit_system]. *)
Definition semi_implicit_system (M n_o n_w n_p : nat) (bc : nat -> bool) (s : system) (A_sj : arr) (dt : R) : mat * mat * arr :=
  (system_matrix n_o n_w n_p s, previous_head_matrix M bc A_sj dt, s_b s).

(** superlink.py:3811-3850 [_augmented_system]: matrices of size M + 1. *)
Definition augmented_system (M n_o n_w n_p : nat) (bc : nat -> bool) (s : system) (A_sj H Q_0j : arr) (dt : R)
  : mat * mat * arr * arr :=
  let L := system_matrix n_o n_w n_p s in
  let A_1 := (fun i j => if Nat.ltb i M && Nat.ltb j M then L i j else if Nat.eqb i M && Nat.eqb j M then 1 else 0) in
  let A_2 := (fun i j =>
    if Nat.ltb i M then (if Nat.eqb i j then (if bc i then 0 else A_sj i / dt) else if Nat.eqb j M then s_D s i else 0)
    else if Nat.eqb i M && Nat.eqb j M then 1 else 0) in
  let Q := (fun i => if Nat.ltb i M then Q_0j i else 0) in
  (A_1, A_2, Q, H).
