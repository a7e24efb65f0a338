(** Model of the square-root form of the Kalman filter (pipedream_solver/utils.py 138-181; simulation.py 454-501 with
    [SR=True]; nutils.py:2 re-exports the same function, so both installations use it). *)
From Coq Require Import ZArith.
From Verif Require Import Prelude M_Coeffs M_Simulation M_Kalman.

(** Block below block: [r] rows of [A], then [B] ([np.vstack], [np.block([[A], [B]])]). *)
Definition vstack (r : nat) (A B : mat) : mat := fun i j => if Nat.ltb i r then A i j else B (i - r)%nat j.

Section SquareRoot.
(** [np.linalg.inv], [np.linalg.cholesky] (lower factor) and [np.linalg.qr(., mode='r')] of an r x n matrix;
    [None]: LinAlgError. *)
Variable inv : nat -> mat -> option mat.
Variable cholesky : nat -> mat -> option mat.
Variable qr_r : nat -> nat -> mat -> option mat.

(** utils.py:138-181 [_square_root_kalman_semi_implicit]: [M] heads, [p] observations; [Qcov] is a x a and [vstack]
    raises unless a = M.  [C] is accepted and not read. *)
Definition square_root_kalman (M p a : nat) (Z : arr) (P A_1 A_2 : mat) (b : arr) (H C Qcov Rcov : mat) : option (arr * mat) :=
  do A_1_inv <- inv M A_1;
  do Rq <- cholesky a Qcov;
  do Rr <- cholesky p Rcov;
  do F <- cholesky M P;
  let x := mvec M A_1_inv b in
  if negb (Nat.eqb a M) then None else
  do Fbar <- qr_r (M + M) M (vstack M (mmul M (mmul M F (tr A_2)) (tr A_1_inv)) Rq);
  do G <- qr_r (M + p) p (vstack M (mmul M Fbar (tr H)) Rr);
  do G_inv <- inv p G;
  let L := tr (mmul M (mmul M (mmul p G_inv (mmul p (tr G_inv) H)) (tr Fbar)) Fbar) in
  do Fhat <- qr_r (M + p) M (vstack M (mmul M Fbar (tr (msub (eye M) (mmul p L H)))) (mmul p Rr (tr L)));
  let x_hat := vadd x (mvec p L (vsub Z (mvec M H x))) in
  let P' := mmul M (tr Fhat) Fhat in
  let b_hat := mvec M A_1 x_hat in
  Some (b_hat, P').

(** Python values a function may return, and the assignment [v1, v2, v3 = value]: a tuple of another length raises
    ValueError. *)
Inductive pyval : Type := PVec (v : arr) | PMat (A : mat).
Definition unpack3 (t : list pyval) : option (pyval * pyval * pyval) :=
  match t with [a; b; c] => Some (a, b, c) | _ => None end.

(** What the two filter functions return (nutils.py:197, utils.py:181). *)
Definition returned_plain (k : kalman_out) : list pyval := [PVec (ko_b k); PMat (ko_P k); PMat (ko_Pzz k)].
Definition returned_square_root (k : arr * mat) : list pyval := [PVec (fst k); PMat (snd k)].

(** simulation.py:454-501 [kalman_filter] with its [SR] switch: both branches unpack three values. *)
Section Filter.
Variables (B V I : Type).
Variable solve : I -> R -> V -> B -> option B.
Variables (A1_of : B -> mat) (A2_of : B -> R -> mat) (b_of : B -> arr) (set_b : B -> arr -> B).
Variable M : nat.

Definition kalman_filter_SR (SR : bool) (i : I) (p a : nat) (Z : arr) (H C Qcov Rcov P : mat) (dt : R) (m : model B V)
  : option (model B V * mat * mat) :=
  let A_1 := A1_of (m_body m) in
  let A_2 := A2_of (m_body m) dt in
  let b := b_of (m_body m) in
  do t <- (if negb SR then do k <- kalman_semi_implicit inv M p a Z P A_1 A_2 b H C Qcov Rcov; Some (returned_plain k)
           else do k <- square_root_kalman M p a Z P A_1 A_2 b H C Qcov Rcov; Some (returned_square_root k));
  do v <- unpack3 t;
  match v with
  | (PVec b_hat, PMat P', PMat Pzz) =>
      let m := mkModel (m_t m - dt) (m_ic m - 1) (set_b (m_body m) b_hat) (m_saved m) in
      do m <- solve_step' B V I solve i dt m;
      Some (m, P', Pzz)
  | _ => None
  end.
End Filter.
End SquareRoot.
