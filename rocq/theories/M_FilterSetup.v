(** Model of the set-up of the Kalman filter and of the shapes its matrices have (simulation.py 166-212, 454-501,
    nutils.py 160-197).

    NumPy arrays here carry their number of dimensions and their shape, because the set-up and the filter accept all of
    them and combine them by NumPy's rules. *)
From Verif Require Import Prelude M_Coeffs M_Assembly M_Kalman.

(** ** NumPy arrays of zero, one and two dimensions *)
Inductive nd : Type := Num (x : R) | Row (n : nat) (v : arr) | Grid (r c : nat) (A : mat).

(** Broadcasting: equal lengths, or one of them is 1. *)
Definition dim (n m : nat) : option nat :=
  if Nat.eqb n m then Some n else if Nat.eqb n 1 then Some m else if Nat.eqb m 1 then Some n else None.
(** The position read in a side of length n for position i of a result of length m. *)
Definition pick (n m i : nat) : nat := if Nat.eqb n m then i else 0%nat.

(** Elementwise operations ([+], [-]). *)
Definition zip (f : R -> R -> R) (x y : nd) : option nd :=
  match x, y with
  | Grid r c A, Grid r' c' B =>
      do p <- dim r r'; do q <- dim c c';
      Some (Grid p q (fun i j => f (A (pick r p i) (pick c q j)) (B (pick r' p i) (pick c' q j))))
  | Grid r c A, Row n v => do q <- dim c n; Some (Grid r q (fun i j => f (A i (pick c q j)) (v (pick n q j))))
  | Row n v, Grid r c A => do q <- dim n c; Some (Grid r q (fun i j => f (v (pick n q j)) (A i (pick c q j))))
  | Row n v, Row m w => do q <- dim n m; Some (Row q (fun i => f (v (pick n q i)) (w (pick m q i))))
  | Grid r c A, Num y => Some (Grid r c (fun i j => f (A i j) y))
  | Num x, Grid r c A => Some (Grid r c (fun i j => f x (A i j)))
  | Row n v, Num y => Some (Row n (fun i => f (v i) y))
  | Num x, Row n v => Some (Row n (fun i => f x (v i)))
  | Num x, Num y => Some (Num (f x y))
  end.

(** [@]; it raises on scalars. *)
Definition matmul (x y : nd) : option nd :=
  match x, y with
  | Grid r k A, Grid k' c B => if Nat.eqb k k' then Some (Grid r c (mmul k A B)) else None
  | Grid r k A, Row n v => if Nat.eqb k n then Some (Row r (mvec k A v)) else None
  | Row n v, Grid r c B => if Nat.eqb n r then Some (Row c (fun j => sum_n (fun l => v l * B l j) n)) else None
  | Row n v, Row m w => if Nat.eqb n m then Some (Num (sum_n (fun l => v l * w l) n)) else None
  | _, _ => None
  end.

(** [.T] *)
Definition transposed (x : nd) : nd := match x with Grid r c A => Grid c r (tr A) | _ => x end.

(** ** Set-up *)

(** What the user passes for Rcov, Qcov, C or H. *)
Inductive argument : Type := Absent | Scalar (s : R) | Vector (n : nat) (v : arr) | Matrix (r c : nat) (A : mat).

(** simulation.py:166-205, the same four branches for each of the four arguments; [default]: np.zeros((M, M)) or np.eye(M).
    The test [X.shape[0] == X.size] sends vectors to np.diag, which makes a diagonal matrix of them; it also sends
    matrices with a single column there, and of a matrix np.diag returns the diagonal. *)
Definition configure (M : nat) (default : mat) (a : argument) : nd :=
  match a with
  | Absent => Grid M M default
  | Scalar s => Grid M M (fun i j => s * eye M i j)
  | Vector n v => Grid n n (fun i j => if Nat.ltb i n && Nat.eqb i j then v i else 0)
  | Matrix r c A => if Nat.eqb r (r * c) then Row (Nat.min r c) (fun i => A i i) else Grid r c A
  end.

Record filter_setup : Type := mkSetup { fs_R : nd; fs_Q : nd; fs_C : nd; fs_H : nd; fs_P : nd }.

(** simulation.py:166-209 *)
Definition set_up (M : nat) (Rcov Qcov C H : argument) (Pxx : option nd) : option filter_setup :=
  let R_ := configure M zeros2 Rcov in
  let Q_ := configure M zeros2 Qcov in
  let C_ := configure M (eye M) C in
  let H_ := configure M (eye M) H in
  do P_ <- match Pxx with
           | None => do CQ <- matmul C_ Q_; matmul CQ (transposed C_)
           | Some P => Some P
           end;
  Some (mkSetup R_ Q_ C_ H_ P_).

(** ** The filter on shaped arrays *)
Section Shaped.
Variable inv : nat -> mat -> option mat.

(** [np.linalg.inv]; raises unless its argument is a square matrix. *)
Definition inverse_of (x : nd) : option nd :=
  match x with Grid r c A => if Nat.eqb r c then do B <- inv r A; Some (Grid r c B) else None | _ => None end.

(** nutils.py:186-197: returns b_hat, the new covariance and P_zz. *)
Definition kalman_nd (M : nat) (Z P A_1 A_2 b H C Qcov Rcov : nd) : option (nd * nd * nd) :=
  do A_1_inv <- inverse_of A_1;
  do x <- matmul A_1_inv b;
  do T1 <- matmul A_1_inv A_2; do T2 <- matmul T1 P; do T3 <- matmul T2 (transposed A_2); do T4 <- matmul T3 (transposed A_1_inv);
  do N1 <- matmul C Qcov; do N2 <- matmul N1 (transposed C);
  do P1 <- zip Rplus T4 N2;
  do HP <- matmul H P1; do HPH <- matmul HP (transposed H); do S <- zip Rplus HPH Rcov;
  do S_inv <- inverse_of S;
  do PH <- matmul P1 (transposed H); do L <- matmul PH S_inv;
  do LH <- matmul L H; do F <- zip Rminus (Grid M M (eye M)) LH; do P2 <- matmul F P1;
  do Hx <- matmul H x; do y <- zip Rminus Z Hx; do Ly <- matmul L y; do x_hat <- zip Rplus x Ly;
  do b_hat <- matmul A_1 x_hat;
  Some (b_hat, P2, S).

(** simulation.py:478-499: a call of kalman_filter without matrices of its own, up to the new right-hand side; the
    covariance it returns replaces [fs_P]. *)
Definition assimilate (M : nat) (s : filter_setup) (Z : nd) (A_1 A_2 : mat) (b : arr) : option (nd * filter_setup) :=
  do o <- kalman_nd M Z (fs_P s) (Grid M M A_1) (Grid M M A_2) (Row M b) (fs_H s) (fs_C s) (fs_Q s) (fs_R s);
  Some (fst (fst o), mkSetup (fs_R s) (fs_Q s) (fs_C s) (fs_H s) (snd (fst o))).
End Shaped.
