(** Model of the Kalman filter (pipedream_solver/nutils.py 160-197, simulation.py 454-501). *)
From Coq Require Import ZArith.
From Verif Require Import Prelude M_Coeffs M_Simulation.

(** NumPy matrix expressions; [k] is the inner dimension. *)
Definition mmul (k : nat) (A B : mat) : mat := fun i j => sum_n (fun l => A i l * B l j) k.
Definition mvec (k : nat) (A : mat) (v : arr) : arr := fun i => sum_n (fun l => A i l * v l) k.
Definition madd (A B : mat) : mat := fun i j => A i j + B i j.
Definition msub (A B : mat) : mat := fun i j => A i j - B i j.
Definition tr (A : mat) : mat := fun i j => A j i.
Definition vadd (u v : arr) : arr := fun i => u i + v i.
Definition vsub (u v : arr) : arr := fun i => u i - v i.
(** [np.eye(n)], zero outside its shape. *)
Definition eye (n : nat) : mat := fun i j => if Nat.ltb i n && Nat.eqb i j then 1 else 0.

Section Kalman.
(** [np.linalg.inv]; [None]: LinAlgError. *)
Variable inv : nat -> mat -> option mat.

Record kalman_out : Type := mkKalman { ko_b : arr; ko_P : mat; ko_Pzz : mat }.

(** nutils.py:160-197 and, line for line the same, utils.py:100-136 [_kalman_semi_implicit]: [M] heads, [p] observations, [a] noise inputs. *)
Definition kalman_semi_implicit (M p a : nat) (Z : arr) (P A_1 A_2 : mat) (b : arr) (H C Qcov Rcov : mat)
  : option kalman_out :=
  do A_1_inv <- inv M A_1;
  let x := mvec M A_1_inv b in
  let P1 := madd (mmul M (mmul M (mmul M (mmul M A_1_inv A_2) P) (tr A_2)) (tr A_1_inv))
                 (mmul a (mmul a C Qcov) (tr C)) in
  do S_inv <- inv p (madd (mmul M (mmul M H P1) (tr H)) Rcov);
  let L := mmul p (mmul M P1 (tr H)) S_inv in
  let P_zz := madd (mmul M (mmul M H P1) (tr H)) Rcov in
  let P' := mmul M (msub (eye M) (mmul p L H)) P1 in
  let x_hat := vadd x (mvec p L (vsub Z (mvec M H x))) in
  let b_hat := mvec M A_1 x_hat in
  Some (mkKalman b_hat P' P_zz).

(** simulation.py:454-501 [kalman_filter] (SR = False) on the model object: [A1_of], [A2_of] and [b_of] read the
    assembled system (superlink.py:3852-3876), [set_b] replaces its right-hand side. *)
Section Filter.
Variables (B V I : Type).
Variable solve : I -> R -> V -> B -> option B.
Variables (A1_of : B -> mat) (A2_of : B -> R -> mat) (b_of : B -> arr) (set_b : B -> arr -> B).
Variable M : nat.

Definition kalman_filter (i : I) (p a : nat) (Z : arr) (H C Qcov Rcov P : mat) (dt : R) (m : model B V)
  : option (model B V * mat * mat) :=
  do k <- kalman_semi_implicit M p a Z P (A1_of (m_body m)) (A2_of (m_body m) dt) (b_of (m_body m)) H C Qcov Rcov;
  let m := mkModel (m_t m - dt) (m_ic m - 1) (set_b (m_body m) (ko_b k)) (m_saved m) in
  do m <- solve_step' B V I solve i dt m;
  Some (m, ko_P k, ko_Pzz k).
End Filter.
End Kalman.
