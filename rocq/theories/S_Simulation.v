(** Specification vocabulary for the step control: what a user expects of the clock, the retries, the
    history queues and the recorded table. *)
From Verif Require Import Prelude.

(** All [M] entries of two head vectors are closer than [tol]. *)
Definition close (M : nat) (tol : R) (a b : arr) : Prop := forall j, (j < M)%nat -> Rabs (a j - b j) < tol.

(** The step size of the k-th attempt of a step that is halved at every retry. *)
Definition halved (dt : R) (k : nat) : R := dt / 2 ^ k.

(** The newest [n] elements of a history kept newest first. *)
Definition newest {A : Type} (n : nat) (l : list A) : list A := firstn n l.

(** The last value logged at time [t] in a log kept newest first. *)
Fixpoint last_at {A : Type} (log : list (R * A)) (t : R) : option A :=
  match log with
  | [] => None
  | (t', a) :: log => if Req_EM_T t' t then Some a else last_at log t
  end.

(** Head difference allowed at error 1: 10^-6 plus a thousandth of the larger of the two given heads. *)
Definition allowance (cur prev : R) : R := 1 / 10 ^ 6 + Rmax cur prev / 10 ^ 3.
