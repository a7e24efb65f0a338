(** Specification of the network water balance: what a head vector must satisfy at every junction.
    Nothing here mentions matrices. *)
From Verif Require Import Prelude.

(** Sum of f over the elements k < n that satisfy p. *)
Definition sum_if (p : nat -> bool) (f : arr) (n : nat) : R := sum_n (fun k => if p k then f k else 0) n.

(** A hydraulic element between junctions Ju and Jd with affine end flows:
    [out H] leaves Ju, [into H] enters Jd. *)
Record elements : Type := mkElements {
  e_n : nat; e_Ju : nat -> nat; e_Jd : nat -> nat;
  e_out : nat -> arr -> R; e_in : nat -> arr -> R }.

(** Net flow from a family of elements into junction j. *)
Definition net_inflow (el : elements) (H : arr) (j : nat) : R :=
  sum_if (fun k => Nat.eqb (e_Jd el k) j) (fun k => e_in el k H) (e_n el)
  - sum_if (fun k => Nat.eqb (e_Ju el k) j) (fun k => e_out el k H) (e_n el).

(** Water surface attached to junction j: its own area and the half end pieces of the superlinks that
    start or end there (width B, length dx, counted when theta = 1). *)
Definition attached_area (A_sj : arr) (n : nat) (Ju Jd : nat -> nat) (dxu Bu thu dxd Bd thd : arr) (j : nat) : R :=
  A_sj j + sum_if (fun k => Nat.eqb (Ju k) j) (fun k => dxu k * Bu k * thu k / 2) n
         + sum_if (fun k => Nat.eqb (Jd k) j) (fun k => dxd k * Bd k * thd k / 2) n.

(** Row j of a linear system. *)
Definition row_holds (M : nat) (l : mat) (b H : arr) (j : nat) : Prop :=
  sum_n (fun i => l j i * H i) M = b j.
Definition solves (M : nat) (l : mat) (b H : arr) : Prop := forall j, (j < M)%nat -> row_holds M l b H j.

(** All end junctions exist. *)
Definition ends_in (M n : nat) (Ju Jd : nat -> nat) : Prop :=
  forall k, (k < n)%nat -> (Ju k < M)%nat /\ (Jd k < M)%nat.
