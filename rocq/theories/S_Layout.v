(** Specification vocabulary for the construction of superlinks. *)
From Verif Require Import Prelude.

(** Elevation at distance s on the straight line from elevation z_u to elevation z_d over a length. *)
Definition on_line (z_u z_d length s : R) : R := z_u + (z_d - z_u) * (s / length).

(** Numbers 0..(total-1) are split into NK consecutive blocks of c numbers: block k starts at c*k, and every number
    is in exactly one block. *)
Definition blocks (NK c : nat) (first : nat -> nat) (total : nat) : Prop :=
  (forall k m, (k < NK)%nat -> (m < c)%nat -> (first k + m < total)%nat) /\
  (forall p, (p < total)%nat -> exists k m, (k < NK)%nat /\ (m < c)%nat /\ p = (first k + m)%nat /\
     forall k' m', (k' < NK)%nat -> (m' < c)%nat -> p = (first k' + m')%nat -> k' = k /\ m' = m).

(** A pipe between positions xs and xe with n links: positions x, inverts z, lengths dx, mobile junction at position
    pos.  Junctions are in order, the ends are where they were, the fixed junctions are distinct, the mobile junction is
    strictly inside, inverts lie on the line with slope m from b0, and lengths are distances of neighbours. *)
Record intact (n : nat) (m b0 xs xe : R) (x z dx : arr) (pos : nat) : Prop := mkIntact {
  in_order : forall i, (i < n)%nat -> x i <= x (S i);
  in_first : x O = xs;
  in_last : x n = xe;
  in_fixed : forall i j, (i < j)%nat -> (j <= n)%nat -> i <> pos -> j <> pos -> x i < x j;
  in_pos : (0 < pos)%nat /\ (pos < n)%nat;
  in_mobile : xs < x pos < xe;
  in_line : forall i, (i <= n)%nat -> z i = b0 + m * (x i - xs);
  in_length : forall i, (i < n)%nat -> dx i = x (S i) - x i }.

(** Value at x on the straight line through (x_0, v_0) and (x_1, v_1). *)
Definition interpolated (x_0 v_0 x_1 v_1 x : R) : R := v_0 + (v_1 - v_0) * ((x - x_0) / (x_1 - x_0)).
