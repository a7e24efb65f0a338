(** Specification vocabulary for tables and root finding (independent of the model). *)
From Verif Require Import Prelude.

(** Table abscissae strictly increasing. *)
Definition ascending (l : list R) : Prop :=
  forall i j a b, (i < j)%nat -> nth_error l i = Some a -> nth_error l j = Some b -> a < b.

(** Table values non-decreasing. *)
Definition nondecreasing (l : list R) : Prop :=
  forall i j a b, (i <= j)%nat -> nth_error l i = Some a -> nth_error l j = Some b -> a <= b.

(** [x] lies in the closed interval spanned by [a] and [b] (in either order). *)
Definition between (a b x : R) : Prop := Rmin a b <= x <= Rmax a b.

(** The [k]-th iterate of Newton's method for [f] with slope function [df]. *)
Fixpoint newton_iterate (f df : R -> R) (x0 : R) (k : nat) : R :=
  match k with
  | O => x0
  | S k' => let p := newton_iterate f df x0 k' in p - f p / df p
  end.
