(** Inverses of square matrices: a right inverse is a left inverse, and an inversion routine of the kind the theorems on
    the Kalman filters assume exists (Gaussian elimination on exact numbers; not part of the code, which calls numpy). *)
From Verif Require Import Prelude S_Network M_Coeffs L_Square M_Kalman P_Kalman S_Model L_Gauss.

(** The homogeneous system has only the trivial solution. *)
Definition nonsingular (n : nat) (A : mat) : Prop :=
  forall v, (forall i, (i < n)%nat -> sum_n (fun j => A i j * v j) n = 0) -> forall j, (j < n)%nat -> v j = 0.

Definition unit_entry (i j : nat) : R := if Nat.eqb i j then 1 else 0.

Lemma sum_unit n i (v : nat -> R) : (i < n)%nat -> sum_n (fun j => unit_entry i j * v j) n = v i.
Proof.
  intros Hi. rewrite (sum_n_single _ n i Hi).
  - unfold unit_entry. rewrite Nat.eqb_refl. ring.
  - intros j _ Ne. unfold unit_entry. destruct (Nat.eqb_spec i j); [congruence|ring].
Qed.
Lemma sum_prod (A B : mat) (v : nat -> R) n i : sum_n (fun j => sum_n (fun l => A i l * B l j) n * v j) n =
  sum_n (fun l => A i l * sum_n (fun j => B l j * v j) n) n.
Proof.
  rewrite (sum_n_ext _ (fun j => sum_n (fun l => A i l * B l j * v j) n)).
  2:{ intros j _. symmetry. apply sum_n_scal_r. }
  rewrite sum_n_swap. apply sum_n_ext. intros l _. rewrite <- sum_n_scal. apply sum_n_ext. intros; ring.
Qed.

Lemma right_inverse_left n A B :
  (forall i j, (i < n)%nat -> (j < n)%nat -> sum_n (fun l => A i l * B l j) n = unit_entry i j) ->
  forall i j, (i < n)%nat -> (j < n)%nat -> sum_n (fun l => B i l * A l j) n = unit_entry i j.
Proof.
  intros HR i j Hi Hj.
  assert (AB : forall v i, (i < n)%nat -> sum_n (fun l => A i l * sum_n (fun j => B l j * v j) n) n = v i).
  { intros v i0 Hi0. rewrite <- sum_prod. rewrite <- (sum_unit n i0 v Hi0). apply sum_n_ext. intros l Hl. now rewrite HR. }
  (* column j of the identity is B w for some w *)
  destruct (square_solvable n B (fun i => unit_entry i j)) as [w Hw].
  { intros v Hv l Hl. rewrite <- (AB v l Hl). apply sum_n_0. intros q Hq. rewrite Hv by auto. ring. }
  unfold solves, row_holds in Hw.
  (* column j of A is then w *)
  assert (Ew : forall l, (l < n)%nat -> A l j = w l).
  { intros l Hl. rewrite <- (AB w l Hl).
    rewrite (sum_n_ext _ (fun q => A l q * unit_entry q j)) by (intros q Hq; now rewrite Hw).
    rewrite (sum_n_single _ n j Hj).
    - unfold unit_entry. rewrite Nat.eqb_refl. ring.
    - intros q _ Ne. unfold unit_entry. destruct (Nat.eqb_spec q j); [congruence|ring]. }
  rewrite (sum_n_ext _ (fun l => B i l * w l)) by (intros l Hl; now rewrite Ew). apply Hw, Hi.
Qed.

(** Columns by elimination, then a check of the product. *)
Definition gauss_columns (n : nat) (A : mat) : mat := fun i j =>
  if Nat.ltb i n && Nat.ltb j n then
    match gauss n A (fun l => unit_entry l j) with Some x => x i | None => 0 end
  else 0.
Definition gauss_inv (n : nat) (A : mat) : option mat :=
  let B := gauss_columns n A in
  if forallb (fun i => forallb (fun j => Reqb (sum_n (fun l => A i l * B l j) n) (unit_entry i j)) (seq 0 n)) (seq 0 n)
  then Some B else None.

Lemma gauss_inv_ok n A B : gauss_inv n A = Some B -> inverse n A B.
Proof.
  unfold gauss_inv. destruct (forallb _ (seq 0 n)) eqn:E; [|discriminate]. intros X; injection X as <-.
  assert (R : forall i j, (i < n)%nat -> (j < n)%nat -> sum_n (fun l => A i l * gauss_columns n A l j) n = unit_entry i j).
  { intros i j Hi Hj. rewrite forallb_forall in E. specialize (E i ltac:(apply in_seq; lia)).
    rewrite forallb_forall in E. specialize (E j ltac:(apply in_seq; lia)). destruct (Reqb_spec (sum_n (fun l => A i l * gauss_columns n A l j) n) (unit_entry i j)); [auto|discriminate]. }
  split.
  - intros i j H. unfold gauss_columns. destruct (Nat.ltb_spec i n), (Nat.ltb_spec j n); cbn; auto; lia.
  - intros i j Hi Hj. split; [apply R; auto | apply (right_inverse_left n A _ R); auto].
Qed.
Lemma gauss_inv_complete n A : nonsingular n A -> exists B, gauss_inv n A = Some B.
Proof.
  intros HN. unfold gauss_inv.
  assert (E : forallb (fun i => forallb (fun j => Reqb (sum_n (fun l => A i l * gauss_columns n A l j) n) (unit_entry i j)) (seq 0 n)) (seq 0 n) = true).
  { apply forallb_forall. intros i Hi. apply forallb_forall. intros j Hj. apply in_seq in Hi, Hj.
    destruct (gauss_solver n A (fun l => unit_entry l j)) as [x [Ex Hx]].
    - apply square_solvable, HN.
    - intros x y Hx Hy l Hl. apply Rminus_diag_uniq. apply (HN (fun l => x l - y l)); [|exact Hl].
      intros q Hq. specialize (Hx q Hq). specialize (Hy q Hq). unfold row_holds in Hx, Hy.
      rewrite (sum_n_ext _ (fun l => A q l * x l - A q l * y l)) by (intros; ring). rewrite sum_n_minus, Hx, Hy. ring.
    - rewrite (sum_n_ext _ (fun l => A i l * x l)).
      + specialize (Hx i ltac:(lia)). unfold row_holds in Hx. rewrite Hx. destruct (Reqb_spec (unit_entry i j) (unit_entry i j)); [auto|contradiction].
      + intros l Hl. unfold gauss_columns. destruct (Nat.ltb_spec l n), (Nat.ltb_spec j n); try lia. cbn [andb]. now rewrite Ex. }
  rewrite E. eauto.
Qed.
Lemma inverse_nonsingular n A B : inverse n A B -> nonsingular n A.
Proof.
  intros [_ H] v Hv j Hj. rewrite <- (sum_unit n j v Hj).
  rewrite (sum_n_ext _ (fun l => sum_n (fun q => B j q * A q l) n * v l)).
  - rewrite sum_prod. apply sum_n_0. intros l Hl. rewrite Hv by auto. ring.
  - intros l Hl. f_equal. symmetry. apply H; auto.
Qed.
