(** A linear solver of the kind the theorems on whole models assume: Gaussian elimination on exact numbers.  It is not
    part of the code (which calls scipy); it shows that such solvers exist. *)
From Verif Require Import Prelude S_Network M_Coeffs M_Assembly M_Recurrence M_Step M_Model S_Model.

(** A row with a non-zero entry. *)
Fixpoint pivot (f : arr) (n : nat) : option nat :=
  match n with O => None | S n => if Reqb (f n) 0 then pivot f n else Some n end.
Lemma pivot_some f n p : pivot f n = Some p -> (p < n)%nat /\ f p <> 0.
Proof.
  induction n as [|n IH]; simpl; [discriminate|]. destruct (Reqb_spec (f n) 0).
  - intros E. destruct (IH E). auto.
  - intros E. injection E as <-. auto.
Qed.
Lemma pivot_none f n : pivot f n = None -> forall p, (p < n)%nat -> f p = 0.
Proof.
  induction n as [|n IH]; simpl; intros E p Hp; [lia|]. destruct (Reqb_spec (f n) 0); [|discriminate].
  destruct (Nat.eq_dec p n) as [->|]; auto. apply IH; auto. lia.
Qed.

Definition swap (p M i : nat) : nat := if Nat.eqb i p then M else if Nat.eqb i M then p else i.
Lemma swap_swap p M i : swap p M (swap p M i) = i.
Proof.
  unfold swap. destruct (Nat.eqb_spec i p) as [->|A].
  - destruct (Nat.eqb_spec M p); auto. now rewrite Nat.eqb_refl.
  - destruct (Nat.eqb_spec i M) as [->|B]; [now rewrite Nat.eqb_refl|].
    destruct (Nat.eqb_spec i p); [lia|]. destruct (Nat.eqb_spec i M); [lia|auto].
Qed.
Lemma swap_le p M i : (p <= M)%nat -> (i <= M)%nat -> (swap p M i <= M)%nat.
Proof. intros. unfold swap. destruct (Nat.eqb_spec i p); [lia|]. destruct (Nat.eqb_spec i M); lia. Qed.

Fixpoint gauss (M : nat) (l : mat) (b : arr) : option arr :=
  match M with
  | O => Some zeros
  | S M =>
      match pivot (fun i => l i M) (S M) with
      | None => None
      | Some p =>
          let l1 := (fun i j => l (swap p M i) j) in
          let b1 := (fun i => b (swap p M i)) in
          let q := (fun i => l1 i M / l1 M M) in
          do H <- gauss M (fun i j => l1 i j - q i * l1 M j) (fun i => b1 i - q i * b1 M);
          Some (upd H M ((b1 M - sum_n (fun j => l1 M j * H j) M) / l1 M M))
      end
  end.

Section Elimination.
Variables (M : nat) (l : mat) (b : arr).
Hypothesis HM : l M M <> 0.
Let l' : mat := fun i j => l i j - l i M / l M M * l M j.
Let b' : arr := fun i => b i - l i M / l M M * b M.
Let last (H : arr) : R := (b M - sum_n (fun j => l M j * H j) M) / l M M.

Lemma reduced_row (H : arr) (i : nat) :
  sum_n (fun j => l' i j * H j) M = sum_n (fun j => l i j * H j) M - l i M / l M M * sum_n (fun j => l M j * H j) M.
Proof. rewrite <- sum_n_scal, <- sum_n_minus. apply sum_n_ext. intros; unfold l'; ring. Qed.

Lemma extend (H : arr) : solves M l' b' H -> solves (S M) l b (upd H M (last H)).
Proof.
  intros S i Hi. unfold row_holds. simpl. rewrite upd_eq.
  rewrite (sum_n_ext _ (fun j => l i j * H j)) by (intros j Hj; rewrite upd_neq by lia; reflexivity).
  destruct (Nat.eq_dec i M) as [->|].
  - unfold last. field. auto.
  - specialize (S i ltac:(lia)). unfold row_holds in S. rewrite reduced_row in S. unfold b' in S.
    assert (E : sum_n (fun j => l i j * H j) M = b i - l i M / l M M * b M + l i M / l M M * sum_n (fun j => l M j * H j) M) by lra.
    rewrite E. unfold last. field. auto.
Qed.
Lemma restrict (H : arr) : solves (S M) l b H -> solves M l' b' H.
Proof.
  intros S i Hi. unfold row_holds. rewrite reduced_row. unfold b'.
  pose proof (S i ltac:(lia)) as Si. pose proof (S M ltac:(lia)) as SM. unfold row_holds in Si, SM. simpl in Si, SM.
  rewrite <- Si, <- SM. field. auto.
Qed.
End Elimination.

Lemma solves_swap M p l b H : (p <= M)%nat ->
  (solves (S M) (fun i j => l (swap p M i) j) (fun i => b (swap p M i)) H <-> solves (S M) l b H).
Proof.
  intros Hp. split; intros S i Hi; unfold row_holds in *.
  - specialize (S (swap p M i) ltac:(pose proof (swap_le p M i Hp ltac:(lia)); lia)). unfold row_holds in S. cbv beta in S.
    rewrite swap_swap in S. exact S.
  - exact (S (swap p M i) ltac:(pose proof (swap_le p M i Hp ltac:(lia)); lia)).
Qed.

Lemma gauss_solver M : solver M (gauss M).
Proof.
  induction M as [|M IH]; intros l b Ex Un.
  - exists zeros. split; [reflexivity|]. intros j Hj. lia.
  - cbn [gauss]. destruct (pivot (fun i => l i M) (S M)) as [p|] eqn:Ep.
    + destruct (pivot_some _ _ _ Ep) as [Hp Np]. assert (Hp' : (p <= M)%nat) by lia.
      set (l1 := fun i j => l (swap p M i) j). set (b1 := fun i => b (swap p M i)).
      assert (N1 : l1 M M <> 0).
      { unfold l1, swap. rewrite Nat.eqb_refl. destruct (Nat.eqb_spec M p) as [<-|]; auto. }
      cbv zeta. destruct (IH (fun i j => l1 i j - l1 i M / l1 M M * l1 M j) (fun i => b1 i - l1 i M / l1 M M * b1 M)) as (H & E & S).
      * destruct Ex as [H S]. exists H. apply restrict; auto. apply (solves_swap M p l b); auto.
      * intros H H' S S' j Hj.
        pose proof (extend M l1 b1 N1 H S) as X. pose proof (extend M l1 b1 N1 H' S') as X'.
        apply (solves_swap M p l b) in X; auto. apply (solves_swap M p l b) in X'; auto.
        specialize (Un _ _ X X' j ltac:(lia)). rewrite !upd_neq in Un by lia. exact Un.
      * match goal with |- context [gauss M ?x ?y] => change (gauss M x y) with
          (gauss M (fun i j => l1 i j - l1 i M / l1 M M * l1 M j) (fun i => b1 i - l1 i M / l1 M M * b1 M)) end.
        rewrite E. cbn [bind]. eexists; split; [reflexivity|].
        apply (solves_swap M p l b); auto. exact (extend M l1 b1 N1 H S).
    + exfalso. destruct Ex as [H S]. pose proof (pivot_none _ _ Ep) as Z. cbv beta in Z.
      assert (S' : solves (Datatypes.S M) l b (upd H M (H M + 1))).
      { intros i Hi. specialize (S i Hi). unfold row_holds in *. simpl in *. rewrite upd_eq.
        rewrite (sum_n_ext _ (fun j => l i j * H j)) by (intros j Hj; rewrite upd_neq by lia; reflexivity).
        rewrite (Z i Hi) in *. lra. }
      specialize (Un _ _ S S' M ltac:(lia)). rewrite upd_eq in Un. lra.
Qed.

(** Whatever it returns is a solution. *)
Lemma gauss_sound M : forall l b H, gauss M l b = Some H -> solves M l b H.
Proof.
  induction M as [|M IH]; intros l b H E; [intros j Hj; lia|].
  cbn [gauss] in E. destruct (pivot (fun i => l i M) (S M)) as [p|] eqn:Ep; [|discriminate].
  destruct (pivot_some _ _ _ Ep) as [Hp Np]. assert (Hp' : (p <= M)%nat) by lia.
  cbv zeta in E. set (l1 := fun i j => l (swap p M i) j) in *. set (b1 := fun i => b (swap p M i)) in *.
  assert (N1 : l1 M M <> 0).
  { unfold l1, swap. rewrite Nat.eqb_refl. destruct (Nat.eqb_spec M p) as [<-|]; auto. }
  destruct (gauss M _ _) as [H0|] eqn:E0 in E; [|discriminate]. cbn [bind] in E. injection E as <-.
  apply IH in E0. apply (solves_swap M p l b); auto. exact (extend M l1 b1 N1 H0 E0).
Qed.
