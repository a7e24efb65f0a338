(** Common vocabulary of the model: comparisons on reals as booleans, NumPy-like
    arrays as total maps with point update, `for` loops, finite sums. *)
From Coq Require Export Reals List Arith Bool Lia Lra Psatz.
Export ListNotations.
Open Scope R_scope.

(** Python comparisons [x < y], [x <= y], [x == y] on float64 (NaN not modelled). *)
Definition Rltb (x y : R) : bool := if Rlt_dec x y then true else false.
Definition Rleb (x y : R) : bool := if Rle_dec x y then true else false.
Definition Reqb (x y : R) : bool := if Req_EM_T x y then true else false.

Lemma Rltb_spec x y : reflect (x < y) (Rltb x y).
Proof. unfold Rltb; destruct (Rlt_dec x y); constructor; lra. Qed.
Lemma Rleb_spec x y : reflect (x <= y) (Rleb x y).
Proof. unfold Rleb; destruct (Rle_dec x y); constructor; lra. Qed.
Lemma Reqb_spec x y : reflect (x = y) (Reqb x y).
Proof. unfold Reqb; destruct (Req_EM_T x y); constructor; auto. Qed.

Lemma Rltb_true x y : Rltb x y = true <-> x < y.
Proof. destruct (Rltb_spec x y); split; intros; try lra; try discriminate; auto. Qed.
Lemma Rltb_false x y : Rltb x y = false <-> y <= x.
Proof. destruct (Rltb_spec x y); split; intros; try lra; try discriminate; auto. Qed.
Lemma Rleb_true x y : Rleb x y = true <-> x <= y.
Proof. destruct (Rleb_spec x y); split; intros; try lra; try discriminate; auto. Qed.
Lemma Rleb_false x y : Rleb x y = false <-> y < x.
Proof. destruct (Rleb_spec x y); split; intros; try lra; try discriminate; auto. Qed.
Lemma Reqb_true x y : Reqb x y = true <-> x = y.
Proof. destruct (Reqb_spec x y); split; intros; try lra; try discriminate; auto. Qed.
Lemma Reqb_false x y : Reqb x y = false <-> x <> y.
Proof. destruct (Reqb_spec x y); split; intros; try lra; try discriminate; auto; contradiction. Qed.

(** Split on every boolean real comparison of the goal. *)
Ltac dR :=
  repeat match goal with
  | |- context [Rltb ?x ?y] => destruct (Rltb_spec x y)
  | |- context [Rleb ?x ?y] => destruct (Rleb_spec x y)
  | |- context [Reqb ?x ?y] => destruct (Reqb_spec x y)
  end.
Ltac dRin H :=
  repeat match type of H with
  | context [Rltb ?x ?y] => destruct (Rltb_spec x y)
  | context [Rleb ?x ?y] => destruct (Rleb_spec x y)
  | context [Reqb ?x ?y] => destruct (Reqb_spec x y)
  end.

(** Arrays (1-d NumPy arrays): total maps; [upd a i v] is [a[i] = v]. *)
Definition arr := nat -> R.
Definition upd {A : Type} (a : nat -> A) (i : nat) (v : A) : nat -> A :=
  fun j => if Nat.eqb j i then v else a j.
Lemma upd_eq {A} (a : nat -> A) i v : upd a i v i = v.
Proof. unfold upd; now rewrite Nat.eqb_refl. Qed.
Lemma upd_neq {A} (a : nat -> A) i v j : j <> i -> upd a i v j = a j.
Proof. intros H; unfold upd; apply Nat.eqb_neq in H; now rewrite H. Qed.

(** Matrices (2-d NumPy arrays); [upd2 m i j v] is [m[i, j] = v]. *)
Definition mat := nat -> nat -> R.
Definition upd2 (m : mat) (i j : nat) (v : R) : mat :=
  fun i' j' => if Nat.eqb i' i && Nat.eqb j' j then v else m i' j'.
Lemma upd2_eq m i j v : upd2 m i j v i j = v.
Proof. unfold upd2; now rewrite !Nat.eqb_refl. Qed.
Lemma upd2_neq m i j v i' j' : (i' <> i \/ j' <> j) -> upd2 m i j v i' j' = m i' j'.
Proof.
  intros H; unfold upd2.
  destruct (Nat.eqb_spec i' i); destruct (Nat.eqb_spec j' j); simpl; auto; lia.
Qed.

(** [for i in range(n): s = body(i, s)] *)
Fixpoint for_n {S : Type} (n : nat) (body : nat -> S -> S) (s : S) : S :=
  match n with
  | O => s
  | Datatypes.S m => body m (for_n m body s)
  end.

Lemma for_n_inv {S} (P : nat -> S -> Prop) n body (s : S) :
  P 0%nat s ->
  (forall i s', (i < n)%nat -> P i s' -> P (Datatypes.S i) (body i s')) ->
  P n (for_n n body s).
Proof.
  intros H0 Hs. assert (G : forall m, (m <= n)%nat -> P m (for_n m body s)).
  { induction m as [|m IH]; intros Hm; simpl; auto. apply Hs; [lia|]. apply IH; lia. }
  apply G; lia.
Qed.

(** Loops that may raise: [None] is the raised exception and stops the loop. *)
Fixpoint for_opt {S : Type} (n : nat) (body : nat -> S -> option S) (s : S) : option S :=
  match n with
  | O => Some s
  | Datatypes.S m => match for_opt m body s with
                     | None => None
                     | Some s' => body m s'
                     end
  end.

Lemma for_opt_inv {S} (P : nat -> S -> Prop) n body (s s' : S) :
  P 0%nat s ->
  (forall i s1 s2, (i < n)%nat -> P i s1 -> body i s1 = Some s2 -> P (Datatypes.S i) s2) ->
  for_opt n body s = Some s' ->
  P n s'.
Proof.
  intros H0 Hs. revert s'.
  assert (G : forall m, (m <= n)%nat -> forall s', for_opt m body s = Some s' -> P m s').
  { induction m as [|m IH]; intros Hm s' E; simpl in E.
    - inversion E; subst; auto.
    - destruct (for_opt m body s) as [s1|] eqn:E1; [|discriminate].
      apply (Hs m s1); [lia| apply IH; auto; lia | exact E]. }
  intros s'; apply G; lia.
Qed.

Lemma for_opt_total {S} (P : nat -> S -> Prop) n body (s : S) :
  P 0%nat s ->
  (forall i s1, (i < n)%nat -> P i s1 -> exists s2, body i s1 = Some s2 /\ P (Datatypes.S i) s2) ->
  exists s', for_opt n body s = Some s' /\ P n s'.
Proof.
  intros H0 Hs.
  assert (G : forall m, (m <= n)%nat -> exists s', for_opt m body s = Some s' /\ P m s').
  { induction m as [|m IH]; intros Hm; simpl.
    - eauto.
    - destruct IH as [s1 [E1 P1]]; [lia|]. rewrite E1. apply Hs; auto; lia. }
  apply G; lia.
Qed.

(** [sum_n f n] is [f 0 + ... + f (n-1)]. *)
Fixpoint sum_n (f : nat -> R) (n : nat) : R :=
  match n with
  | O => 0
  | Datatypes.S m => sum_n f m + f m
  end.

Lemma sum_n_ext f g n : (forall i, (i < n)%nat -> f i = g i) -> sum_n f n = sum_n g n.
Proof.
  induction n as [|n IH]; intros H; simpl; auto.
  rewrite IH, H; auto.
Qed.
Lemma sum_n_plus f g n : sum_n (fun i => f i + g i) n = sum_n f n + sum_n g n.
Proof. induction n as [|n IH]; simpl; [lra|rewrite IH; lra]. Qed.
Lemma sum_n_minus f g n : sum_n (fun i => f i - g i) n = sum_n f n - sum_n g n.
Proof. induction n as [|n IH]; simpl; [lra|rewrite IH; lra]. Qed.
Lemma sum_n_opp f n : sum_n (fun i => - f i) n = - sum_n f n.
Proof. induction n as [|n IH]; simpl; [lra|rewrite IH; lra]. Qed.
Lemma sum_n_scal c f n : sum_n (fun i => c * f i) n = c * sum_n f n.
Proof. induction n as [|n IH]; simpl; [lra|rewrite IH; lra]. Qed.
Lemma sum_n_scal_r c f n : sum_n (fun i => f i * c) n = sum_n f n * c.
Proof. induction n as [|n IH]; simpl; [lra|rewrite IH; lra]. Qed.
Lemma sum_n_zero n : sum_n (fun _ => 0) n = 0.
Proof. induction n as [|n IH]; simpl; [lra|rewrite IH; lra]. Qed.
Lemma sum_n_0 f n : (forall i, (i < n)%nat -> f i = 0) -> sum_n f n = 0.
Proof. intros H; rewrite (sum_n_ext f (fun _ => 0)); auto using sum_n_zero. Qed.
Lemma sum_n_le f g n : (forall i, (i < n)%nat -> f i <= g i) -> sum_n f n <= sum_n g n.
Proof.
  induction n as [|n IH]; intros H; simpl; [lra|].
  assert (sum_n f n <= sum_n g n) by (apply IH; auto). assert (f n <= g n) by auto. lra.
Qed.
Lemma sum_n_nonneg f n : (forall i, (i < n)%nat -> 0 <= f i) -> 0 <= sum_n f n.
Proof.
  intros H. rewrite <- (sum_n_zero n). apply sum_n_le; auto.
Qed.
Lemma sum_n_swap f n m :
  sum_n (fun i => sum_n (fun j => f i j) m) n = sum_n (fun j => sum_n (fun i => f i j) n) m.
Proof.
  induction n as [|n IH]; simpl.
  - now rewrite sum_n_zero.
  - rewrite IH, <- sum_n_plus. reflexivity.
Qed.
Lemma sum_n_abs f n : Rabs (sum_n f n) <= sum_n (fun i => Rabs (f i)) n.
Proof.
  induction n as [|n IH]; simpl.
  - rewrite Rabs_R0; lra.
  - eapply Rle_trans; [apply Rabs_triang|lra].
Qed.
Lemma sum_n_S_l f n : sum_n f (Datatypes.S n) = f 0%nat + sum_n (fun i => f (Datatypes.S i)) n.
Proof. induction n as [|n IH]; simpl in *; [lra|]. rewrite IH; lra. Qed.
Lemma sum_n_app f n m : sum_n f (n + m) = sum_n f n + sum_n (fun i => f (n + i)%nat) m.
Proof.
  induction m as [|m IH]; simpl.
  - rewrite Nat.add_0_r; lra.
  - rewrite Nat.add_succ_r; simpl. rewrite IH; lra.
Qed.

(** Picking out one term of a sum. *)
Lemma sum_n_single f n k :
  (k < n)%nat -> (forall i, (i < n)%nat -> i <> k -> f i = 0) -> sum_n f n = f k.
Proof.
  induction n as [|n IH]; intros Hk H; [lia|]. simpl.
  destruct (Nat.eq_dec k n) as [->|Hne].
  - rewrite sum_n_0; [lra|]. intros i Hi; apply H; lia.
  - rewrite IH by (try lia; intros; apply H; lia).
    rewrite (H n) by lia. lra.
Qed.
Lemma sum_n_split f n k :
  (k < n)%nat ->
  sum_n f n = f k + sum_n (fun i => if Nat.eqb i k then 0 else f i) n.
Proof.
  intros Hk.
  rewrite (sum_n_ext f (fun i => (if Nat.eqb i k then f k else 0) + (if Nat.eqb i k then 0 else f i))).
  - rewrite sum_n_plus. f_equal.
    rewrite (sum_n_single _ n k Hk).
    + now rewrite Nat.eqb_refl.
    + intros i Hi Hne. apply Nat.eqb_neq in Hne. now rewrite Hne.
  - intros i Hi. destruct (Nat.eqb_spec i k); subst; lra.
Qed.

(** Kronecker-style indicator used in specifications. *)
Definition ind (b : bool) : R := if b then 1 else 0.

(** Clamp used by the code as [min(max(x, lo), hi)]. *)
Definition clamp (lo hi x : R) : R := Rmin (Rmax x lo) hi.
Lemma clamp_range lo hi x : lo <= hi -> lo <= clamp lo hi x <= hi.
Proof.
  intros H; unfold clamp, Rmin, Rmax.
  destruct (Rle_dec x lo); destruct (Rle_dec _ hi); lra.
Qed.
Lemma clamp_id lo hi x : lo <= x <= hi -> clamp lo hi x = x.
Proof.
  intros H; unfold clamp, Rmin, Rmax.
  destruct (Rle_dec x lo); destruct (Rle_dec _ hi); lra.
Qed.
