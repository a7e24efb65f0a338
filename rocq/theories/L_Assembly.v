From Verif Require Import Prelude M_Coeffs M_Recurrence M_Assembly S_Network.

Lemma sum_if_ext p q f g n :
  (forall k, (k < n)%nat -> p k = q k /\ (p k = true -> f k = g k)) -> sum_if p f n = sum_if q g n.
Proof.
  intros H. unfold sum_if. apply sum_n_ext. intros k Hk. destruct (H k Hk) as [<- Hf].
  destruct (p k); auto.
Qed.
Lemma sum_if_plus p f g n : sum_if p (fun k => f k + g k) n = sum_if p f n + sum_if p g n.
Proof.
  unfold sum_if. rewrite <- sum_n_plus. apply sum_n_ext. intros k _. destruct (p k); lra.
Qed.
Lemma sum_if_opp p f n : sum_if p (fun k => - f k) n = - sum_if p f n.
Proof.
  unfold sum_if. rewrite <- sum_n_opp. apply sum_n_ext. intros k _. destruct (p k); lra.
Qed.
Lemma sum_if_scal_r p f c n : sum_if p (fun k => f k * c) n = sum_if p f n * c.
Proof.
  unfold sum_if. rewrite <- sum_n_scal_r. apply sum_n_ext. intros k _. destruct (p k); lra.
Qed.
(** Grouping a sum over elements by the junction they are attached to. *)
Lemma sum_if_total M (J : nat -> nat) f n :
  (forall k, (k < n)%nat -> (J k < M)%nat) ->
  sum_n (fun j => sum_if (fun k => Nat.eqb (J k) j) f n) M = sum_n f n.
Proof.
  intros H. unfold sum_if. rewrite sum_n_swap. apply sum_n_ext. intros k Hk.
  rewrite (sum_n_single _ M (J k)); auto.
  - now rewrite Nat.eqb_refl.
  - intros i Hi Hne. destruct (Nat.eqb_spec (J k) i); auto. congruence.
Qed.
(** The same with a weight that depends on the junction. *)
Lemma sum_if_weight M (J : nat -> nat) (p : nat -> bool) f n (H : arr) :
  (forall k, (k < n)%nat -> (J k < M)%nat) ->
  sum_n (fun i => sum_if (fun k => p k && Nat.eqb (J k) i) f n * H i) M
  = sum_if p (fun k => f k * H (J k)) n.
Proof.
  intros HJ. unfold sum_if.
  rewrite (sum_n_ext _ (fun i => sum_n (fun k => (if p k && Nat.eqb (J k) i then f k else 0) * H i) n)).
  2:{ intros i _. now rewrite <- sum_n_scal_r. }
  rewrite sum_n_swap. apply sum_n_ext. intros k Hk.
  rewrite (sum_n_single _ M (J k)); auto.
  - rewrite Nat.eqb_refl, andb_true_r. destruct (p k); lra.
  - intros i Hi Hne. destruct (Nat.eqb_spec (J k) i); [congruence|]. rewrite andb_false_r. lra.
Qed.

Lemma add_at_val a n idx b j :
  numba_add_at a n idx b j = a j + sum_if (fun k => Nat.eqb (idx k) j) b n.
Proof.
  unfold numba_add_at, sum_if. induction n as [|n IH]; simpl; [lra|].
  destruct (Nat.eqb_spec (idx n) j) as [->|Hne].
  - rewrite upd_eq, IH. lra.
  - rewrite upd_neq by congruence. rewrite IH. lra.
Qed.

Lemma upd2_val m i j v i' j' : upd2 m i j v i' j' = if Nat.eqb i' i && Nat.eqb j' j then v else m i' j'.
Proof. reflexivity. Qed.

Lemma set_diagonal_val A bc v diag M i j :
  set_diagonal A bc v diag M i j
  = if Nat.eqb i j && Nat.ltb i M then (if bc i then v else diag i) else A i j.
Proof.
  unfold set_diagonal. induction M as [|M IH]; simpl.
  - rewrite andb_false_r. reflexivity.
  - rewrite upd2_val. destruct (Nat.eqb_spec i M) as [->|H1]; simpl.
    + destruct (Nat.eqb_spec j M) as [->|H2]; simpl.
      * rewrite Nat.eqb_refl. simpl. replace (Nat.ltb M (S M)) with true; auto.
        symmetry; apply Nat.ltb_lt; lia.
      * rewrite IH. destruct (Nat.eqb_spec M j); [congruence|]. reflexivity.
    + rewrite IH. destruct (Nat.eqb i j); auto. simpl.
      destruct (Nat.ltb_spec i M); destruct (Nat.ltb_spec i (S M)); auto; lia.
Qed.

Lemma add_off_val A bc Ju Jd ad bu n i j :
  add_off_diagonals A bc Ju Jd ad bu n i j
  = A i j + (if bc i then 0 else
      sum_if (fun k => Nat.eqb (Ju k) i && Nat.eqb (Jd k) j) bu n
      - sum_if (fun k => Nat.eqb (Jd k) i && Nat.eqb (Ju k) j) ad n).
Proof.
  unfold add_off_diagonals, sum_if. induction n as [|n IH]; simpl.
  - destruct (bc i); lra.
  - set (B := for_n n _ A) in *.
    assert (E1 : forall i j, (if bc (Ju n) then B else upd2 B (Ju n) (Jd n) (B (Ju n) (Jd n) + bu n)) i j
                  = B i j + (if bc i then 0 else if Nat.eqb (Ju n) i && Nat.eqb (Jd n) j then bu n else 0)).
    { intros i' j'. destruct (bc (Ju n)) eqn:E; unfold upd2;
        rewrite ?(Nat.eqb_sym i' (Ju n)), ?(Nat.eqb_sym j' (Jd n));
        destruct (Nat.eqb_spec (Ju n) i') as [<-|N1]; destruct (Nat.eqb_spec (Jd n) j') as [<-|N2]; simpl;
        rewrite ?E; try lra; destruct (bc i'); lra. }
    set (C := if bc (Ju n) then B else _) in *. clearbody C.
    assert (E2 : (if bc (Jd n) then C else upd2 C (Jd n) (Ju n) (C (Jd n) (Ju n) - ad n)) i j
                  = C i j - (if bc i then 0 else if Nat.eqb (Jd n) i && Nat.eqb (Ju n) j then ad n else 0)).
    { destruct (bc (Jd n)) eqn:E; unfold upd2;
        rewrite ?(Nat.eqb_sym i (Jd n)), ?(Nat.eqb_sym j (Ju n));
        destruct (Nat.eqb_spec (Jd n) i) as [<-|N1]; destruct (Nat.eqb_spec (Ju n) j) as [<-|N2]; simpl;
        rewrite ?E; try lra; destruct (bc i); lra. }
    rewrite E2, E1, IH. destruct (bc i); lra.
Qed.

(** Element k connects i and j. *)
Definition touches (Ju Jd : nat -> nat) (i j k : nat) : Prop :=
  (Ju k = i /\ Jd k = j) \/ (Jd k = i /\ Ju k = j).

Lemma clear_val A bc Ju Jd n i j :
  numba_clear_off_diagonals A bc Ju Jd n i j = A i j \/ numba_clear_off_diagonals A bc Ju Jd n i j = 0.
Proof.
  unfold numba_clear_off_diagonals. induction n as [|n IH]; simpl; auto.
  set (B := for_n n _ A) in *. clearbody B.
  destruct (bc (Ju n)), (bc (Jd n)); unfold upd2; auto;
    repeat destruct (Nat.eqb _ _); simpl; auto.
Qed.
Lemma clear_zero A bc Ju Jd n i j :
  bc i = false -> (exists k, (k < n)%nat /\ touches Ju Jd i j k) ->
  numba_clear_off_diagonals A bc Ju Jd n i j = 0.
Proof.
  intros Hb. unfold numba_clear_off_diagonals. induction n as [|n IH]; simpl; intros (k & Hk & Ht); [lia|].
  set (B := for_n n _ A) in *.
  destruct (Nat.eq_dec k n) as [->|Hne].
  - clearbody B. destruct Ht as [[<- <-]|[<- <-]].
    + rewrite Hb. destruct (bc (Jd n)); unfold upd2; rewrite ?Nat.eqb_refl; simpl; auto.
      destruct (Nat.eqb (Ju n) (Jd n) && Nat.eqb (Jd n) (Ju n)); auto.
    + rewrite Hb. unfold upd2; rewrite !Nat.eqb_refl; auto.
  - assert (HB : B i j = 0) by (apply IH; exists k; split; auto; lia). clearbody B.
    destruct (bc (Ju n)), (bc (Jd n)); unfold upd2; auto;
    repeat destruct (Nat.eqb _ _); simpl; auto.
Qed.

(** Entries that no element may write are zero. *)
Definition clean (M : nat) (bc : nat -> bool) (Ju Jd : nat -> nat) (n : nat) (A : mat) : Prop :=
  forall i j, (i < M)%nat -> i <> j ->
    (bc i = true \/ (forall k, (k < n)%nat -> ~ touches Ju Jd i j k)) -> A i j = 0.

Lemma touches_dec Ju Jd i j k : {touches Ju Jd i j k} + {~ touches Ju Jd i j k}.
Proof.
  unfold touches.
  destruct (Nat.eq_dec (Ju k) i), (Nat.eq_dec (Jd k) j), (Nat.eq_dec (Jd k) i), (Nat.eq_dec (Ju k) j);
    solve [left; tauto|right; tauto].
Qed.
Lemma some_touches_dec Ju Jd i j n :
  {exists k, (k < n)%nat /\ touches Ju Jd i j k} + {forall k, (k < n)%nat -> ~ touches Ju Jd i j k}.
Proof.
  induction n as [|n [IH|IH]].
  - right; intros; lia.
  - left. destruct IH as (k & Hk & Ht). exists k; split; auto.
  - destruct (touches_dec Ju Jd i j n) as [H|H].
    + left. exists n; split; auto.
    + right. intros k Hk. destruct (Nat.eq_dec k n) as [->|]; auto. apply IH; lia.
Qed.

Lemma clear_clean M bc Ju Jd n A i j :
  clean M bc Ju Jd n A -> (i < M)%nat -> i <> j -> numba_clear_off_diagonals A bc Ju Jd n i j = 0.
Proof.
  intros Hc Hi Hne. destruct (clear_val A bc Ju Jd n i j) as [E|E]; auto. rewrite E.
  destruct (bc i) eqn:Hb; [apply Hc; auto|].
  destruct (some_touches_dec Ju Jd i j n) as [H|H].
  - now rewrite <- E, clear_zero.
  - apply Hc; auto.
Qed.

Lemma off_terms_zero Ju Jd (f : arr) n i j :
  (forall k, (k < n)%nat -> ~ touches Ju Jd i j k) ->
  sum_if (fun k => Nat.eqb (Ju k) i && Nat.eqb (Jd k) j) f n = 0 /\
  sum_if (fun k => Nat.eqb (Jd k) i && Nat.eqb (Ju k) j) f n = 0.
Proof.
  intros H. split; apply sum_n_0; intros k Hk; specialize (H k Hk); unfold touches in H.
  - destruct (Nat.eqb_spec (Ju k) i); destruct (Nat.eqb_spec (Jd k) j); simpl; auto. tauto.
  - destruct (Nat.eqb_spec (Jd k) i); destruct (Nat.eqb_spec (Ju k) j); simpl; auto. tauto.
Qed.

(** The entry of an assembled matrix. *)
Definition entry (bc : nat -> bool) (on_bc : R) (diag : arr) (Ju Jd : nat -> nat) (ad bu : arr) (n i j : nat) : R :=
  if bc i then (if Nat.eqb i j then on_bc else 0) else
  (if Nat.eqb i j then diag i else 0)
  + sum_if (fun k => Nat.eqb (Ju k) i && Nat.eqb (Jd k) j) bu n
  - sum_if (fun k => Nat.eqb (Jd k) i && Nat.eqb (Ju k) j) ad n.

Lemma assembled_entry M bc v diag Ju Jd ad bu n A i j :
  clean M bc Ju Jd n A -> (i < M)%nat ->
  add_off_diagonals (set_diagonal (numba_clear_off_diagonals A bc Ju Jd n) bc v diag M) bc Ju Jd ad bu n i j
  = entry bc v diag Ju Jd ad bu n i j.
Proof.
  intros Hc Hi. rewrite add_off_val, set_diagonal_val. unfold entry.
  apply Nat.ltb_lt in Hi as Hi'. rewrite Hi', andb_true_r.
  destruct (Nat.eqb_spec i j) as [<-|Hne].
  - destruct (bc i); lra.
  - rewrite (clear_clean M) by auto. destruct (bc i); lra.
Qed.

Lemma assembled_clean M bc v diag Ju Jd ad bu n A :
  clean M bc Ju Jd n A ->
  clean M bc Ju Jd n
    (add_off_diagonals (set_diagonal (numba_clear_off_diagonals A bc Ju Jd n) bc v diag M) bc Ju Jd ad bu n).
Proof.
  intros Hc i j Hi Hne Hz. rewrite (assembled_entry M) by auto. unfold entry.
  destruct (Nat.eqb_spec i j); [contradiction|].
  destruct (bc i) eqn:E; auto. destruct Hz as [Hz|Hz]; [congruence|].
  destruct (off_terms_zero Ju Jd bu n i j Hz) as [-> _].
  destruct (off_terms_zero Ju Jd ad n i j Hz) as [_ ->]. lra.
Qed.

(** Product of a row of an assembled matrix with a head vector. *)
Lemma entry_row M bc v diag Ju Jd ad bu n j (H : arr) :
  ends_in M n Ju Jd -> (j < M)%nat ->
  sum_n (fun i => entry bc v diag Ju Jd ad bu n j i * H i) M
  = if bc j then v * H j else
    diag j * H j + sum_if (fun k => Nat.eqb (Ju k) j) (fun k => bu k * H (Jd k)) n
    - sum_if (fun k => Nat.eqb (Jd k) j) (fun k => ad k * H (Ju k)) n.
Proof.
  intros HE Hj. unfold entry. destruct (bc j).
  - rewrite (sum_n_single _ M j); auto.
    + rewrite Nat.eqb_refl. reflexivity.
    + intros i Hi Hne. destruct (Nat.eqb_spec j i); [congruence|lra].
  - rewrite (sum_n_ext _ (fun i =>
      (if Nat.eqb j i then diag j else 0) * H i
      + sum_if (fun k => Nat.eqb (Ju k) j && Nat.eqb (Jd k) i) bu n * H i
      - sum_if (fun k => Nat.eqb (Jd k) j && Nat.eqb (Ju k) i) ad n * H i)) by (intros; ring).
    rewrite sum_n_minus, sum_n_plus.
    rewrite (sum_if_weight M Jd (fun k => Nat.eqb (Ju k) j)) by (intros; now apply HE).
    rewrite (sum_if_weight M Ju (fun k => Nat.eqb (Jd k) j)) by (intros; now apply HE).
    rewrite (sum_n_single _ M j); auto.
    + rewrite Nat.eqb_refl. reflexivity.
    + intros i Hi Hne. destruct (Nat.eqb_spec j i); [congruence|lra].
Qed.

(** ** The whole assembly *)

Definition xi_u (K : superlinks) (dt : R) : arr := fun k => xi (k_dxu K k) (k_Bu K k) (k_thu K k) dt.
Definition xi_d (K : superlinks) (dt : R) : arr := fun k => xi (k_dxd K k) (k_Bd K k) (k_thd K k) dt.

(** Diagonals and right-hand side contributions in closed form. *)
Definition diag_A (K : superlinks) (A_sj : arr) (dt : R) (j : nat) : R :=
  sum_if (fun k => Nat.eqb (k_Ju K k) j) (fun k => k_au K k + xi_u K dt k) (k_n K)
  + sum_if (fun k => Nat.eqb (k_Jd K k) j) (fun k => - k_bd K k + xi_d K dt k) (k_n K)
  + A_sj j / dt.
Definition diag_C (C : controls) (j : nat) : R :=
  sum_if (fun k => Nat.eqb (c_Ju C k) j) (c_a C) (c_n C)
  + sum_if (fun k => Nat.eqb (c_Jd C k) j) (fun k => - c_b C k) (c_n C).
Definition rhs_K (K : superlinks) (H_prev : arr) (dt : R) (j : nat) : R :=
  sum_if (fun k => Nat.eqb (k_Ju K k) j) (fun k => - k_cu K k + xi_u K dt k * H_prev (k_Ju K k)) (k_n K)
  + sum_if (fun k => Nat.eqb (k_Jd K k) j) (fun k => k_cd K k + xi_d K dt k * H_prev (k_Jd K k)) (k_n K).
Definition rhs_C (C : controls) (j : nat) : R :=
  sum_if (fun k => Nat.eqb (c_Ju C k) j) (fun k => - c_c C k) (c_n C)
  + sum_if (fun k => Nat.eqb (c_Jd C k) j) (c_c C) (c_n C).

Definition clean_system (M : nat) (bc : nat -> bool) (K : superlinks) (CO CW CP : controls) (s : system) : Prop :=
  clean M bc (k_Ju K) (k_Jd K) (k_n K) (s_A s) /\
  (clean M bc (c_Ju CO) (c_Jd CO) (c_n CO) (s_O s) /\ (c_n CO = 0%nat -> forall i j, s_O s i j = 0)) /\
  (clean M bc (c_Ju CW) (c_Jd CW) (c_n CW) (s_W s) /\ (c_n CW = 0%nat -> forall i j, s_W s i j = 0)) /\
  (clean M bc (c_Ju CP) (c_Jd CP) (c_n CP) (s_P s) /\ (c_n CP = 0%nat -> forall i j, s_P s i j = 0)).

Lemma sum_if_O p f : sum_if p f 0 = 0.
Proof. reflexivity. Qed.

Lemma assemble_controls_ok M bc C X dg D X' dg' D' :
  clean M bc (c_Ju C) (c_Jd C) (c_n C) X -> (c_n C = 0%nat -> forall i j, X i j = 0) ->
  assemble_controls X dg D bc M C = (X', dg', D') ->
  (forall i j, (i < M)%nat -> X' i j = entry bc 0 (diag_C C) (c_Ju C) (c_Jd C) (c_a C) (c_b C) (c_n C) i j) /\
  (forall j, D' j = D j + rhs_C C j) /\
  clean M bc (c_Ju C) (c_Jd C) (c_n C) X' /\ (c_n C = 0%nat -> forall i j, X' i j = 0).
Proof.
  intros Hc Hz. unfold assemble_controls. destruct (Nat.eqb_spec (c_n C) 0) as [E|E].
  - injection 1 as <- <- <-. split; [|split; [|split; auto]].
    + intros i j Hi. rewrite Hz by auto. unfold entry, diag_C. rewrite E, !sum_if_O.
      destruct (bc i), (Nat.eqb i j); lra.
    + intros j. unfold rhs_C. rewrite E, !sum_if_O. lra.
  - unfold numba_create_OWP_matrix. injection 1 as <- <- <-.
    split; [|split; [|split]].
    + intros i j Hi. rewrite (assembled_entry M) by auto. unfold entry, diag_C.
      rewrite !add_at_val. unfold zeros.
      destruct (bc i), (Nat.eqb i j); lra.
    + intros j. rewrite !add_at_val. unfold rhs_C. lra.
    + now apply assembled_clean.
    + contradiction.
Qed.

Section Whole.
  Variables (M : nat) (bc : nat -> bool) (K : superlinks) (CO CW CP : controls).
  Variables (A_sj H_prev H_bc Q_0j : arr) (dt : R).

  Lemma assembly_ok s :
    clean_system M bc K CO CW CP s ->
    let s' := sparse_matrix_equations M bc K CO CW CP A_sj H_prev H_bc Q_0j dt s in
    clean_system M bc K CO CW CP s' /\
    (forall i j, (i < M)%nat ->
       s_A s' i j = entry bc 1 (diag_A K A_sj dt) (k_Ju K) (k_Jd K) (k_ad K) (k_bu K) (k_n K) i j /\
       s_O s' i j = entry bc 0 (diag_C CO) (c_Ju CO) (c_Jd CO) (c_a CO) (c_b CO) (c_n CO) i j /\
       s_W s' i j = entry bc 0 (diag_C CW) (c_Ju CW) (c_Jd CW) (c_a CW) (c_b CW) (c_n CW) i j /\
       s_P s' i j = entry bc 0 (diag_C CP) (c_Ju CP) (c_Jd CP) (c_a CP) (c_b CP) (c_n CP) i j) /\
    (forall j, s_b s' j = if bc j then H_bc j else
       A_sj j * H_prev j / dt + Q_0j j + (rhs_K K H_prev dt j + rhs_C CO j + rhs_C CW j + rhs_C CP j)).
  Proof.
    intros (HA & [HO ZO] & [HW ZW] & [HP ZP]). unfold sparse_matrix_equations, numba_create_A_matrix.
    set (D0 := numba_add_at (numba_add_at (numba_add_at _ _ _ _) _ _ _) _ _ _).
    assert (ED : forall j, D0 j = rhs_K K H_prev dt j).
    { intros j. unfold D0. rewrite !add_at_val. unfold rhs_K, zeros, xi_u, xi_d. rewrite !sum_if_plus. lra. }
    clearbody D0.
    destruct (assemble_controls (s_O s) _ _ _ _ _) as [[Om Od] D1] eqn:EO.
    destruct (assemble_controls_ok M bc CO _ _ _ _ _ _ HO ZO EO) as (VO & DO & CLO & ZO').
    destruct (assemble_controls (s_W s) _ _ _ _ _) as [[Wm Wd] D2] eqn:EW.
    destruct (assemble_controls_ok M bc CW _ _ _ _ _ _ HW ZW EW) as (VW & DW & CLW & ZW').
    destruct (assemble_controls (s_P s) _ _ _ _ _) as [[Pm Pd] D3] eqn:EP.
    destruct (assemble_controls_ok M bc CP _ _ _ _ _ _ HP ZP EP) as (VP & DP & CLP & ZP').
    cbn zeta. simpl. split; [|split].
    - unfold clean_system. simpl. split; auto. now apply assembled_clean.
    - intros i j Hi. split; auto. rewrite (assembled_entry M) by auto.
      unfold entry, diag_A. rewrite !add_at_val, !sum_if_plus. unfold zeros, xi_u, xi_d.
      destruct (bc i), (Nat.eqb i j); lra.
    - intros j. rewrite DP, DW, DO, ED. destruct (bc j); lra.
  Qed.

  Lemma fresh_clean : clean_system M bc K CO CW CP fresh_system.
  Proof.
    unfold clean_system, clean, fresh_system, zeros2; simpl. repeat split; auto.
  Qed.

  Lemma matrix_entry s i j :
    clean_system M bc K CO CW CP s -> 
    system_matrix (c_n CO) (c_n CW) (c_n CP) s i j = s_A s i j + s_O s i j + s_W s i j + s_P s i j.
  Proof.
    intros (_ & [_ ZO] & [_ ZW] & [_ ZP]). unfold system_matrix.
    destruct (Nat.eqb_spec (c_n CO + c_n CW + c_n CP) 0) as [E|E]; simpl; auto.
    rewrite ZO, ZW, ZP by lia. lra.
  Qed.
End Whole.
