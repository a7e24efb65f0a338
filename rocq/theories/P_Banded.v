(** Properties C29 (banded storage) and C30 (bandwidth). *)
From Verif Require Import Prelude M_Coeffs M_Recurrence M_Assembly M_Banded S_Network L_Assembly P_Assembly.

(** ** C29  Banded storage *)

(** The layout documented for scipy.linalg.solve_banded((w, w), ab, r):  ab[w + i - j, j] = a[i, j] for |i - j| <= w;
    the solver solves this system and ignores all other entries of ab. *)
Definition in_band (w i j : nat) : bool := Nat.leb i (j + w) && Nat.leb j (i + w).
Definition banded_solves (M w : nat) (ab : mat) (r x : arr) : Prop :=
  forall i, (i < M)%nat -> sum_n (fun j => (if in_band w i j then ab (w + i - j)%nat j else 0) * x j) M = r i.

Lemma band_inner l bw M n AB r c : forall m, (n < bw)%nat -> (m <= M - n - 1)%nat -> (c < M)%nat ->
  for_n m (fun j AB =>
      let AB := upd2 AB (bw - n - 1) (M - 1 - j) (l (M - 2 - n - j)%nat (M - 1 - j)%nat) in
      upd2 AB (bw + n + 1) j (l (j + n + 1)%nat j)) AB r c
  = if Nat.eqb r (bw - n - 1) && Nat.leb (M - m) c then l (c - (n + 1))%nat c
    else if Nat.eqb r (bw + n + 1) && Nat.ltb c m then l (c + (n + 1))%nat c else AB r c.
Proof.
  induction m as [|m IH]; intros Hn Hm Hc.
  - simpl for_n. destruct (Nat.eqb_spec r (bw - n - 1)); simpl.
    + destruct (Nat.leb_spec (M - 0) c); [lia|]. destruct (Nat.eqb_spec r (bw + n + 1)); [lia|]. reflexivity.
    + destruct (Nat.eqb_spec r (bw + n + 1)); auto.
  - simpl for_n. cbv zeta in IH |- *. rewrite !upd2_val. rewrite IH by lia.
    destruct (Nat.eqb_spec r (bw + n + 1)) as [E1|E1]; destruct (Nat.eqb_spec r (bw - n - 1)) as [E2|E2];
      try lia; cbn [andb].
    + destruct (Nat.eqb_spec c m) as [->|].
      * destruct (Nat.ltb_spec m (S m)); [|lia]. f_equal; lia.
      * destruct (Nat.ltb_spec c m), (Nat.ltb_spec c (S m)); try lia; auto.
    + destruct (Nat.eqb_spec c (M - 1 - m)) as [->|].
      * destruct (Nat.leb_spec (M - S m) (M - 1 - m)); [|lia]. f_equal; lia.
      * destruct (Nat.leb_spec (M - m) c), (Nat.leb_spec (M - S m) c); try lia; auto.
    + reflexivity.
Qed.

Lemma band_diag l bw M AB r c : forall m, (m <= M)%nat ->
  for_n m (fun i AB => upd2 AB bw i (l i i)) AB r c = if Nat.eqb r bw && Nat.ltb c m then l c c else AB r c.
Proof.
  induction m as [|m IH]; intros Hm; simpl.
  - rewrite andb_false_r. reflexivity.
  - rewrite upd2_val, IH by lia. destruct (Nat.eqb_spec r bw); simpl; auto.
    destruct (Nat.eqb_spec c m) as [->|].
    + destruct (Nat.ltb_spec m (S m)); [auto|lia].
    + destruct (Nat.ltb_spec c m), (Nat.ltb_spec c (S m)); try lia; auto.
Qed.

Lemma banded_value l bw M r c : (c < M)%nat ->
  numba_create_banded l bw M r c
  = if Nat.leb r bw then (if Nat.leb (bw - r) c then l (c - (bw - r))%nat c else 0)
    else if Nat.leb r (bw + bw) && Nat.ltb (c + (r - bw)) M then l (c + (r - bw))%nat c else 0.
Proof.
  intros Hc. unfold numba_create_banded.
  assert (G : forall m, (m <= bw)%nat ->
    for_n m (fun n AB => for_n (M - n - 1) (fun j AB =>
      let AB := upd2 AB (bw - n - 1) (M - 1 - j) (l (M - 2 - n - j)%nat (M - 1 - j)%nat) in
      upd2 AB (bw + n + 1) j (l (j + n + 1)%nat j)) AB)
      (for_n M (fun i AB => upd2 AB bw i (l i i)) zeros2) r c
    = if Nat.leb (bw - m) r && Nat.leb r bw then (if Nat.leb (bw - r) c then l (c - (bw - r))%nat c else 0)
      else if Nat.ltb bw r && Nat.leb r (bw + m) && Nat.ltb (c + (r - bw)) M then l (c + (r - bw))%nat c else 0).
  { induction m as [|m IH]; intros Hm.
    - simpl for_n. rewrite (band_diag l bw M zeros2 r c M) by lia. unfold zeros2.
      destruct (Nat.eqb_spec r bw) as [->|].
      + destruct (Nat.ltb_spec c M); [|lia]. cbn [andb].
        rewrite Nat.sub_0_r, Nat.leb_refl. cbn [andb]. rewrite Nat.sub_diag. simpl. now rewrite Nat.sub_0_r.
      + cbn [andb]. destruct (Nat.leb_spec (bw - 0) r), (Nat.leb_spec r bw), (Nat.ltb_spec bw r), (Nat.leb_spec r (bw + 0)); simpl; auto; lia.
    - simpl for_n. cbv zeta in IH |- *. rewrite (band_inner l bw M m) by lia. cbv zeta. rewrite IH by lia.
      destruct (Nat.eqb_spec r (bw - m - 1)) as [->|].
      + cbn [andb].
        destruct (Nat.leb_spec (bw - S m) (bw - m - 1)); [|lia]. destruct (Nat.leb_spec (bw - m - 1) bw); [|lia]. cbn [andb].
        destruct (Nat.leb_spec (bw - m) (bw - m - 1)); [lia|]. cbn [andb].
        destruct (Nat.ltb_spec bw (bw - m - 1)); [lia|]. cbn [andb].
        destruct (Nat.eqb_spec (bw - m - 1) (bw + m + 1)); [lia|]. cbn [andb].
        replace (bw - (bw - m - 1))%nat with (m + 1)%nat by lia.
        destruct (Nat.leb_spec (M - (M - m - 1)) c), (Nat.leb_spec (m + 1) c); auto; lia.
      + cbn [andb]. destruct (Nat.eqb_spec r (bw + m + 1)) as [->|].
        * cbn [andb]. destruct (Nat.leb_spec (bw + m + 1) bw); [lia|]. rewrite !andb_false_r.
          destruct (Nat.ltb_spec bw (bw + m + 1)); [|lia]. cbn [andb].
          destruct (Nat.leb_spec (bw + m + 1) (bw + m)); [lia|]. destruct (Nat.leb_spec (bw + m + 1) (bw + S m)); [|lia]. cbn [andb].
          replace (bw + m + 1 - bw)%nat with (m + 1)%nat by lia.
          destruct (Nat.ltb_spec c (M - m - 1)), (Nat.ltb_spec (c + (m + 1)) M); auto; lia.
        * cbn [andb].
          destruct (Nat.leb_spec (bw - m) r), (Nat.leb_spec (bw - S m) r), (Nat.leb_spec r bw), (Nat.ltb_spec bw r),
            (Nat.leb_spec r (bw + m)), (Nat.leb_spec r (bw + S m)); cbn [andb]; auto; lia. }
  rewrite G by lia. rewrite Nat.sub_diag. simpl.
  destruct (Nat.leb_spec r bw); simpl; auto. destruct (Nat.ltb_spec bw r); [|lia]. reflexivity.
Qed.

(** Every entry within the band is stored where the solver looks for it; every other entry of the array is zero. *)
Theorem C29_banded_layout :
  forall l w M,
  (forall i j, (i < M)%nat -> (j < M)%nat -> in_band w i j = true -> numba_create_banded l w M (w + i - j)%nat j = l i j) /\
  (forall r j, (r <= 2 * w)%nat -> (j < M)%nat -> (forall i, (i < M)%nat -> in_band w i j = true -> r <> (w + i - j)%nat) ->
     numba_create_banded l w M r j = 0).
Proof.
  intros l w M. split.
  - intros i j Hi Hj Hb. unfold in_band in Hb. apply andb_true_iff in Hb. destruct Hb as [H1 H2].
    apply Nat.leb_le in H1, H2. rewrite banded_value by auto.
    destruct (Nat.leb_spec (w + i - j) w).
    + destruct (Nat.leb_spec (w - (w + i - j)) j); [f_equal; lia|lia].
    + destruct (Nat.leb_spec (w + i - j) (w + w)); [|lia].
      destruct (Nat.ltb_spec (j + (w + i - j - w)) M); simpl; [f_equal; lia|lia].
  - intros r j Hr Hj Hno. rewrite banded_value by auto.
    destruct (Nat.leb_spec r w).
    + destruct (Nat.leb_spec (w - r) j); auto. exfalso. apply (Hno (j - (w - r))%nat); [lia| |lia].
      unfold in_band. apply andb_true_iff; split; apply Nat.leb_le; lia.
    + destruct (Nat.leb_spec r (w + w)); simpl; auto.
      destruct (Nat.ltb_spec (j + (r - w)) M); auto. exfalso. apply (Hno (j + (r - w))%nat); [lia| |lia].
      unfold in_band. apply andb_true_iff; split; apply Nat.leb_le; lia.
Qed.

(** If the matrix has no entry outside the band, the banded and the dense system have the same solutions. *)
Theorem C29_banded_and_dense_systems_agree :
  forall l w M r x,
  (forall i j, (i < M)%nat -> (j < M)%nat -> in_band w i j = false -> l i j = 0) ->
  (banded_solves M w (numba_create_banded l w M) r x <-> solves M l r x).
Proof.
  intros l w M r x H0. unfold banded_solves, solves, row_holds.
  assert (E : forall i, (i < M)%nat ->
     sum_n (fun j => (if in_band w i j then numba_create_banded l w M (w + i - j)%nat j else 0) * x j) M
     = sum_n (fun j => l i j * x j) M).
  { intros i Hi. apply sum_n_ext. intros j Hj. destruct (in_band w i j) eqn:Eb.
    - now rewrite (proj1 (C29_banded_layout l w M)).
    - now rewrite H0. }
  split; intros H i Hi; specialize (H i Hi); rewrite E in * by auto; exact H.
Qed.

(** ** C30  Bandwidth *)

Lemma adjacency_true n Ju Jd i j :
  adjacency n Ju Jd i j = true <-> exists k, (k < n)%nat /\ ((i = Ju k /\ j = Jd k) \/ (i = Jd k /\ j = Ju k)).
Proof.
  unfold adjacency. induction n as [|n IH]; simpl.
  - split; [discriminate|]. intros (k & Hk & _). lia.
  - rewrite !orb_true_iff, IH, !andb_true_iff, !Nat.eqb_eq. split.
    + intros [[[-> ->]|[-> ->]]|(k & Hk & H)].
      * exists n. split; [lia|]. auto.
      * exists n. split; [lia|]. auto.
      * exists k. split; [lia|auto].
    + intros (k & Hk & H). destruct (Nat.eq_dec k n) as [->|]; [left; tauto|]. right. exists k. split; [lia|auto].
Qed.
Lemma adjacency_sym n Ju Jd i j : adjacency n Ju Jd i j = adjacency n Ju Jd j i.
Proof.
  apply eq_true_iff_eq. rewrite !adjacency_true. split; intros (k & Hk & H); exists k; (split; [auto|]); tauto.
Qed.

Lemma diag_any_true At M k : diag_any At M k = true <-> exists i, (i + k < M)%nat /\ At i (i + k)%nat = true.
Proof.
  unfold diag_any. assert (G : forall m, for_n m (fun i r => (At i (i + k)%nat || r)%bool) false = true
     <-> exists i, (i < m)%nat /\ At i (i + k)%nat = true).
  { induction m as [|m IH]; simpl.
    - split; [discriminate|]. intros (i & Hi & _); lia.
    - rewrite orb_true_iff, IH. split.
      + intros [H|(i & Hi & H)]; [exists m|exists i]; split; auto; lia.
      + intros (i & Hi & H). destruct (Nat.eq_dec i m) as [->|]; [auto|]. right. exists i. split; auto; lia. }
  rewrite G. split; intros (i & Hi & H); exists i; split; auto; lia.
Qed.

(** Meaning of the computed bandwidth: all diagonals up to it are occupied, the next one is empty. *)
Lemma bandwidth_meaning At M : (1 <= M)%nat ->
  let w := compute_bandwidth At M in
  (w <= M - 1)%nat /\ (forall d, (1 <= d <= w)%nat -> diag_any At M d = true) /\
  (forall d, d = S w -> (d < M)%nat -> diag_any At M d = false).
Proof.
  intros HM. unfold compute_bandwidth.
  assert (G : forall fuel k bw, (k + fuel = M)%nat -> bw = (k - 1)%nat -> (1 <= k)%nat ->
     (forall d, (1 <= d < k)%nat -> diag_any At M d = true) ->
     let w := bandwidth_from At M k fuel bw in
     (w <= M - 1)%nat /\ (forall d, (1 <= d <= w)%nat -> diag_any At M d = true) /\
     (forall d, d = S w -> (d < M)%nat -> diag_any At M d = false)).
  { induction fuel as [|fuel IH]; intros k bw Hk Hbw H1 Hd; simpl.
    - subst bw. split; [lia|]. split; [intros d Hd'; apply Hd; lia|]. intros d -> Hd'. lia.
    - destruct (diag_any At M k) eqn:E.
      + apply IH; try lia. intros d Hd'. destruct (Nat.eq_dec d k) as [->|]; auto. apply Hd; lia.
      + subst bw. split; [lia|]. split; [intros d Hd'; apply Hd; lia|]. intros d -> Hd'.
        replace (S (k - 1)) with k by lia. auto. }
  apply G; lia.
Qed.

(** All connections lie within the bandwidth w. *)
Definition covers (n : nat) (Ju Jd : nat -> nat) (w : nat) : Prop :=
  forall k, (k < n)%nat -> in_band w (Ju k) (Jd k) = true.

(** Orders produced by the (reverse) Cuthill-McKee algorithm: numbering from the far end, u = M - 1 - i, the lowest
    neighbour of a junction is not below the lowest neighbour of its predecessor, except at the first junctions of a
    component. *)
Definition cuthill_mckee (adj : nat -> nat -> Prop) (M : nat) : Prop :=
  let low v u := adj u v /\ (u < M)%nat /\ forall u', (u' < M)%nat -> adj u' v -> (u <= u')%nat in
  forall v u, (S v < M)%nat -> low (S v) u -> (u < v)%nat -> exists u', (u' <= u)%nat /\ low v u'.
Definition mirrored (M : nat) (adj : nat -> nat -> Prop) : nat -> nat -> Prop :=
  fun i j => adj (M - 1 - i)%nat (M - 1 - j)%nat.

Lemma cm_diagonals (adj : nat -> nat -> Prop) (M : nat) :
  (forall i j, adj i j -> adj j i) -> (forall i j, adj i j \/ ~ adj i j) ->
  cuthill_mckee adj M ->
  forall v u, (v < M)%nat -> (u < v)%nat -> adj u v ->
  forall d, (1 <= d <= v - u)%nat -> exists i, (i + d < M)%nat /\ adj i (i + d)%nat.
Proof.
  intros Hsym Hdec Hcm.
  (* every junction with a neighbour has a lowest one *)
  assert (LOW : forall v u, (u < M)%nat -> adj u v -> exists u0, (u0 <= u)%nat /\ adj u0 v /\ (u0 < M)%nat /\
             forall u', (u' < M)%nat -> adj u' v -> (u0 <= u')%nat).
  { intros v u. induction u as [u IH] using lt_wf_ind. intros Hu Hadj.
    assert (X : (exists u', (u' < u)%nat /\ adj u' v) \/ (forall u', (u' < u)%nat -> ~ adj u' v)).
    { clear - Hdec. induction u as [|u IHu]; [right; intros; lia|].
      destruct (Hdec u v) as [H|H]; [left; exists u; split; auto|].
      destruct IHu as [(u' & Hu' & H')|Hno]; [left; exists u'; split; auto|].
      right. intros u' Hu' Ha. destruct (Nat.eq_dec u' u) as [->|]; [auto|]. apply (Hno u'); auto; lia. }
    destruct X as [(u' & Hu' & Hadj')|Hno].
    - destruct (IH u' Hu' ltac:(lia) Hadj') as (u0 & ? & ? & ?). exists u0. split; [lia|tauto].
    - exists u. repeat split; auto. intros u' Hu' Ha. destruct (le_lt_dec u u'); auto. exfalso. apply (Hno u'); auto. }
  induction v as [|v IH]; intros u Hv Huv Hadj d Hd; [lia|].
  destruct (LOW (S v) u ltac:(lia) Hadj) as (u0 & Hu0 & Ha0 & HM0 & Hmin).
  destruct (Nat.eq_dec (u0 + d) (S v)) as [E|NE].
  { exists u0. rewrite E. split; auto. }
  (* d < S v - u0, so u0 < v and the predecessor reaches at least as far *)
  destruct (Hcm v u0 Hv (conj Ha0 (conj HM0 Hmin)) ltac:(lia)) as (u' & Hu' & Ha' & HM' & _).
  apply (IH u' ltac:(lia) ltac:(lia) Ha' d ltac:(lia)).
Qed.

(** With an order of that kind (the option auto_permute, the only way to switch the banded solver on by default),
    the computed bandwidth covers every connection. *)
Theorem C30_bandwidth_covers_permuted_network :
  forall M n Ju Jd,
  ends_in M n Ju Jd ->
  cuthill_mckee (mirrored M (fun i j => adjacency n Ju Jd i j = true)) M ->
  covers n Ju Jd (compute_bandwidth (adjacency n Ju Jd) M).
Proof.
  intros M n Ju Jd HE Hcm k Hk. destruct (HE k Hk) as [H1 H2].
  set (w := compute_bandwidth (adjacency n Ju Jd) M).
  assert (HM : (1 <= M)%nat) by lia.
  destruct (bandwidth_meaning (adjacency n Ju Jd) M HM) as (_ & _ & Hlast). fold w in Hlast.
  assert (G : forall a b, (a < b)%nat -> (b < M)%nat -> adjacency n Ju Jd a b = true -> (b - a <= w)%nat).
  { intros a b Hab HbM Hadj. destruct (le_lt_dec (b - a) w) as [|Hbig]; auto. exfalso.
    set (adj := mirrored M (fun i j => adjacency n Ju Jd i j = true)).
    assert (Hsym : forall i j, adj i j -> adj j i) by (intros i j; unfold adj, mirrored; now rewrite adjacency_sym).
    assert (Hdec : forall i j, adj i j \/ ~ adj i j)
      by (intros i j; unfold adj, mirrored; destruct (adjacency n Ju Jd (M - 1 - i) (M - 1 - j)); [left; reflexivity|right; discriminate]).
    assert (Hm : adj (M - 1 - b)%nat (M - 1 - a)%nat).
    { unfold adj, mirrored. replace (M - 1 - (M - 1 - b))%nat with b by lia. replace (M - 1 - (M - 1 - a))%nat with a by lia.
      now rewrite adjacency_sym. }
    destruct (cm_diagonals adj M Hsym Hdec Hcm (M - 1 - a)%nat (M - 1 - b)%nat ltac:(lia) ltac:(lia) Hm (S w) ltac:(lia))
      as (i & Hi & Ha).
    assert (Hf : diag_any (adjacency n Ju Jd) M (S w) = false) by (apply Hlast; auto; lia).
    assert (Ht : diag_any (adjacency n Ju Jd) M (S w) = true).
    { apply diag_any_true. exists (M - 1 - (i + S w))%nat. split; [lia|].
      unfold adj, mirrored in Ha. replace (M - 1 - (i + S w) + S w)%nat with (M - 1 - i)%nat by lia.
      now rewrite adjacency_sym. }
    congruence. }
  unfold in_band. apply andb_true_iff. rewrite !Nat.leb_le.
  assert (A1 : adjacency n Ju Jd (Ju k) (Jd k) = true) by (apply adjacency_true; exists k; auto).
  assert (A2 : adjacency n Ju Jd (Jd k) (Ju k) = true) by (apply adjacency_true; exists k; auto).
  destruct (lt_eq_lt_dec (Ju k) (Jd k)) as [[L|L]|L].
  - pose proof (G _ _ L H2 A1). lia.
  - lia.
  - pose proof (G _ _ L H1 A2). lia.
Qed.

(** Without renumbering the loop's early exit can miss connections: junctions 0 - 2 - 1 in a row with numbering
    0 - 2 and 3 - 1 ... the first diagonal is empty, the computed bandwidth is 0. *)
Theorem C30_bandwidth_misses_connections_refuted :
  exists M n Ju Jd, ends_in M n Ju Jd /\ ~ covers n Ju Jd (compute_bandwidth (adjacency n Ju Jd) M).
Proof.
  exists 3%nat, 1%nat, (fun _ => 0%nat), (fun _ => 2%nat). split.
  - intros k Hk. lia.
  - intros H. specialize (H 0%nat ltac:(lia)). vm_compute in H. discriminate.
Qed.

(** Consequence for the solver: if the bandwidth covers the connections of superlinks, orifices, weirs and pumps, the
    banded solver is given the same system as the dense one. *)
Theorem C30_covering_bandwidth_gives_the_dense_solution :
  forall M bc K CO CW CP A_sj H_prev H_bc Q_0j dt s w r x,
  reachable M bc K CO CW CP s -> network_ok M K CO CW CP ->
  covers (k_n K) (k_Ju K) (k_Jd K) w -> covers (c_n CO) (c_Ju CO) (c_Jd CO) w ->
  covers (c_n CW) (c_Ju CW) (c_Jd CW) w -> covers (c_n CP) (c_Ju CP) (c_Jd CP) w ->
  let l := matrix M bc K CO CW CP A_sj H_prev H_bc Q_0j dt s in
  banded_solves M w (numba_create_banded l w M) r x <-> solves M l r x.
Proof.
  intros M bc K CO CW CP A_sj H_prev H_bc Q_0j dt s w r x Hr Hn C1 C2 C3 C4 l.
  apply C29_banded_and_dense_systems_agree. intros i j Hi Hj Hb.
  apply reachable_clean in Hr.
  destruct (assembly_ok M bc K CO CW CP A_sj H_prev H_bc Q_0j dt s Hr) as (Hc & He & _).
  unfold l, matrix, assembled. rewrite (matrix_entry M bc K) by exact Hc.
  destruct (He i j Hi) as (-> & -> & -> & ->).
  assert (Hij : i <> j).
  { intros ->. unfold in_band in Hb. apply andb_false_iff in Hb. destruct Hb as [Hb|Hb]; apply Nat.leb_gt in Hb; lia. }
  assert (Z : forall v dg n Ju Jd ad bu, covers n Ju Jd w -> entry bc v dg Ju Jd ad bu n i j = 0).
  { intros v dg n Ju Jd ad bu Hcov. unfold entry. destruct (Nat.eqb_spec i j); [contradiction|]. destruct (bc i); auto.
    unfold sum_if. rewrite !sum_n_0; [lra| |].
    - intros k Hk. destruct (Nat.eqb_spec (Jd k) i) as [<-|]; auto. destruct (Nat.eqb_spec (Ju k) j) as [<-|]; auto.
      specialize (Hcov k Hk). unfold in_band in *. rewrite andb_comm in Hcov. congruence.
    - intros k Hk. destruct (Nat.eqb_spec (Ju k) i) as [<-|]; auto. destruct (Nat.eqb_spec (Jd k) j) as [<-|]; auto.
      specialize (Hcov k Hk). congruence. }
  rewrite !Z by auto. lra.
Qed.

(** Witness: a ring of five junctions numbered in a Cuthill-McKee order (0-1, 0-2, 1-3, 2-4, 3-4; bandwidth 2). *)
Example C30_example :
  let Ju := fun k => nth k [4; 4; 3; 2; 1]%nat 0%nat in
  let Jd := fun k => nth k [3; 2; 1; 0; 0]%nat 0%nat in
  ends_in 5 5 Ju Jd /\ cuthill_mckee (mirrored 5 (fun i j => adjacency 5 Ju Jd i j = true)) 5 /\
  compute_bandwidth (adjacency 5 Ju Jd) 5 = 2%nat.
Proof.
  intros Ju Jd. split; [|split].
  - intros k Hk. unfold Ju, Jd. do 5 (destruct k as [|k]; [simpl; lia|]). lia.
  - intros v u Hv (Ha & HM & Hmin) Hu. unfold mirrored in *.
    assert (Cv : (v = 0 \/ v = 1 \/ v = 2 \/ v = 3)%nat) by lia.
    assert (Cu : (u = 0 \/ u = 1 \/ u = 2)%nat) by lia.
    destruct Cv as [->|[->|[->| ->]]]; destruct Cu as [->|[->| ->]]; try lia; try (vm_compute in Ha; discriminate).
    all: try (exists 0%nat; split; [lia|]; split; [vm_compute; reflexivity|split; [lia|intros; lia]]).
    all: try (exists 1%nat; split; [lia|]; split; [vm_compute; reflexivity|split; [lia|]];
              intros u' Hu' Hadj; destruct u'; [vm_compute in Hadj; discriminate|lia]).
  - vm_compute. reflexivity.
Qed.

Example C29_example :
  let l := (fun i j => if Nat.leb i (j + 1) && Nat.leb j (i + 1) then INR (3 * i + j) else 0) : mat in
  numba_create_banded l 1 3 0%nat 2%nat = l 1%nat 2%nat /\ numba_create_banded l 1 3 2%nat 0%nat = l 1%nat 0%nat.
Proof. intros l. split; rewrite banded_value by lia; reflexivity. Qed.
