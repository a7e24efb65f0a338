(** Superjunctions: the assembled rows are mass balances; every solution of the network's transport equations obeys a
    maximum principle. *)
From Verif Require Import Prelude M_Coeffs M_Recurrence M_Assembly M_Step M_Quality S_Superlink S_Network S_Step S_Quality
  L_Forward L_Assembly L_Sweep L_Quality L_QualityStep.

(** ** The assembled system *)
Definition ctl_clean (M : nat) (bc : nat -> bool) (C : wq_ctl) (X : mat) : Prop :=
  clean M bc (t_Ju C) (t_Jd C) (t_n C) X /\ (t_n C = 0%nat -> forall i j, X i j = 0).
Definition q_clean (N : network) (P : wq_par) (CO CW CP : wq_ctl) (s : system) : Prop :=
  clean (n_M N) (p_bc P) (n_Ju N) (n_Jd N) (n_K N) (s_A s) /\
  ctl_clean (n_M N) (p_bc P) CO (s_O s) /\ ctl_clean (n_M N) (p_bc P) CW (s_W s) /\ ctl_clean (n_M N) (p_bc P) CP (s_P s).

Definition q_diag_C (C : wq_ctl) (Q : arr) (j : nat) : R :=
  sum_if (fun m => Nat.eqb (t_Ju C m) j) (fun m => Q m * q_omega_ge (Q m)) (t_n C)
  + sum_if (fun m => Nat.eqb (t_Jd C m) j) (fun m => - Q m * (1 - q_omega_ge (Q m))) (t_n C).

Lemma q_controls_ok M bc C Q X dg X' dg' :
  ctl_clean M bc C X -> q_controls X dg bc M C Q = (X', dg') ->
  (forall i j, (i < M)%nat ->
     X' i j = entry bc 0 (q_diag_C C Q) (t_Ju C) (t_Jd C) (fun m => Q m * q_omega_ge (Q m))
                    (fun m => Q m * (1 - q_omega_ge (Q m))) (t_n C) i j) /\
  ctl_clean M bc C X'.
Proof.
  intros [Hc Hz]. unfold q_controls. destruct (Nat.eqb_spec (t_n C) 0) as [E|E].
  - injection 1 as <- <-. split; [|split; auto].
    intros i j Hi. rewrite Hz by auto. unfold entry, q_diag_C. rewrite E, !sum_if_O.
    destruct (bc i), (Nat.eqb i j); lra.
  - unfold q_create_OWP_matrix. injection 1 as <- <-. split; [|split].
    + intros i j Hi. rewrite (assembled_entry M) by auto. unfold entry, q_diag_C.
      rewrite !add_at_val. unfold zeros. destruct (bc i), (Nat.eqb i j); lra.
    + now apply assembled_clean.
    + contradiction.
Qed.

Section Assembled.
  Variables (N : network) (P : wq_par) (CO CW CP : wq_ctl) (F : wq_flow) (B : nat -> q_bnd).
  Variables (cp c_bc Q_0j c_0j : arr) (dt : R).

  (** Weights of the end pieces in a superjunction's balance. *)
  Definition d_u (k : nat) : R := 2 * p_Du P k * f_Au F k / n_dxu N k.
  Definition d_d (k : nat) : R := 2 * p_Dd P k * f_Ad F k / n_dxd N k.
  Definition w_u (k : nat) : R := - f_Quu F k * (1 - q_omega_ge (f_Quu F k)) + d_u k.
  Definition w_d (k : nat) : R := f_Qdd F k * q_omega_ge (f_Qdd F k) + d_d k.

  Definition q_diag_A (j : nat) : R :=
    sum_if (fun k => Nat.eqb (n_Ju N k) j)
      (fun k => - (- f_Quu F k * (q_omega_ge (f_Quu F k) + (1 - q_omega_ge (f_Quu F k)) * q_rhou (B k))
                   + 2 * p_Du P k * f_Au F k * (q_rhou (B k) - 1) / n_dxu N k)) (n_K N)
    + sum_if (fun k => Nat.eqb (n_Jd N k) j)
      (fun k => - (f_Qdd F k * (q_taud (B k) * q_omega_ge (f_Qdd F k) + (1 - q_omega_ge (f_Qdd F k)))
                   + 2 * p_Dd P k * f_Ad F k * (q_taud (B k) - 1) / n_dxd N k)) (n_K N)
    + ((2 * f_V F j - f_Vp F j) / dt + p_Kj P j * f_V F j).
  Definition q_rhs (j : nat) : R :=
    sum_if (fun k => Nat.eqb (n_Ju N k) j) (fun k => w_u k * q_zetu (B k)) (n_K N)
    + sum_if (fun k => Nat.eqb (n_Jd N k) j) (fun k => w_d k * q_zetd (B k)) (n_K N).

  Lemma q_assembly_ok s :
    q_clean N P CO CW CP s ->
    let s' := q_sparse_matrix_equations N P CO CW CP F B cp c_bc Q_0j c_0j dt s in
    q_clean N P CO CW CP s' /\
    (forall i j, (i < n_M N)%nat ->
       q_matrix CO CW CP s' i j =
         entry (p_bc P) 1 q_diag_A (n_Ju N) (n_Jd N) (fun k => q_rhod (B k) * w_d k) (fun k => - (q_tauu (B k) * w_u k)) (n_K N) i j
         + entry (p_bc P) 0 (q_diag_C CO (f_Qo F)) (t_Ju CO) (t_Jd CO) (fun m => f_Qo F m * q_omega_ge (f_Qo F m))
                 (fun m => f_Qo F m * (1 - q_omega_ge (f_Qo F m))) (t_n CO) i j
         + entry (p_bc P) 0 (q_diag_C CW (f_Qw F)) (t_Ju CW) (t_Jd CW) (fun m => f_Qw F m * q_omega_ge (f_Qw F m))
                 (fun m => f_Qw F m * (1 - q_omega_ge (f_Qw F m))) (t_n CW) i j
         + entry (p_bc P) 0 (q_diag_C CP (f_Qp F)) (t_Ju CP) (t_Jd CP) (fun m => f_Qp F m * q_omega_ge (f_Qp F m))
                 (fun m => f_Qp F m * (1 - q_omega_ge (f_Qp F m))) (t_n CP) i j) /\
    (forall j, s_b s' j = if p_bc P j then c_bc j else f_V F j * cp j / dt + Q_0j j * c_0j j + q_rhs j).
  Proof.
    intros (HA & HO & HW & HP). cbv zeta. unfold q_sparse_matrix_equations, q_create_A_matrix.
    destruct (q_controls (s_O s) _ _ _ _ _) as [Om Od] eqn:EO.
    destruct (q_controls_ok _ _ _ _ _ _ _ _ HO EO) as (VO & KO).
    destruct (q_controls (s_W s) _ _ _ _ _) as [Wm Wd] eqn:EW.
    destruct (q_controls_ok _ _ _ _ _ _ _ _ HW EW) as (VW & KW).
    destruct (q_controls (s_P s) _ _ _ _ _) as [Pm Pd] eqn:EP.
    destruct (q_controls_ok _ _ _ _ _ _ _ _ HP EP) as (VP & KP).
    split; [|split].
    - unfold q_clean. cbn [s_A s_O s_W s_P]. split; auto. now apply assembled_clean.
    - intros i j Hi. unfold q_matrix, system_matrix. cbn [s_A s_O s_W s_P].
      rewrite <- VO, <- VW, <- VP by auto.
      assert (EA : forall b, b = true \/ (Om i j = 0 /\ Wm i j = 0 /\ Pm i j = 0) -> forall X : mat,
        (if b then (fun i j => X i j + Om i j + Wm i j + Pm i j) else X) i j = X i j + Om i j + Wm i j + Pm i j).
      { intros [|] Hb X; auto. destruct Hb as [|(-> & -> & ->)]; [discriminate|lra]. }
      rewrite EA.
      + rewrite (assembled_entry (n_M N)) by auto. do 3 f_equal. unfold entry, q_diag_A, w_u, w_d, d_u, d_d.
        rewrite !add_at_val. unfold zeros. destruct (p_bc P i), (Nat.eqb i j); lra.
      + destruct KO as [_ ZO], KW as [_ ZW], KP as [_ ZP].
        destruct (Nat.eqb_spec (t_n CO + t_n CW + t_n CP) 0) as [E|E]; [right|left; auto].
        rewrite ZO, ZW, ZP by lia. auto.
    - intros j. cbn [s_b]. rewrite !add_at_val. unfold q_rhs, zeros, w_u, w_d, d_u, d_d. destruct (p_bc P j); lra.
  Qed.

  Lemma fresh_q_clean : q_clean N P CO CW CP fresh_system.
  Proof. unfold q_clean, ctl_clean, clean, fresh_system, zeros2; simpl. repeat split; auto. Qed.

  Definition q_ends_in : Prop :=
    ends_in (n_M N) (n_K N) (n_Ju N) (n_Jd N) /\ ends_in (n_M N) (t_n CO) (t_Ju CO) (t_Jd CO) /\
    ends_in (n_M N) (t_n CW) (t_Ju CW) (t_Jd CW) /\ ends_in (n_M N) (t_n CP) (t_Ju CP) (t_Jd CP).

  (** Controls: the entries of a row add up to the net flux out of the junction. *)
  Lemma control_flux_ge Q a b : control_flux Q a b = Q * q_omega_ge Q * a + Q * (1 - q_omega_ge Q) * b.
  Proof. unfold control_flux, q_omega_ge. destruct (Rleb 0 Q); lra. Qed.
  Lemma control_row C Q (v : arr) j :
    q_diag_C C Q j * v j
    + sum_if (fun m => Nat.eqb (t_Ju C m) j) (fun m => Q m * (1 - q_omega_ge (Q m)) * v (t_Jd C m)) (t_n C)
    - sum_if (fun m => Nat.eqb (t_Jd C m) j) (fun m => Q m * q_omega_ge (Q m) * v (t_Ju C m)) (t_n C)
    = - controls_net C Q v j.
  Proof.
    unfold q_diag_C, controls_net. rewrite Rmult_plus_distr_r.
    rewrite <- !sum_if_scal_r.
    assert (E1 : sum_if (fun m => Nat.eqb (t_Ju C m) j) (fun m => control_flux (Q m) (v (t_Ju C m)) (v (t_Jd C m))) (t_n C)
      = sum_if (fun m => Nat.eqb (t_Ju C m) j) (fun m => Q m * q_omega_ge (Q m) * v j) (t_n C)
        + sum_if (fun m => Nat.eqb (t_Ju C m) j) (fun m => Q m * (1 - q_omega_ge (Q m)) * v (t_Jd C m)) (t_n C)).
    { rewrite <- sum_if_plus. apply sum_n_ext. intros m Hm. destruct (Nat.eqb_spec (t_Ju C m) j) as [<-|]; auto.
      rewrite control_flux_ge. ring. }
    assert (E2 : sum_if (fun m => Nat.eqb (t_Jd C m) j) (fun m => control_flux (Q m) (v (t_Ju C m)) (v (t_Jd C m))) (t_n C)
      = sum_if (fun m => Nat.eqb (t_Jd C m) j) (fun m => Q m * q_omega_ge (Q m) * v (t_Ju C m)) (t_n C)
        - sum_if (fun m => Nat.eqb (t_Jd C m) j) (fun m => - Q m * (1 - q_omega_ge (Q m)) * v j) (t_n C)).
    { unfold sum_if; rewrite <- sum_n_minus. apply sum_n_ext. intros m Hm. destruct (Nat.eqb_spec (t_Jd C m) j) as [<-|]; [|lra].
      rewrite control_flux_ge. ring. }
    rewrite E1, E2. lra.
  Qed.

  (** Rows of the solved system are the mass balances of the superjunctions. *)
  Lemma q_row_balance s v j :
    q_clean N P CO CW CP s -> q_ends_in -> dt <> 0 -> (j < n_M N)%nat ->
    (forall k, (k < n_K N)%nat -> n_dxu N k <> 0 /\ n_dxd N k <> 0) ->
    let s' := q_sparse_matrix_equations N P CO CW CP F B cp c_bc Q_0j c_0j dt s in
    row_holds (n_M N) (q_matrix CO CW CP s') (s_b s') v j <->
    if p_bc P j then v j = c_bc j
    else superjunction_balance N P CO CW CP F cp c_0j Q_0j dt v
           (fun k => q_rhou (B k) * v (n_Ju N k) + q_tauu (B k) * v (n_Jd N k) + q_zetu (B k))
           (fun k => q_rhod (B k) * v (n_Ju N k) + q_taud (B k) * v (n_Jd N k) + q_zetd (B k)) j.
  Proof.
    intros Hc (E1 & E2 & E3 & E4) Hdt Hj Hdx. destruct (q_assembly_ok s Hc) as (_ & VM & Vb). cbv zeta in *.
    unfold row_holds. rewrite Vb.
    rewrite (sum_n_ext _ (fun i =>
         entry (p_bc P) 1 q_diag_A (n_Ju N) (n_Jd N) (fun k => q_rhod (B k) * w_d k) (fun k => - (q_tauu (B k) * w_u k)) (n_K N) j i * v i
         + entry (p_bc P) 0 (q_diag_C CO (f_Qo F)) (t_Ju CO) (t_Jd CO) (fun m => f_Qo F m * q_omega_ge (f_Qo F m))
                 (fun m => f_Qo F m * (1 - q_omega_ge (f_Qo F m))) (t_n CO) j i * v i
         + entry (p_bc P) 0 (q_diag_C CW (f_Qw F)) (t_Ju CW) (t_Jd CW) (fun m => f_Qw F m * q_omega_ge (f_Qw F m))
                 (fun m => f_Qw F m * (1 - q_omega_ge (f_Qw F m))) (t_n CW) j i * v i
         + entry (p_bc P) 0 (q_diag_C CP (f_Qp F)) (t_Ju CP) (t_Jd CP) (fun m => f_Qp F m * q_omega_ge (f_Qp F m))
                 (fun m => f_Qp F m * (1 - q_omega_ge (f_Qp F m))) (t_n CP) j i * v i))
      by (intros i Hi; rewrite VM by auto; ring).
    rewrite !sum_n_plus, !entry_row by auto. destruct (p_bc P j); [split; intros; lra|].
    pose proof (control_row CO (f_Qo F) v j) as RO. pose proof (control_row CW (f_Qw F) v j) as RW.
    pose proof (control_row CP (f_Qp F) v j) as RP.
    unfold superjunction_balance.
    set (no := controls_net CO (f_Qo F) v j) in *. set (nw := controls_net CW (f_Qw F) v j) in *.
    set (np := controls_net CP (f_Qp F) v j) in *. clearbody no nw np.
    assert (EU : sum_if (fun k => Nat.eqb (n_Ju N k) j)
        (fun k => face (f_Quu F k) (v (n_Ju N k)) (q_rhou (B k) * v (n_Ju N k) + q_tauu (B k) * v (n_Jd N k) + q_zetu (B k))
                       (p_Du P k) (f_Au F k) (n_dxu N k)) (n_K N)
      = sum_if (fun k => Nat.eqb (n_Ju N k) j)
         (fun k => - (- f_Quu F k * (q_omega_ge (f_Quu F k) + (1 - q_omega_ge (f_Quu F k)) * q_rhou (B k))
                   + 2 * p_Du P k * f_Au F k * (q_rhou (B k) - 1) / n_dxu N k) * v j) (n_K N)
        + sum_if (fun k => Nat.eqb (n_Ju N k) j) (fun k => - (q_tauu (B k) * w_u k) * v (n_Jd N k)) (n_K N)
        - sum_if (fun k => Nat.eqb (n_Ju N k) j) (fun k => w_u k * q_zetu (B k)) (n_K N)).
    { rewrite <- sum_if_plus; unfold sum_if; rewrite <- sum_n_minus. apply sum_n_ext. intros k Hk.
      destruct (Nat.eqb_spec (n_Ju N k) j) as [<-|]; [|lra]. destruct (Hdx k Hk) as [D1 D2].
      rewrite face_omega_ge by auto. unfold w_u, d_u. field. auto. }
    assert (ED : sum_if (fun k => Nat.eqb (n_Jd N k) j)
        (fun k => face (f_Qdd F k) (q_rhod (B k) * v (n_Ju N k) + q_taud (B k) * v (n_Jd N k) + q_zetd (B k)) (v (n_Jd N k))
                       (p_Dd P k) (f_Ad F k) (n_dxd N k)) (n_K N)
      = sum_if (fun k => Nat.eqb (n_Jd N k) j) (fun k => q_rhod (B k) * w_d k * v (n_Ju N k)) (n_K N)
        + sum_if (fun k => Nat.eqb (n_Jd N k) j) (fun k => w_d k * q_zetd (B k)) (n_K N)
        - sum_if (fun k => Nat.eqb (n_Jd N k) j)
         (fun k => - (f_Qdd F k * (q_taud (B k) * q_omega_ge (f_Qdd F k) + (1 - q_omega_ge (f_Qdd F k)))
                   + 2 * p_Dd P k * f_Ad F k * (q_taud (B k) - 1) / n_dxd N k) * v j) (n_K N)).
    { rewrite <- sum_if_plus; unfold sum_if; rewrite <- sum_n_minus. apply sum_n_ext. intros k Hk.
      destruct (Nat.eqb_spec (n_Jd N k) j) as [<-|]; [|lra]. destruct (Hdx k Hk) as [D1 D2].
      rewrite face_omega_ge by auto. unfold w_d, d_d. field. auto. }
    rewrite EU, ED. unfold q_diag_A, q_rhs, storage.
    rewrite !Rmult_plus_distr_r. rewrite <- !sum_if_scal_r.
    set (S1 := sum_if _ (fun k => - (- f_Quu F k * _ + _) * v j) _).
    set (S2 := sum_if _ (fun k => - (f_Qdd F k * _ + _) * v j) _).
    set (S3 := sum_if _ (fun k => - (q_tauu (B k) * w_u k) * v (n_Jd N k)) _).
    set (S4 := sum_if _ (fun k => q_rhod (B k) * w_d k * v (n_Ju N k)) _).
    set (S5 := sum_if _ (fun k => w_u k * q_zetu (B k)) _).
    set (S6 := sum_if _ (fun k => w_d k * q_zetd (B k)) _).
    clearbody S1 S2 S3 S4 S5 S6.
    assert (EV : (2 * f_V F j - f_Vp F j) / dt * v j - f_V F j * cp j / dt = (f_V F j * (v j - cp j) + (f_V F j - f_Vp F j) * v j) / dt)
      by (field; auto).
    split; intros; lra.
  Qed.
End Assembled.

(** ** Maximum principle *)
Fixpoint maxn (f : arr) (n : nat) : R := match n with O => 0 | S m => Rmax (maxn f m) (f m) end.
Lemma maxn_ge f n i : (i < n)%nat -> f i <= maxn f n.
Proof.
  induction n as [|n IH]; [lia|]. intros Hi. simpl. destruct (Nat.eq_dec i n) as [->|]; [apply Rmax_r|].
  eapply Rle_trans; [apply IH; lia|apply Rmax_l].
Qed.
Lemma maxn_nonneg f n : 0 <= maxn f n.
Proof. induction n; simpl; [lra|]. eapply Rle_trans; [exact IHn|apply Rmax_l]. Qed.
Lemma maxn_hit f n : 0 < maxn f n -> exists i, (i < n)%nat /\ f i = maxn f n.
Proof.
  induction n as [|n IH]; simpl; [lra|]. intros H. unfold Rmax in *. destruct (Rle_dec (maxn f n) (f n)).
  - exists n. split; auto.
  - destruct (IH H) as (i & Hi & E). exists i. split; auto.
Qed.

Lemma sum_if_nonpos p f n : (forall k, (k < n)%nat -> p k = true -> f k <= 0) -> sum_if p f n <= 0.
Proof.
  intros H. unfold sum_if. apply Rle_trans with (sum_n (fun _ => 0) n); [|rewrite sum_n_zero; lra].
  apply sum_n_le. intros k Hk. destruct (p k) eqn:E; [auto|lra].
Qed.

Section Max.
  Variables (M K : nat) (Ju Jd nk : nat -> nat) (bc : nat -> bool) (CO CW CP : wq_ctl).
  Variables (uj : arr) (uL uN : nat -> arr).
  (** Exchange weights: pieces (store ps, neighbours pl, pr), junctions (store ns, neighbours nl, nr),
      superjunctions (store js, ends wu, wd, controls forwards/backwards). *)
  Variables (ps pl pr ns nl nr : nat -> arr) (js wu wd of ob wf wb pf pb : arr).

  Hypothesis HP : forall k j, (k < K)%nat -> (j <= nk k + 1)%nat ->
    0 < ps k j /\ 0 <= pl k j /\ 0 <= pr k j /\
    ps k j * uL k j <= pl k j * (left_of (uj (Ju k)) (uN k) j - uL k j)
                       + pr k j * (right_of (nk k) (uj (Jd k)) (uN k) j - uL k j).
  Hypothesis HN : forall k j, (k < K)%nat -> (j <= nk k)%nat ->
    0 <= ns k j /\ 0 <= nl k j /\ 0 <= nr k j /\ 0 < ns k j + nl k j + nr k j /\
    ns k j * uN k j <= nl k j * (uL k j - uN k j) + nr k j * (uL k (j + 1)%nat - uN k j).
  Definition ctl_exchange (C : wq_ctl) (f b : arr) (j : nat) : R :=
    sum_if (fun m => Nat.eqb (t_Jd C m) j) (fun m => f m * (uj (t_Ju C m) - uj j)) (t_n C)
    + sum_if (fun m => Nat.eqb (t_Ju C m) j) (fun m => b m * (uj (t_Jd C m) - uj j)) (t_n C).
  Hypothesis HJ : forall j, (j < M)%nat -> bc j = false ->
    0 < js j /\
    js j * uj j <= sum_if (fun k => Nat.eqb (Jd k) j) (fun k => wd k * (uL k (nk k + 1)%nat - uj j)) K
                   + sum_if (fun k => Nat.eqb (Ju k) j) (fun k => wu k * (uL k 0%nat - uj j)) K
                   + ctl_exchange CO of ob j + ctl_exchange CW wf wb j + ctl_exchange CP pf pb j.
  Hypothesis HB : forall j, (j < M)%nat -> bc j = true -> uj j <= 0.
  Hypothesis HE : ends_in M K Ju Jd /\ ends_in M (t_n CO) (t_Ju CO) (t_Jd CO) /\ ends_in M (t_n CW) (t_Ju CW) (t_Jd CW) /\ ends_in M (t_n CP) (t_Ju CP) (t_Jd CP).
  Hypothesis HWt : (forall k, (k < K)%nat -> 0 <= wu k /\ 0 <= wd k) /\
    (forall m, (m < t_n CO)%nat -> 0 <= of m /\ 0 <= ob m) /\
    (forall m, (m < t_n CW)%nat -> 0 <= wf m /\ 0 <= wb m) /\
    (forall m, (m < t_n CP)%nat -> 0 <= pf m /\ 0 <= pb m).

  Lemma max_principle :
    (forall j, (j < M)%nat -> uj j <= 0) /\
    (forall k j, (k < K)%nat -> (j <= nk k + 1)%nat -> uL k j <= 0) /\
    (forall k j, (k < K)%nat -> (j <= nk k)%nat -> uN k j <= 0).
  Proof.
    set (mL := maxn (fun k => maxn (uL k) (nk k + 2)) K).
    set (S := Rmax (maxn uj M) mL).
    assert (Sj : forall j, (j < M)%nat -> uj j <= S).
    { intros. eapply Rle_trans; [|apply Rmax_l]. now apply maxn_ge. }
    assert (SL : forall k j, (k < K)%nat -> (j <= nk k + 1)%nat -> uL k j <= S).
    { intros k j Hk Hj. eapply Rle_trans; [|apply Rmax_r]. unfold mL.
      eapply Rle_trans; [|apply (maxn_ge (fun k => maxn (uL k) (nk k + 2)) _ k Hk)]. apply maxn_ge. lia. }
    assert (S0 : 0 <= S) by (eapply Rle_trans; [apply (maxn_nonneg uj M)|apply Rmax_l]).
    assert (SN : forall k j, (k < K)%nat -> (j <= nk k)%nat -> uN k j <= S).
    { intros k j Hk Hj. destruct (HN k j Hk Hj) as (A & B & D & E & F).
      destruct (Rle_or_lt (uN k j) S) as [|G]; auto. exfalso.
      pose proof (SL k j Hk ltac:(lia)). pose proof (SL k (j + 1)%nat Hk ltac:(lia)).
      assert (nl k j * (uL k j - uN k j) <= nl k j * (S - uN k j)) by (apply Rmult_le_compat_l; lra).
      assert (nr k j * (uL k (j + 1)%nat - uN k j) <= nr k j * (S - uN k j)) by (apply Rmult_le_compat_l; lra).
      assert (ns k j * (uN k j - S) <= ns k j * uN k j) by (apply Rmult_le_compat_l; lra).
      assert (0 < (ns k j + nl k j + nr k j) * (uN k j - S)) by (apply Rmult_lt_0_compat; lra). lra. }
    assert (Z : S <= 0).
    { destruct (Rle_or_lt S 0) as [|G]; auto. exfalso.
      assert (EX : (exists j, (j < M)%nat /\ uj j = S) \/ (exists k j, (k < K)%nat /\ (j <= nk k + 1)%nat /\ uL k j = S)).
      { unfold S, Rmax in *. destruct (Rle_dec (maxn uj M) mL).
        - right. unfold mL in *. destruct (maxn_hit _ _ G) as (k & Hk & E). rewrite <- E in *.
          destruct (maxn_hit _ _ G) as (j & Hj & E'). exists k, j. repeat split; auto. lia.
        - left. apply maxn_hit; auto. }
      destruct EX as [(j & Hj & E)|(k & j & Hk & Hj & E)].
      - destruct (bc j) eqn:Eb; [pose proof (HB j Hj Eb); lra|].
        destruct (HJ j Hj Eb) as [J1 J2]. destruct HE as (E1 & E2 & E3 & E4). destruct HWt as (W1 & W2 & W3 & W4).
        assert (T : forall C f b, ends_in M (t_n C) (t_Ju C) (t_Jd C) ->
                      (forall m, (m < t_n C)%nat -> 0 <= f m /\ 0 <= b m) -> ctl_exchange C f b j <= 0).
        { intros C f b He Hw. unfold ctl_exchange.
          assert (sum_if (fun m => Nat.eqb (t_Jd C m) j) (fun m => f m * (uj (t_Ju C m) - uj j)) (t_n C) <= 0).
          { apply sum_if_nonpos. intros m Hm _. destruct (Hw m Hm), (He m Hm). assert (uj (t_Ju C m) <= S) by (apply Sj; auto).
            assert (0 <= f m * (S - uj (t_Ju C m))) by (apply Rmult_le_pos; lra). rewrite E. lra. }
          assert (sum_if (fun m => Nat.eqb (t_Ju C m) j) (fun m => b m * (uj (t_Jd C m) - uj j)) (t_n C) <= 0).
          { apply sum_if_nonpos. intros m Hm _. destruct (Hw m Hm), (He m Hm). assert (uj (t_Jd C m) <= S) by (apply Sj; auto).
            assert (0 <= b m * (S - uj (t_Jd C m))) by (apply Rmult_le_pos; lra). rewrite E. lra. }
          lra. }
        pose proof (T CO of ob E2 W2). pose proof (T CW wf wb E3 W3). pose proof (T CP pf pb E4 W4).
        assert (sum_if (fun k => Nat.eqb (Jd k) j) (fun k => wd k * (uL k (nk k + 1)%nat - uj j)) K <= 0).
        { apply sum_if_nonpos. intros k Hk _. destruct (W1 k Hk). pose proof (SL k (nk k + 1)%nat Hk ltac:(lia)).
          assert (0 <= wd k * (S - uL k (nk k + 1)%nat)) by (apply Rmult_le_pos; lra). rewrite E. lra. }
        assert (sum_if (fun k => Nat.eqb (Ju k) j) (fun k => wu k * (uL k 0%nat - uj j)) K <= 0).
        { apply sum_if_nonpos. intros k Hk _. destruct (W1 k Hk). pose proof (SL k 0%nat Hk ltac:(lia)).
          assert (0 <= wu k * (S - uL k 0%nat)) by (apply Rmult_le_pos; lra). rewrite E. lra. }
        assert (0 < js j * uj j) by (apply Rmult_lt_0_compat; lra). lra.
      - destruct (HP k j Hk Hj) as (P1 & P2 & P3 & P4). destruct HE as (E1 & _). destruct (E1 k Hk) as [EU ED].
        assert (A : left_of (uj (Ju k)) (uN k) j <= S) by (destruct j; simpl; [auto|apply SN; auto; lia]).
        assert (B : right_of (nk k) (uj (Jd k)) (uN k) j <= S)
          by (unfold right_of; destruct (Nat.leb_spec j (nk k)); [apply SN; auto|auto]).
        assert (0 <= pl k j * (S - left_of (uj (Ju k)) (uN k) j)) by (apply Rmult_le_pos; lra).
        assert (0 <= pr k j * (S - right_of (nk k) (uj (Jd k)) (uN k) j)) by (apply Rmult_le_pos; lra).
        assert (0 < ps k j * uL k j) by (apply Rmult_lt_0_compat; lra). rewrite E in *. lra. }
    split; [|split].
    - intros j Hj. specialize (Sj j Hj). lra.
    - intros k j Hk Hj. specialize (SL k j Hk Hj). lra.
    - intros k j Hk Hj. specialize (SN k j Hk Hj). lra.
  Qed.
End Max.
