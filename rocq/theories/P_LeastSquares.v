(** C65: the least-squares reconstructions of internal depths and flows ([method='lsq'] and [method='nnls']). *)
From Verif Require Import Prelude M_Coeffs M_Recurrence M_LeastSquares S_Network S_Superlink S_Model S_LeastSquares
  L_LeastSquares L_LeastSquaresChain L_LeastSquaresNn L_Forward L_Backward L_Internals L_Boundary L_Pivots L_Gauss.

(** ** Minimisers are exact solutions *)
Lemma minimiser_exact a b c P A E D i1 I1 n f bw hu hd Q h x :
  (1 <= n)%nat -> fwd_eqs a b c P A E D i1 I1 n f -> bwd_eqs a b c P A E D i1 I1 n bw ->
  wet_superlink a b c A E i1 I1 n ->
  superlink_solution a b c P A E D i1 I1 n Q h -> h O = hu -> h n = hd ->
  let U := fun j => fU f (I1 + j)%nat in let V := fun j => fV f (I1 + j)%nat in let W := fun j => fW f (I1 + j)%nat in
  let X := fun j => bX bw (I1 + j)%nat in let Y := fun j => bY bw (I1 + j)%nat in let Z := fun j => bZ bw (I1 + j)%nat in
  residual2 n (n - 1) (link_matrix U X) (link_rhs U V W X Y Z n hu hd) x <=
  residual2 n (n - 1) (link_matrix U X) (link_rhs U V W X Y Z n hu hd) (fun c => h (c + 1)%nat) ->
  forall j, (j <= n)%nat -> with_ends n hu hd x j = h j.
Proof.
  intros Hn HF HB Hw HS H0 Hd U V W X Y Z Hmin.
  pose proof (fwd_signs _ _ _ _ _ _ _ _ _ _ _ HF Hw) as SF.
  pose proof (bwd_signs _ _ _ _ _ _ _ _ _ _ _ Hn HB Hw) as SB.
  assert (HT : forall j, (j < n)%nat -> fT f (i1 + j)%nat <> 0) by (intros j Hj; pose proof (SF j Hj); lra).
  assert (HO : forall j, (j < n)%nat -> bO bw (i1 + j)%nat <> 0) by (intros j Hj; pose proof (SB j Hj); lra).
  pose proof (forward_exact a b c P A E D i1 I1 n f Q h HF HT HS) as XF.
  pose proof (backward_exact a b c P A E D i1 I1 n bw Q h Hn HB HO HS) as XB.
  assert (WE : forall j, (j <= n)%nat -> with_ends n hu hd (fun c => h (c + 1)%nat) j = h j).
  { intros j Hj. unfold with_ends. destruct (Nat.eqb_spec j 0) as [->|]; [auto|].
    destruct (Nat.eqb_spec j n) as [->|]; [auto|]. f_equal; lia. }
  assert (XE : forall j, (j < n - 1)%nat -> x j = h (j + 1)%nat).
  { refine (exact_minimiser n (n - 1) (link_matrix U X) (link_rhs U V W X Y Z n hu hd) _ x (fun c => h (c + 1)%nat) _ Hmin).
    - intros v Hv. apply (link_kernel U X n); auto. intros r Hr. unfold U. pose proof (SF r Hr). lra.
    - intros r Hr. pose proof (link_row U V W X Y Z n hu hd (fun c => h (c + 1)%nat) r Hr) as L. cbv beta in L.
      rewrite !WE in L by lia. specialize (XF r Hr). specialize (XB r Hr). rewrite H0 in XF. rewrite Hd in XB.
      unfold U, V, W, X, Y, Z in *. lra. }
  intros j Hj. rewrite <- WE by auto. unfold with_ends. destruct (Nat.eqb_spec j 0); auto. destruct (Nat.eqb_spec j n); auto.
  rewrite XE by lia. reflexivity.
Qed.

Lemma layout_of_contiguous T : contiguous T -> layout (c_NK T) (c_nk T) (c_i1 T) (c_I1 T).
Proof.
  intros HT. split; [apply (ct_links T HT)|]. intros k k' L Hk'. split; [apply (i1_after T HT); auto|].
  apply (I1_after T HT); auto.
Qed.

(** The averaged flow of a link whose depths are an exact solution. *)
Lemma averaged_exact T a b c P A E D f bw h_uk h_dk h Q k j :
  contiguous T -> (k < c_NK T)%nat -> (j < c_nk T k)%nat ->
  fwd_eqs a b c P A E D (c_i1 T k) (c_I1 T k) (c_nk T k) f -> bwd_eqs a b c P A E D (c_i1 T k) (c_I1 T k) (c_nk T k) bw ->
  wet_superlink a b c A E (c_i1 T k) (c_I1 T k) (c_nk T k) ->
  superlink_solution a b c P A E D (c_i1 T k) (c_I1 T k) (c_nk T k) Q (fun j => h (c_I1 T k + j)%nat) ->
  h (c_I1 T k) = h_uk k -> h (c_I1 T k + c_nk T k)%nat = h_dk k ->
  average_flow T f bw h_uk h_dk h (c_i1 T k + j)%nat = Q (j + 1)%nat.
Proof.
  intros HT Hk Hj HF HB Hw HS H0 Hd. pose proof (nk_pos T HT k Hk) as Hn.
  pose proof (fwd_signs _ _ _ _ _ _ _ _ _ _ _ HF Hw) as SF.
  pose proof (bwd_signs _ _ _ _ _ _ _ _ _ _ _ Hn HB Hw) as SB.
  assert (HT' : forall j, (j < c_nk T k)%nat -> fT f (c_i1 T k + j)%nat <> 0) by (intros i Hi; pose proof (SF i Hi); lra).
  assert (HO : forall j, (j < c_nk T k)%nat -> bO bw (c_i1 T k + j)%nat <> 0) by (intros i Hi; pose proof (SB i Hi); lra).
  pose proof (forward_exact a b c P A E D _ _ _ f Q _ HF HT' HS j Hj) as XF.
  pose proof (backward_exact a b c P A E D _ _ _ bw Q _ Hn HB HO HS j Hj) as XB. cbv beta in XF, XB.
  rewrite Nat.add_0_r, H0 in XF. rewrite Hd in XB.
  unfold average_flow. rewrite (Ik_at T HT), (ki_at T HT) by auto. unfold Q_i_b, Q_i_f.
  replace (c_I1 T k + j + 1)%nat with (c_I1 T k + (j + 1))%nat by lia. lra.
Qed.

(** Superlink k's coefficients, read from the recurrences. *)
Definition superlink_disagreement (T : chain) (f : fwd) (b : bwd) (k : nat) : arr -> R :=
  disagreement (at_ T (fU f) k) (at_ T (fV f) k) (at_ T (fW f) k) (at_ T (bX b) k) (at_ T (bY b) k) (at_ T (bZ b) k) (c_nk T k).

(** ** 'lsq' *)

Lemma lsq_result lin T h h_uk h_dk f b min_depth h' Q' :
  contiguous T -> (forall k, (k < c_NK T)%nat -> c_nk T k = c_nk T 0%nat \/ c_nk T k = 1%nat) ->
  sound_solver lin ->
  solve_internals_lsq lin T h h_uk h_dk f b min_depth = Some (h', Q') ->
  (forall k, (k < c_NK T)%nat -> exists x, best_k T f b h_uk h_dk k x /\
     forall j, (j <= c_nk T k)%nat ->
       h' (c_I1 T k + j)%nat = Rmax min_depth (with_ends (c_nk T k) (h_uk k) (h_dk k) x j)) /\
  Q' = average_flow T f b h_uk h_dk h'.
Proof.
  intros HT He Hs E. unfold solve_internals_lsq in E.
  destruct (right_hand_side_spec T HT f b h_uk h_dk) as (v & Ev & Hv). rewrite Ev in E. cbn [bind] in E.
  destruct (numba_solve_internals_ls _ _ _ _ _ _ _ _ _ _) as [h1|] eqn:E1 in E; [|discriminate]. cbn [bind] in E.
  injection E as Eh EQ. split; [|subst; reflexivity].
  intros k Hk. pose proof (ls_loop_inv T HT f b h_uk h_dk He v Hv lin h h1 Hs E1 k Hk) as HI.
  destruct (ends_written T HT h_uk h_dk _ h1 k Hk HI) as (x & G & EX). exists x. split; [exact G|].
  intros j Hj. subst h'. cbv beta. rewrite EX by auto. unfold Rmax.
  destruct (Rltb_spec (with_ends (c_nk T k) (h_uk k) (h_dk k) x j) min_depth), (Rle_dec min_depth (with_ends (c_nk T k) (h_uk k) (h_dk k) x j)); lra.
Qed.

(** The reported depths of a superlink minimise the squared disagreement between the flows computed from both ends,
    among all depths with the same ends, when no depth is limited. *)
Theorem C65_reported_depths_are_a_best_fit :
  forall lin T h h_uk h_dk f b min_depth h' Q',
  contiguous T -> (forall k, (k < c_NK T)%nat -> c_nk T k = c_nk T 0%nat \/ c_nk T k = 1%nat) ->
  sound_solver lin ->
  solve_internals_lsq lin T h h_uk h_dk f b min_depth = Some (h', Q') ->
  forall k, (k < c_NK T)%nat -> min_depth <= h_uk k -> min_depth <= h_dk k ->
  (forall j, (1 <= j)%nat -> (j < c_nk T k)%nat -> min_depth < h' (c_I1 T k + j)%nat) ->
  h' (c_I1 T k) = h_uk k /\ h' (c_I1 T k + c_nk T k)%nat = h_dk k /\
  forall y, y O = h_uk k -> y (c_nk T k) = h_dk k ->
    superlink_disagreement T f b k (fun j => h' (c_I1 T k + j)%nat) <= superlink_disagreement T f b k y.
Proof.
  intros lin T h h_uk h_dk f b min_depth h' Q' HT He Hs E k Hk Hu Hd Hin.
  destruct (lsq_result _ _ _ _ _ _ _ _ _ _ HT He Hs E) as [R _]. destruct (R k Hk) as (x & B & EX). clear R.
  pose proof (nk_pos T HT k Hk) as Hn.
  assert (EH : forall j, (j <= c_nk T k)%nat -> h' (c_I1 T k + j)%nat = with_ends (c_nk T k) (h_uk k) (h_dk k) x j).
  { intros j Hj. rewrite EX by auto. apply Rmax_right.
    destruct (Nat.eq_dec j 0) as [->|N0]; [exact Hu|]. destruct (Nat.eq_dec j (c_nk T k)) as [->|N1].
    - unfold with_ends. rewrite Nat.eqb_refl. destruct (Nat.eqb_spec (c_nk T k) 0); lra.
    - specialize (Hin j ltac:(lia) ltac:(lia)). rewrite EX in Hin by auto. apply Rnot_lt_le. intros L.
      rewrite Rmax_left in Hin; lra. }
  split; [|split].
  - replace (c_I1 T k) with (c_I1 T k + 0)%nat by lia. rewrite EH by lia. reflexivity.
  - rewrite EH by lia. unfold with_ends. rewrite Nat.eqb_refl. destruct (Nat.eqb_spec (c_nk T k) 0); [lia|reflexivity].
  - intros y Y0 Yn. unfold best_k in B. specialize (B (fun c => y (c + 1)%nat)). cbv zeta in B.
    rewrite !residual_disagreement in B by auto.
    assert (DE : forall p q, (forall j, (j <= c_nk T k)%nat -> p j = q j) ->
                 superlink_disagreement T f b k p = superlink_disagreement T f b k q).
    { intros p q Hpq. unfold superlink_disagreement, disagreement. apply sum_n_ext. intros r Hr. rewrite !Hpq by lia. reflexivity. }
    rewrite (DE (fun j => h' (c_I1 T k + j)%nat) (with_ends (c_nk T k) (h_uk k) (h_dk k) x)) by exact EH.
    rewrite (DE y (with_ends (c_nk T k) (h_uk k) (h_dk k) (fun c => y (c + 1)%nat))); [exact B|].
    intros j Hj. unfold with_ends. destruct (Nat.eqb_spec j 0) as [->|]; [auto|].
    destruct (Nat.eqb_spec j (c_nk T k)) as [->|]; [auto|]. f_equal; lia.
Qed.

(** In wet superlinks the normal equations can always be solved, and the reported depths and flows satisfy every
    momentum and continuity equation of every superlink in which no depth is limited. *)
Theorem C65_wet_superlinks_are_reconstructed_exactly :
  forall lin T h a b c P A E D sf f sb bw h_uk h_dk min_depth,
  contiguous T -> (forall k, (k < c_NK T)%nat -> c_nk T k = c_nk T 0%nat \/ c_nk T k = 1%nat) ->
  sound_solver lin -> (forall n, solver n (lin n)) ->
  numba_forward_recurrence sf a b c P A E D (c_NK T) (c_nk T) (c_I1 T) (c_i1 T) = Some f ->
  numba_backward_recurrence sb a b c P A E D (c_NK T) (c_nk T)
     (fun k => c_I1 T k + c_nk T k - 1)%nat (fun k => c_i1 T k + c_nk T k - 1)%nat = Some bw ->
  (forall k, (k < c_NK T)%nat -> wet_superlink a b c A E (c_i1 T k) (c_I1 T k) (c_nk T k)) ->
  exists h' Q', solve_internals_lsq lin T h h_uk h_dk f bw min_depth = Some (h', Q') /\
  forall k, (k < c_NK T)%nat -> min_depth <= h_uk k -> min_depth <= h_dk k ->
  (forall j, (1 <= j)%nat -> (j < c_nk T k)%nat -> min_depth < h' (c_I1 T k + j)%nat) ->
  h' (c_I1 T k) = h_uk k /\ h' (c_I1 T k + c_nk T k)%nat = h_dk k /\
  exists Q, superlink_solution a b c P A E D (c_i1 T k) (c_I1 T k) (c_nk T k) Q (fun j => h' (c_I1 T k + j)%nat) /\
            (forall j, (j < c_nk T k)%nat -> Q' (c_i1 T k + j)%nat = Q (j + 1)%nat).
Proof.
  intros lin T h a b c P A E D sf f sb bw h_uk h_dk min_depth HT He Hs Hsol Ef Eb Hw.
  pose proof (layout_of_contiguous T HT) as Hl.
  assert (HF : forall k, (k < c_NK T)%nat -> fwd_eqs a b c P A E D (c_i1 T k) (c_I1 T k) (c_nk T k) f)
    by (intros k Hk; exact (forward_recurrence_ok _ _ _ _ _ _ _ sf _ _ _ _ f Hl Ef k Hk)).
  assert (HB : forall k, (k < c_NK T)%nat -> bwd_eqs a b c P A E D (c_i1 T k) (c_I1 T k) (c_nk T k) bw)
    by (intros k Hk; eapply backward_recurrence_ok; eauto; intros; cbv beta; lia).
  destruct (right_hand_side_spec T HT f bw h_uk h_dk) as (v & Ev & Hv).
  destruct (ls_loop_total T HT f bw h_uk h_dk He v Hv lin h Hsol) as (h1 & E1 & _).
  { intros k r Hk Hr. pose proof (fwd_signs _ _ _ _ _ _ _ _ _ _ _ (HF k Hk) (Hw k Hk) r Hr). lra. }
  destruct (solve_internals_lsq lin T h h_uk h_dk f bw min_depth) as [[h' Q']|] eqn:ES.
  2:{ exfalso. unfold solve_internals_lsq in ES. rewrite Ev in ES. cbn [bind] in ES.
      match type of ES with bind ?x _ = _ => replace x with (Some h1) in ES by (symmetry; exact E1) end.
      discriminate. }
  exists h', Q'. split; [reflexivity|]. intros k Hk Hu Hd Hin.
  destruct (lsq_result _ _ _ _ _ _ _ _ _ _ HT He Hs ES) as [R RQ]. destruct (R k Hk) as (x & B & EX). clear R.
  pose proof (nk_pos T HT k Hk) as Hn.
  assert (EH : forall j, (j <= c_nk T k)%nat -> h' (c_I1 T k + j)%nat = with_ends (c_nk T k) (h_uk k) (h_dk k) x j).
  { intros j Hj. rewrite EX by auto. apply Rmax_right.
    destruct (Nat.eq_dec j 0) as [->|N0]; [exact Hu|]. destruct (Nat.eq_dec j (c_nk T k)) as [->|N1].
    - unfold with_ends. rewrite Nat.eqb_refl. destruct (Nat.eqb_spec (c_nk T k) 0); lra.
    - specialize (Hin j ltac:(lia) ltac:(lia)). rewrite EX in Hin by auto. apply Rnot_lt_le. intros L.
      rewrite Rmax_left in Hin; lra. }
  pose proof (fwd_signs _ _ _ _ _ _ _ _ _ _ _ (HF k Hk) (Hw k Hk)) as SF.
  destruct (superlink_solution_exists a b c P A E D (c_i1 T k) (c_I1 T k) (c_nk T k) f (h_uk k) (h_dk k) Hn (HF k Hk))
    as (Q & hx & HS & H0 & Hend).
  { intros j Hj. pose proof (SF j Hj). lra. }
  pose proof (minimiser_exact a b c P A E D _ _ _ f bw (h_uk k) (h_dk k) Q hx x Hn (HF k Hk) (HB k Hk) (Hw k Hk) HS H0 Hend
               (B (fun c => hx (c + 1)%nat))) as ME.
  assert (HH : forall j, (j <= c_nk T k)%nat -> h' (c_I1 T k + j)%nat = hx j) by (intros; rewrite EH, ME; auto).
  assert (HS' : superlink_solution a b c P A E D (c_i1 T k) (c_I1 T k) (c_nk T k) Q (fun j => h' (c_I1 T k + j)%nat)).
  { destruct HS as [HM HC]. split; intros j Hj; rewrite !HH by lia; [apply HM|apply HC]; auto. }
  assert (Z0 : h' (c_I1 T k) = h_uk k).
  { replace (c_I1 T k) with (c_I1 T k + 0)%nat by lia. rewrite HH by lia. auto. }
  assert (Zn : h' (c_I1 T k + c_nk T k)%nat = h_dk k) by (rewrite HH by lia; auto).
  split; [exact Z0|]. split; [exact Zn|]. exists Q. split; [exact HS'|].
  intros j Hj. rewrite RQ. eapply averaged_exact; eauto.
Qed.

(** ** 'nnls' *)

(** The non-negative variant: reported internal depths are non-negative and the best fit among non-negative depths, for
    any link counts; if the exact solution has no negative internal depth then it is what is reported. *)
Theorem C65_nonnegative_variant :
  forall nnls T h a b c P A E D sf f sb bw h_uk h_dk h' Q',
  contiguous T -> sound_nnls nnls ->
  numba_forward_recurrence sf a b c P A E D (c_NK T) (c_nk T) (c_I1 T) (c_i1 T) = Some f ->
  numba_backward_recurrence sb a b c P A E D (c_NK T) (c_nk T)
     (fun k => c_I1 T k + c_nk T k - 1)%nat (fun k => c_i1 T k + c_nk T k - 1)%nat = Some bw ->
  (forall k, (k < c_NK T)%nat -> wet_superlink a b c A E (c_i1 T k) (c_I1 T k) (c_nk T k)) ->
  solve_internals_nnls nnls T h h_uk h_dk f bw = Some (h', Q') ->
  forall k, (k < c_NK T)%nat ->
  h' (c_I1 T k) = h_uk k /\ h' (c_I1 T k + c_nk T k)%nat = h_dk k /\
  (forall j, (1 <= j)%nat -> (j < c_nk T k)%nat -> 0 <= h' (c_I1 T k + j)%nat) /\
  (forall y, y O = h_uk k -> y (c_nk T k) = h_dk k -> (forall j, (1 <= j)%nat -> (j < c_nk T k)%nat -> 0 <= y j) ->
     superlink_disagreement T f bw k (fun j => h' (c_I1 T k + j)%nat) <= superlink_disagreement T f bw k y) /\
  (forall Q hx, superlink_solution a b c P A E D (c_i1 T k) (c_I1 T k) (c_nk T k) Q hx ->
     hx O = h_uk k -> hx (c_nk T k) = h_dk k -> (forall j, (1 <= j)%nat -> (j < c_nk T k)%nat -> 0 <= hx j) ->
     (forall j, (j <= c_nk T k)%nat -> h' (c_I1 T k + j)%nat = hx j) /\
     (forall j, (j < c_nk T k)%nat -> Q' (c_i1 T k + j)%nat = Q (j + 1)%nat)).
Proof.
  intros nnls T h a b c P A E D sf f sb bw h_uk h_dk h' Q' HT Hs Ef Eb Hw ES k Hk.
  pose proof (layout_of_contiguous T HT) as Hl.
  pose proof (forward_recurrence_ok _ _ _ _ _ _ _ sf _ _ _ _ f Hl Ef k Hk) as HF.
  assert (HB : bwd_eqs a b c P A E D (c_i1 T k) (c_I1 T k) (c_nk T k) bw)
    by (eapply backward_recurrence_ok; eauto; intros; cbv beta; lia).
  unfold solve_internals_nnls in ES.
  destruct (right_hand_side_spec T HT f bw h_uk h_dk) as (v & Ev & Hv). rewrite Ev in ES. cbn [bind] in ES.
  destruct (nnls_superlinks _ _ _ _ _ _) as [h1|] eqn:E1 in ES; [|discriminate]. cbn [bind] in ES.
  injection ES as Eh EQ.
  pose proof (nn_loop_inv T HT f bw h_uk h_dk v Hv nnls h h1 Hs E1 k Hk) as HI.
  destruct (ends_written T HT h_uk h_dk _ h1 k Hk HI) as (x & [Pos B] & EX). rewrite Eh in EX.
  pose proof (nk_pos T HT k Hk) as Hn.
  assert (Z0 : h' (c_I1 T k) = h_uk k).
  { replace (c_I1 T k) with (c_I1 T k + 0)%nat by lia. rewrite EX by lia. reflexivity. }
  assert (Zn : h' (c_I1 T k + c_nk T k)%nat = h_dk k).
  { rewrite EX by lia. unfold with_ends. rewrite Nat.eqb_refl. destruct (Nat.eqb_spec (c_nk T k) 0); [lia|reflexivity]. }
  split; [exact Z0|]. split; [exact Zn|]. split; [|split].
  - intros j Hj1 Hj2. rewrite EX by lia. unfold with_ends. destruct (Nat.eqb_spec j 0); [lia|].
    destruct (Nat.eqb_spec j (c_nk T k)); [lia|]. apply Pos. lia.
  - intros y Y0 Yn Yp. specialize (B (fun c => y (c + 1)%nat) ltac:(intros; apply Yp; lia)). cbv zeta in B.
    rewrite !residual_disagreement in B by auto.
    assert (DE : forall p q, (forall j, (j <= c_nk T k)%nat -> p j = q j) ->
                 superlink_disagreement T f bw k p = superlink_disagreement T f bw k q).
    { intros p q Hpq. unfold superlink_disagreement, disagreement. apply sum_n_ext. intros r Hr. rewrite !Hpq by lia. reflexivity. }
    rewrite (DE (fun j => h' (c_I1 T k + j)%nat) (with_ends (c_nk T k) (h_uk k) (h_dk k) x)) by exact EX.
    rewrite (DE y (with_ends (c_nk T k) (h_uk k) (h_dk k) (fun c => y (c + 1)%nat))); [exact B|].
    intros j Hj. unfold with_ends. destruct (Nat.eqb_spec j 0) as [->|]; [auto|].
    destruct (Nat.eqb_spec j (c_nk T k)) as [->|]; [auto|]. f_equal; lia.
  - intros Q hx HS H0 Hend Hp.
    pose proof (minimiser_exact a b c P A E D _ _ _ f bw (h_uk k) (h_dk k) Q hx x Hn HF HB (Hw k Hk) HS H0 Hend
                 (B (fun c => hx (c + 1)%nat) ltac:(intros; apply Hp; lia))) as ME.
    assert (HH : forall j, (j <= c_nk T k)%nat -> h' (c_I1 T k + j)%nat = hx j) by (intros; rewrite EX, ME; auto).
    split; [exact HH|]. intros j Hj. rewrite <- EQ. rewrite Eh.
    assert (HS' : superlink_solution a b c P A E D (c_i1 T k) (c_I1 T k) (c_nk T k) Q (fun j => h' (c_I1 T k + j)%nat)).
    { destruct HS as [HM HC]. split; intros i Hi; rewrite !HH by lia; [apply HM|apply HC]; auto. }
    eapply averaged_exact; eauto.
Qed.
