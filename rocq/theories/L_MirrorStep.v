From Verif Require Import Prelude M_Coeffs M_Recurrence M_Assembly M_Step S_Superlink S_Network S_Step S_Mirror
  L_Forward L_Backward L_Coeffs L_Internals L_Assembly L_Step P_Superlink P_Assembly P_Step L_Mirror.

(** Sums over the elements at a junction, counted from both ends. *)
Lemma sum_if_pair (p q : nat -> bool) (f h : arr) (p' q' : nat -> bool) (f' h' : arr) n :
  (forall k, (k < n)%nat -> (if p k then f k else 0) + (if q k then h k else 0) = (if p' k then f' k else 0) + (if q' k then h' k else 0)) ->
  sum_if p f n + sum_if q h n = sum_if p' f' n + sum_if q' h' n.
Proof. intros H. unfold sum_if. rewrite <- !sum_n_plus. apply sum_n_ext. exact H. Qed.
Lemma sum_if_pair_minus (p q : nat -> bool) (f h : arr) (p' q' : nat -> bool) (f' h' : arr) n :
  (forall k, (k < n)%nat -> (if p k then f k else 0) - (if q k then h k else 0) = (if p' k then f' k else 0) - (if q' k then h' k else 0)) ->
  sum_if p f n - sum_if q h n = sum_if p' f' n - sum_if q' h' n.
Proof.
  intros H. unfold Rminus. rewrite <- !sum_if_opp. apply sum_if_pair. intros k Hk. specialize (H k Hk).
  destruct (p k), (q k), (p' k), (q' k); lra.
Qed.

Definition mirror_flow (f : flowc) : flowc := mkFlow (- bd f) (- ad f) (- cd f) (- bu f) (- au f) (- cu f).
Definition mirror_ends (e : ends) : ends := mkEnds (- eU e) (- eV e) (- eW e) (- eX e) (- eY e) (- eZ e).

Lemma flow_coefficients_mirror e hu hd :
  superlink_flow_coefficients (mirror_ends e) (mirror_head hd) (mirror_head hu) = mirror_flow (superlink_flow_coefficients e hu hd).
Proof.
  unfold superlink_flow_coefficients, mirror_flow, mirror_ends, mirror_head. cbn [eX eY eZ eU eV eW hk hl hm au bu cu ad bd cd].
  assert (ED : D_k_star (- eU e) (- hk hd) (- eX e) (- hk hu) (- eW e) (- eZ e) = D_k_star (eX e) (hk hu) (eU e) (hk hd) (eZ e) (eW e))
    by (unfold D_k_star; ring).
  rewrite ED. unfold alpha_uk, beta_uk, chi_uk, alpha_dk, beta_dk, chi_dk. rewrite <- !safe_divide_opp. f_equal; f_equal; ring.
Qed.

Section Solve.
Variable rv : nat -> bool.
Variables N N' : network.
Hypothesis HN : mirrored_network rv N N'.
Hypothesis Hwf : well_formed N.
Variables (G G' : geometry) (u u' : setup).
Hypothesis HU : mirrored_setup rv N G G' u u'.
Local Notation K := (n_K N).
Local Notation nk := (n_nk N).
Local Notation i1 := (n_i1 N).
Local Notation I1 := (n_I1 N).

Lemma ends_turned k : (k < K)%nat ->
  end_coeffs (n_end_o N') (u_f u') (u_b u') (u_E u') (u_D u') (n_I1 N' k) (n_I1 N' k + n_nk N' k - 1) (n_I1 N' k + n_nk N' k)
  = let e := end_coeffs (n_end_o N) (u_f u) (u_b u) (u_E u) (u_D u) (I1 k) (I1 k + nk k - 1) (I1 k + nk k) in
    pick (rv k) e (mirror_ends e).
Proof.
  intros Hk. rewrite (mn_end_o _ _ _ HN), (mn_I1 _ _ _ HN), (mn_nk _ _ _ HN). pose proof (proj1 (wf_layout _ Hwf) k Hk) as Hn.
  pose proof (mu_co _ _ _ _ _ _ HU k Hk) as CO. destruct (rv k) eqn:Er; cbn [pick]; cbv zeta.
  - destruct (mu_turn _ _ _ _ _ _ HU k 0%nat Hk Er ltac:(lia)) as [_ (b1 & b2 & b3)].
    destruct (mu_turn _ _ _ _ _ _ HU k (nk k - 1)%nat Hk Er ltac:(lia)) as [(f1 & f2 & f3) _].
    destruct CO as [_ Cn]. destruct (Cn 0%nat ltac:(lia)) as [e0 d0]. destruct (Cn (nk k) ltac:(lia)) as [e1 d1].
    rewrite Nat.add_0_r in b1, b2, b3, e0, d0. rewrite !Nat.sub_0_r in *.
    replace (nk k - 1 - (nk k - 1))%nat with 0%nat in f1, f2, f3 by lia. rewrite Nat.sub_diag in e1, d1. rewrite Nat.add_0_r in f1, f2, f3, e1, d1.
    replace (I1 k + (nk k - 1))%nat with (I1 k + nk k - 1)%nat in * by lia.
    unfold end_coeffs, mirror_ends. destruct (n_end_o N); cbn [eX eY eZ eU eV eW]; rewrite b1, b2, b3, f1, f2, f3, ?e0, ?d0, ?e1, ?d1; f_equal; ring.
  - destruct (mu_same _ _ _ _ _ _ HU k 0%nat Hk Er ltac:(lia)) as [_ (b1 & b2 & b3)].
    destruct (mu_same _ _ _ _ _ _ HU k (nk k - 1)%nat Hk Er ltac:(lia)) as [(f1 & f2 & f3) _].
    destruct CO as [_ Cn]. destruct (Cn 0%nat ltac:(lia)) as [e0 d0]. destruct (Cn (nk k) ltac:(lia)) as [e1 d1].
    rewrite Nat.add_0_r in b1, b2, b3, e0, d0. replace (I1 k + (nk k - 1))%nat with (I1 k + nk k - 1)%nat in * by lia.
    unfold end_coeffs. destruct (n_end_o N); rewrite b1, b2, b3, f1, f2, f3, ?e0, ?d0, ?e1, ?d1; reflexivity.
Qed.

Lemma flow_mirror k : (k < K)%nat -> flow_coeffs N' u' k = pick (rv k) (flow_coeffs N u k) (mirror_flow (flow_coeffs N u k)).
Proof.
  intros Hk. unfold flow_coeffs. rewrite (ends_turned k Hk). cbv zeta. rewrite (mu_hu _ _ _ _ _ _ HU k Hk), (mu_hd _ _ _ _ _ _ HU k Hk).
  destruct (rv k); cbn [pick]; [apply flow_coefficients_mirror|reflexivity].
Qed.

(** ** The assembled system is the same *)
Section System.
Hypothesis HG : mirrored_geometry rv N G G'.
Local Notation SK := (superlinks_of N G u).
Local Notation SK' := (superlinks_of N' G' u').

Lemma superlinks_turned dt k : (k < K)%nat ->
  k_Ju SK' k = pick (rv k) (k_Ju SK k) (k_Jd SK k) /\ k_Jd SK' k = pick (rv k) (k_Jd SK k) (k_Ju SK k) /\
  k_au SK' k = pick (rv k) (k_au SK k) (- k_bd SK k) /\ k_bu SK' k = pick (rv k) (k_bu SK k) (- k_ad SK k) /\
  k_cu SK' k = pick (rv k) (k_cu SK k) (- k_cd SK k) /\ k_ad SK' k = pick (rv k) (k_ad SK k) (- k_bu SK k) /\
  k_bd SK' k = pick (rv k) (k_bd SK k) (- k_au SK k) /\ k_cd SK' k = pick (rv k) (k_cd SK k) (- k_cu SK k) /\
  xi_u SK' dt k = pick (rv k) (xi_u SK dt k) (xi_d SK dt k) /\ xi_d SK' dt k = pick (rv k) (xi_d SK dt k) (xi_u SK dt k).
Proof.
  intros Hk. unfold xi_u, xi_d, superlinks_of. cbn [k_Ju k_Jd k_au k_bu k_cu k_ad k_bd k_cd k_dxu k_Bu k_thu k_dxd k_Bd k_thd].
  rewrite (flow_mirror k Hk), (mu_hu _ _ _ _ _ _ HU k Hk), (mu_hd _ _ _ _ _ _ HU k Hk).
  destruct (mn_ends _ _ _ HN k Hk) as (-> & -> & _ & _ & _ & _ & -> & ->). destruct (mg_ends _ _ _ _ HG k Hk) as (_ & _ & -> & ->).
  destruct (rv k); cbn [pick]; repeat split.
Qed.

Lemma matrix_mirror dt (A_sj A_sj' : arr) i j : A_sj' i = A_sj i ->
  entry (n_bc N) 1 (diag_A SK' A_sj' dt) (k_Ju SK') (k_Jd SK') (k_ad SK') (k_bu SK') (k_n SK') i j
  = entry (n_bc N) 1 (diag_A SK A_sj dt) (k_Ju SK) (k_Jd SK) (k_ad SK) (k_bu SK) (k_n SK) i j.
Proof.
  intros EA. unfold entry, diag_A. destruct (n_bc N i); [reflexivity|]. rewrite EA.
  assert (EK : k_n SK' = k_n SK) by apply (mn_K _ _ _ HN). rewrite EK. change (k_n SK) with K.
  unfold Rminus. rewrite !Rplus_assoc. f_equal.
  - destruct (Nat.eqb i j); [|reflexivity]. rewrite <- !Rplus_assoc. f_equal. apply sum_if_pair. intros k Hk.
    destruct (superlinks_turned dt k Hk) as (E1 & E2 & E3 & E4 & E5 & E6 & E7 & E8 & E9 & E10).
    rewrite E1, E2, E3, E7, E9, E10. destruct (rv k); cbn [pick]; [|reflexivity].
    destruct (Nat.eqb (k_Jd SK k) i), (Nat.eqb (k_Ju SK k) i); ring.
  - apply sum_if_pair_minus. intros k Hk.
    destruct (superlinks_turned dt k Hk) as (E1 & E2 & E3 & E4 & E5 & E6 & E7 & E8 & E9 & E10).
    rewrite E1, E2, E4, E6. destruct (rv k); cbn [pick]; [|reflexivity].
    destruct (Nat.eqb (k_Jd SK k) i && Nat.eqb (k_Ju SK k) j)%bool, (Nat.eqb (k_Ju SK k) i && Nat.eqb (k_Jd SK k) j)%bool; ring.
Qed.

Lemma rhs_mirror dt (Hp Hp' : arr) j : (forall j, (j < n_M N)%nat -> Hp' j = Hp j) -> rhs_K SK' Hp' dt j = rhs_K SK Hp dt j.
Proof.
  intros EH. unfold rhs_K. assert (EK : k_n SK' = k_n SK) by apply (mn_K _ _ _ HN). rewrite EK. change (k_n SK) with K.
  apply sum_if_pair. intros k Hk.
  destruct (superlinks_turned dt k Hk) as (E1 & E2 & E3 & E4 & E5 & E6 & E7 & E8 & E9 & E10).
  destruct (wf_ends _ Hwf k Hk) as [W1 W2]. pose proof (EH _ W1) as H1. pose proof (EH _ W2) as H2.
  change (n_Ju N k) with (k_Ju SK k) in H1. change (n_Jd N k) with (k_Jd SK k) in H2.
  rewrite E1, E2, E5, E8, E9, E10. destruct (rv k); cbn [pick].
  - rewrite H1, H2. destruct (Nat.eqb (k_Jd SK k) j), (Nat.eqb (k_Ju SK k) j); ring.
  - rewrite H1, H2. reflexivity.
Qed.
End System.

(** ** The new state *)
Hypothesis Ff : forall k, (k < K)%nat ->
  fwd_eqs (ma (u_m u)) (mb (u_m u)) (mc (u_m u)) (mP (u_m u)) (g_A G) (u_E u) (u_D u) (i1 k) (I1 k) (nk k) (u_f u).
Hypothesis Fb : forall k, (k < K)%nat ->
  bwd_eqs (ma (u_m u)) (mb (u_m u)) (mc (u_m u)) (mP (u_m u)) (g_A G) (u_E u) (u_D u) (i1 k) (I1 k) (nk k) (u_b u).
Hypothesis Ff' : forall k, (k < K)%nat ->
  fwd_eqs (ma (u_m u')) (mb (u_m u')) (mc (u_m u')) (mP (u_m u')) (g_A G') (u_E u') (u_D u') (i1 k) (I1 k) (nk k) (u_f u').
Hypothesis Fb' : forall k, (k < K)%nat ->
  bwd_eqs (ma (u_m u')) (mb (u_m u')) (mc (u_m u')) (mP (u_m u')) (g_A G') (u_E u') (u_D u') (i1 k) (I1 k) (nk k) (u_b u').
Hypothesis Pv : forall k j, (k < K)%nat -> (j < nk k)%nat ->
  fT (u_f u) (i1 k + j)%nat <> 0 /\ bO (u_b u) (i1 k + j)%nat <> 0 /\ bX (u_b u) (I1 k + j)%nat <> 0.
Hypothesis Pv' : forall k j, (k < K)%nat -> (j < nk k)%nat ->
  fT (u_f u') (i1 k + j)%nat <> 0 /\ bO (u_b u') (i1 k + j)%nat <> 0 /\ bX (u_b u') (I1 k + j)%nat <> 0.

(** One turned superlink: the reconstructions are mirror images. *)
Lemma internals_mirror k back hu hd h Q h' Q' : (k < K)%nat -> rv k = true ->
  internals_eqs (u_f u) (u_b u) hu hd (i1 k) (I1 k) (nk k) (n_min N) (n_maxk N k) back h Q ->
  internals_eqs (u_f u') (u_b u') hd hu (i1 k) (I1 k) (nk k) (n_min N) (n_maxk N k) back h' Q' ->
  (nk k <= 2)%nat /\ back = true \/ (forall j, (1 <= j)%nat -> (j < nk k)%nat -> n_min N < h (I1 k + j)%nat < n_maxk N k) ->
  (forall j, (j <= nk k)%nat -> h' (I1 k + j)%nat = h (I1 k + (nk k - j))%nat) /\
  (forall j, (j < nk k)%nat -> Q' (i1 k + j)%nat = - Q (i1 k + (nk k - 1 - j))%nat).
Proof.
  intros Hk Er IE IE' Hf. pose proof (proj1 (wf_layout _ Hwf) k Hk) as Hn.
  pose proof (mu_co _ _ _ _ _ _ HU k Hk) as CO. rewrite Er in CO.
  assert (Inside : (forall j, (1 <= j)%nat -> (j < nk k)%nat -> n_min N < h (I1 k + j)%nat < n_maxk N k) ->
    (forall j, (j <= nk k)%nat -> h' (I1 k + j)%nat = h (I1 k + (nk k - j))%nat) /\
    (forall j, (j < nk k)%nat -> Q' (i1 k + j)%nat = - Q (i1 k + (nk k - 1 - j))%nat)).
  { intros Hin. destruct (internals_output_solution _ _ _ _ _ _ _ _ _ _ _ _ _ _ _ _ _ _ _ Hn (Ff k Hk) (Fb k Hk)
      (fun j Hj => proj1 (Pv k j Hk Hj)) (fun j Hj => proj1 (proj2 (Pv k j Hk Hj))) (fun j _ Hj => proj2 (proj2 (Pv k j Hk Hj))) IE Hin)
      as (Qs & HS & EQ).
    pose proof (solution_mirror _ _ _ _ _ _ _ _ _ _ _ _ _ _ _ _ _ _ _ CO HS) as HS'.
    assert (IE2 : internals_eqs (u_f u') (u_b u') (h (I1 k + (nk k - 0))%nat) (h (I1 k + (nk k - nk k))%nat)
              (i1 k) (I1 k) (nk k) (n_min N) (n_maxk N k) back h' Q').
    { rewrite Nat.sub_0_r, Nat.sub_diag, Nat.add_0_r. rewrite (ie_first _ _ _ _ _ _ _ _ _ _ _ _ IE), (ie_last _ _ _ _ _ _ _ _ _ _ _ _ IE). exact IE'. }
    destruct (internals_exact _ _ _ _ _ _ _ _ _ _ _ _ _ _ _ _ _ _ _ Hn (Ff' k Hk) (Fb' k Hk) (fun j Hj => Pv' k j Hk Hj) HS' IE2) as [X1 X2].
    { intros j H1 H2. cbv beta. pose proof (Hin (nk k - j)%nat ltac:(lia) ltac:(lia)). lra. }
    split; [exact X1|]. intros j Hj. rewrite X2 by auto. cbv beta.
    rewrite EQ by lia. do 2 f_equal. lia. }
  destruct Hf as [[H2 Eb]|Hin]; [|auto].
  destruct (Nat.eq_dec (nk k) 2) as [E2|]; [|apply Inside; intros; lia]. subst back. clear Inside.
  destruct (superlink_solution_exists _ _ _ _ _ _ _ _ _ _ _ hu hd Hn (Ff k Hk) (fun j Hj => proj1 (Pv k j Hk Hj))) as (Qs & hs & HS & h0 & hn).
  pose proof (solution_mirror _ _ _ _ _ _ _ _ _ _ _ _ _ _ _ _ _ _ _ CO HS) as HS'.
  rewrite <- h0, <- hn in IE, IE'.
  destruct (internals_two _ _ _ _ _ _ _ _ _ _ _ _ _ _ _ _ _ _ E2 (Ff k Hk) (Fb k Hk) (fun j Hj => Pv k j Hk Hj) HS IE) as (A0 & A1 & A2 & B1 & B2).
  assert (IE2 : internals_eqs (u_f u') (u_b u') (hs (nk k - 0)%nat) (hs (nk k - nk k)%nat)
              (i1 k) (I1 k) (nk k) (n_min N) (n_maxk N k) true h' Q').
  { rewrite Nat.sub_0_r, Nat.sub_diag. exact IE'. }
  destruct (internals_two _ _ _ _ _ _ _ _ _ _ _ _ _ _ _ _ _ _ E2 (Ff' k Hk) (Fb' k Hk) (fun j Hj => Pv' k j Hk Hj) HS' IE2) as (A0' & A1' & A2' & B1' & B2').
  cbv beta in *. rewrite E2 in *. cbn [Nat.sub Nat.add] in *. split.
  - intros j Hj. destruct j as [|[|[|j]]]; [| | |lia]; cbn [Nat.sub]; rewrite ?Nat.add_0_r; congruence.
  - intros j Hj. destruct j as [|[|j]]; [| |lia]; cbn [Nat.sub]; rewrite ?Nat.add_0_r; congruence.
Qed.

Lemma solve_mirror st st' H H' : (forall j, (j < n_M N)%nat -> H' j = H j) ->
  order_free rv N (M_Step.solve_step N u st H) ->
  mirrored_state rv N (M_Step.solve_step N u st H) (M_Step.solve_step N' u' st' H').
Proof.
  intros HH OF.
  set (L := fun j => limit_head (n_zj N j) (n_maxj N j) (H j)). set (L' := fun j => limit_head (n_zj N' j) (n_maxj N' j) (H' j)).
  assert (EL : forall j, (j < n_M N)%nat -> L' j = L j).
  { intros j Hj. unfold L, L'. now rewrite (mn_zj _ _ _ HN), (mn_maxj _ _ _ HN), HH. }
  set (Q := fun k => solve_superlink_flows (flow_coeffs N u k) (L (n_Ju N k)) (L (n_Jd N k))).
  set (Q' := fun k => solve_superlink_flows (flow_coeffs N' u' k) (L' (n_Ju N' k)) (L' (n_Jd N' k))).
  set (h := fun k => solve_superlink_depths (u_hu u k) (u_hd u k) (fst (Q k)) (snd (Q k)) (L (n_Ju N k)) (L (n_Jd N k))).
  set (h' := fun k => solve_superlink_depths (u_hu u' k) (u_hd u' k) (fst (Q' k)) (snd (Q' k)) (L' (n_Ju N' k)) (L' (n_Jd N' k))).
  assert (EQ : forall k, (k < K)%nat -> fst (Q' k) = pick (rv k) (fst (Q k)) (- snd (Q k)) /\ snd (Q' k) = pick (rv k) (snd (Q k)) (- fst (Q k))).
  { intros k Hk. unfold Q, Q'. rewrite (flow_mirror k Hk). destruct (wf_ends _ Hwf k Hk) as [W1 W2].
    destruct (mn_ends _ _ _ HN k Hk) as (-> & -> & _). unfold solve_superlink_flows, mirror_flow.
    destruct (rv k); cbn [pick fst snd au bu cu ad bd cd]; rewrite !EL by auto; split; ring. }
  assert (Eh : forall k, (k < K)%nat -> fst (h' k) = pick (rv k) (fst (h k)) (snd (h k)) /\ snd (h' k) = pick (rv k) (snd (h k)) (fst (h k))).
  { intros k Hk. unfold h, h'. destruct (EQ k Hk) as [-> ->]. rewrite (mu_hu _ _ _ _ _ _ HU k Hk), (mu_hd _ _ _ _ _ _ HU k Hk).
    destruct (wf_ends _ Hwf k Hk) as [W1 W2]. destruct (mn_ends _ _ _ HN k Hk) as (-> & -> & _). unfold solve_superlink_depths, mirror_head.
    destruct (rv k); cbn [pick fst snd hk hl hm]; rewrite !EL by auto; split; ring. }
  destruct (numba_solve_internals (h_h st, h_Q st) (fun k => fst (h k)) (fun k => snd (h k)) (u_f u) (u_b u)
              (n_i1 N) (n_I1 N) (n_nk N) (n_K N) (n_min N) (n_maxk N) (n_back N)) as [x y] eqn:EI.
  destruct (numba_solve_internals (h_h st', h_Q st') (fun k => fst (h' k)) (fun k => snd (h' k)) (u_f u') (u_b u')
              (n_i1 N') (n_I1 N') (n_nk N') (n_K N') (n_min N') (n_maxk N') (n_back N')) as [x' y'] eqn:EI'.
  assert (Es : M_Step.solve_step N u st H = mkHState L (fun k => fst (Q k)) (fun k => snd (Q k)) (fun I => if Rltb (x I) (n_min N) then n_min N else x I) y).
  { unfold M_Step.solve_step, solve_internals. cbv zeta.
    change (numba_solve_internals (h_h st, h_Q st) _ _ _ _ _ _ _ _ _ _ _) with
      (numba_solve_internals (h_h st, h_Q st) (fun k => fst (h k)) (fun k => snd (h k)) (u_f u) (u_b u)
              (n_i1 N) (n_I1 N) (n_nk N) (n_K N) (n_min N) (n_maxk N) (n_back N)). rewrite EI. reflexivity. }
  assert (Es' : M_Step.solve_step N' u' st' H' = mkHState L' (fun k => fst (Q' k)) (fun k => snd (Q' k)) (fun I => if Rltb (x' I) (n_min N') then n_min N' else x' I) y').
  { unfold M_Step.solve_step, solve_internals. cbv zeta.
    change (numba_solve_internals (h_h st', h_Q st') _ _ _ _ _ _ _ _ _ _ _) with
      (numba_solve_internals (h_h st', h_Q st') (fun k => fst (h' k)) (fun k => snd (h' k)) (u_f u') (u_b u')
              (n_i1 N') (n_I1 N') (n_nk N') (n_K N') (n_min N') (n_maxk N') (n_back N')). rewrite EI'. reflexivity. }
  rewrite Es in OF. rewrite Es, Es'. clear Es Es'. rewrite (mn_min _ _ _ HN).
  rewrite (mn_i1 _ _ _ HN), (mn_I1 _ _ _ HN), (mn_nk _ _ _ HN), (mn_K _ _ _ HN), (mn_min _ _ _ HN), (mn_maxk _ _ _ HN), (mn_back _ _ _ HN) in EI'.
  pose proof (numba_solve_internals_eqs _ _ _ _ _ _ _ _ _ _ _ _ _ _ (wf_layout _ Hwf) EI) as IE.
  pose proof (numba_solve_internals_eqs _ _ _ _ _ _ _ _ _ _ _ _ _ _ (wf_layout _ Hwf) EI') as IE'.
  assert (RI : forall k, (k < K)%nat ->
    (forall j, (j <= nk k)%nat -> x' (I1 k + j)%nat = x (I1 k + flip_node (rv k) (nk k) j)%nat) /\
    (forall j, (j < nk k)%nat -> y' (i1 k + j)%nat = turn (rv k) (y (i1 k + flip_link (rv k) (nk k) j)%nat))).
  { intros k Hk. specialize (IE k Hk). specialize (IE' k Hk). cbv beta in IE, IE'. destruct (Eh k Hk) as [E1 E2]. rewrite E1, E2 in IE'.
    pose proof (proj1 (wf_layout _ Hwf) k Hk) as Hn. unfold flip_node, flip_link, turn. destruct (rv k) eqn:Er; cbn [pick] in IE'.
    - refine (internals_mirror k _ _ _ _ _ _ _ Hk Er IE IE' _). destruct (OF k Hk Er) as [X|X]; [left; exact X|right].
      intros j H1 H2. specialize (X j H1 H2). cbn [h_h] in X. destruct (Rltb_spec (x (I1 k + j)%nat) (n_min N)); lra.
    - exact (internals_agree _ _ _ _ _ _ _ _ _ _ _ _ _ _ _ _ Hn (fun j Hj => proj1 (mu_same _ _ _ _ _ _ HU k j Hk Er Hj))
               (fun j Hj => proj2 (mu_same _ _ _ _ _ _ HU k j Hk Er Hj)) IE IE'). }
  constructor; cbn [h_H h_Qu h_Qd h_h h_Q]; auto.
  - intros k j Hk Hj. cbn [h_h]. destruct (RI k Hk) as [X _]. rewrite X by auto. reflexivity.
  - intros k j Hk Hj. destruct (RI k Hk) as [_ X]. apply X; auto.
Qed.
End Solve.
