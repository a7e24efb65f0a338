(** Property C81: the diagnostics recomputed from the recurrence coefficients agree with what the step reported. *)
From Verif Require Import Prelude M_Numerics M_Coeffs M_Recurrence M_Assembly M_Step M_LeastSquares M_Quality M_Geometry M_Storage M_Controls M_Simulation M_Model
  S_Superlink S_Network S_Step S_LeastSquares S_Model S_Object L_Forward L_Backward L_Pivots L_LeastSquares L_LeastSquaresChain L_LeastSquaresNn L_Step L_Model P_Superlink P_Step P_Model P_Object.
From Verif Require Import M_Diagnostics.

(** Writing through a mask: entry i of the values goes to the i-th True position. *)
Lemma put_masked_at (h : arr) mask n (v : arr) count i : (count <= length (where_ mask n))%nat -> (i < count)%nat ->
  put_masked h mask n v count (nth i (where_ mask n) O) = v i.
Proof.
  intros Hc Hi. unfold put_masked.
  apply (proj1 (put_at (fun k => nth k (where_ mask n) O) v h count
    (fun k k' Hk Hk' E => proj1 (NoDup_nth (where_ mask n) O) (NoDup_filter _ (seq_NoDup n 0)) k k' ltac:(lia) ltac:(lia) E)) i Hi).
Qed.

Section Masks.
  Variable T : chain.
  Hypothesis HT : contiguous T.

  Ltac bools := repeat match goal with |- context [Nat.eqb ?a ?b] => destruct (Nat.eqb_spec a b) end;
                repeat match goal with |- context [(?a <=? ?b)%nat] => destruct (Nat.leb_spec a b) end;
                repeat match goal with |- context [(?a <? ?b)%nat] => destruct (Nat.ltb_spec a b) end; simpl; auto; try lia.

  Lemma notstart_entry k j : (k < c_NK T)%nat -> (j < c_nk T k)%nat ->
    nth (c_i1 T k + j) (where_ (fun I => negb (c_start T I)) (c_NJ T)) O = (c_I1 T k + (j + 1))%nat.
  Proof.
    intros Hk Hj. apply nth_of_error. rewrite (ct_NJ T HT), <- (i1_eq T HT), <- (I1_eq T HT) by auto.
    etransitivity; [apply (where_entry _ (fun k => c_nk T k + 1)%nat (c_NK T) (fun _ => 1%nat) (c_nk T)); auto|cbv beta; f_equal; lia].
    - intros; cbv beta; lia.
    - intros k' j' Hk' Hj'. rewrite (I1_eq T HT) by auto. rewrite (start_at T HT) by (auto; lia). bools.
  Qed.
  Lemma notstart_length : length (where_ (fun I => negb (c_start T I)) (c_NJ T)) = c_NL T.
  Proof.
    rewrite (ct_NJ T HT), (ct_NL T HT). apply (where_length _ (fun k => c_nk T k + 1)%nat (c_NK T) (fun _ => 1%nat) (c_nk T)).
    - intros; cbv beta; lia.
    - intros k' j' Hk' Hj'. rewrite (I1_eq T HT) by auto. rewrite (start_at T HT) by (auto; lia). bools.
  Qed.
  Lemma link_below k j : (k < c_NK T)%nat -> (j < c_nk T k)%nat -> (c_i1 T k + j < c_NL T)%nat.
  Proof.
    intros Hk Hj. rewrite (ct_NL T HT), <- (i1_eq T HT) by auto. pose proof (nsum_block (c_nk T) k (c_NK T) Hk). lia.
  Qed.

  (** Depths written by the diagnostic when every link's flow obeys both relations with depths [h] that have the right
      ends and lie above the minimum. *)
  Lemma depths_recovered f b (hu hd Q h : arr) mn h0 k : (k < c_NK T)%nat ->
    (forall j, (j < c_nk T k)%nat -> bX b (c_I1 T k + j)%nat <> 0 /\ fU f (c_I1 T k + j)%nat <> 0 /\
       Q (c_i1 T k + j)%nat = bX b (c_I1 T k + j)%nat * h j + bY b (c_I1 T k + j)%nat + bZ b (c_I1 T k + j)%nat * hd k /\
       Q (c_i1 T k + j)%nat = fU f (c_I1 T k + j)%nat * h (j + 1)%nat + fV f (c_I1 T k + j)%nat + fW f (c_I1 T k + j)%nat * hu k) ->
    h O = hu k -> h (c_nk T k) = hd k -> (forall j, (j <= c_nk T k)%nat -> mn <= h j) ->
    let '(hb, hf) := depth_from_recurrence T f b hu hd Q mn h0 in
    forall j, (j <= c_nk T k)%nat -> hb (c_I1 T k + j)%nat = h j /\ hf (c_I1 T k + j)%nat = h j.
  Proof.
    intros Hk HR H0 Hn Hm. cbv beta iota zeta delta [depth_from_recurrence].
    match goal with |- context [put_masked h0 (fun I => negb (c_end T I)) (c_NJ T) ?v (c_NL T)] =>
      set (hb := put_masked h0 (fun I => negb (c_end T I)) (c_NJ T) v (c_NL T)) end.
    match goal with |- context [put_masked h0 (fun I => negb (c_start T I)) (c_NJ T) ?v (c_NL T)] =>
      set (hf := put_masked h0 (fun I => negb (c_start T I)) (c_NJ T) v (c_NL T)) end.
    assert (Hb : forall j, (j < c_nk T k)%nat -> hb (c_I1 T k + j)%nat = h j).
    { intros j Hj. unfold hb. rewrite <- (notend_entry T HT k j Hk Hj) at 1.
      rewrite put_masked_at by (try rewrite (notend_length T HT); auto using link_below).
      rewrite (notend_entry T HT k j Hk Hj), (ki_at T HT k j Hk Hj). destruct (HR j Hj) as (N1 & _ & E & _). rewrite E.
      unfold h_next_b, safe_divide. destruct (Reqb_spec (bX b (c_I1 T k + j)%nat) 0); [contradiction|]. field. auto. }
    assert (Hf : forall j, (j < c_nk T k)%nat -> hf (c_I1 T k + (j + 1))%nat = h (j + 1)%nat).
    { intros j Hj. unfold hf. rewrite <- (notstart_entry k j Hk Hj) at 1.
      rewrite put_masked_at by (try rewrite notstart_length; auto using link_below).
      rewrite (notend_entry T HT k j Hk Hj), (ki_at T HT k j Hk Hj). destruct (HR j Hj) as (_ & N1 & _ & E). rewrite E.
      unfold h_next_f, safe_divide. destruct (Reqb_spec (fU f (c_I1 T k + j)%nat) 0); [contradiction|]. field. auto. }
    assert (inner : forall g, (forall j, (j < c_nk T k - 1)%nat -> g (c_I1 T k + 1 + j)%nat = h (j + 1)%nat) ->
      forall j, (j <= c_nk T k)%nat ->
      put_masked (put_masked g (c_start T) (c_NJ T) hu (c_NK T)) (c_end T) (c_NJ T) hd (c_NK T) (c_I1 T k + j)%nat = h j).
    { intros g Hg j Hj.
      destruct (ends_written T HT hu hd (fun _ x => forall j, (j < c_nk T k - 1)%nat -> x j = h (j + 1)%nat) g k Hk) as (x & Hx & E).
      - exists (fun j => g (c_I1 T k + 1 + j)%nat). split; [exact Hg|reflexivity].
      - cbv zeta in E. rewrite (E j Hj). unfold with_ends. destruct (Nat.eqb_spec j 0) as [->|N0]; [auto|].
        destruct (Nat.eqb_spec j (c_nk T k)) as [->|N1]; [auto|]. rewrite Hx by lia. f_equal. lia. }
    intros j Hj. split.
    - rewrite (inner hb); [apply Rmax_left; auto| |auto]. intros i Hi. rewrite <- Nat.add_assoc, (Nat.add_comm 1 i). apply Hb. lia.
    - rewrite (inner hf); [apply Rmax_left; auto| |auto]. intros i Hi. rewrite <- Nat.add_assoc, (Nat.add_comm 1 i). apply Hf. lia.
  Qed.
End Masks.

(** The index tables describe the network. *)
Definition describes (T : chain) (N : network) : Prop :=
  contiguous T /\ c_NK T = n_K N /\
  forall k, (k < n_K N)%nat -> c_nk T k = n_nk N k /\ c_i1 T k = n_i1 N k /\ c_I1 T k = n_I1 N k.

Section Hydraulics.
Variable D : design.
Variable slv : mat -> arr -> option arr.
Local Notation N := (d_net D).
Hypothesis HD : sound D.
Hypothesis Hslv : solver (n_M N) slv.

(** C81: after any history and a step that ended with all depths inside their limits (default end method), the flows
    recomputed from the backward and from the forward relation both equal the reported flows, and the depths recomputed
    from the reported flows in both directions both equal the reported depths, whatever the fresh arrays contained. *)
Theorem C81_recomputed_flows_and_depths_agree : forall m history m1 i dt n tol m2 p T h0,
  constructed D m -> (forall a, In a history -> allowed D a) -> perform_all D slv history m = Some m1 ->
  admissible D i dt -> object_step D slv i dt n tol m1 = Some (m2, p) ->
  n_end_o N = false -> describes T N ->
  let u := b_cf (m_body m2) in let st := b_st (m_body m2) in
  depths_inside N u st ->
  let hu := fun k => fst (end_depths N u st k) in let hd := fun k => snd (end_depths N u st k) in
  let '(Qb, Qf) := flow_from_recurrence T (u_f u) (u_b u) hu hd (h_h st) in
  let '(hb, hf) := depth_from_recurrence T (u_f u) (u_b u) hu hd (h_Q st) (n_min N) h0 in
  forall k, (k < n_K N)%nat ->
  (forall j, (j < n_nk N k)%nat -> Qb (n_i1 N k + j)%nat = h_Q st (n_i1 N k + j)%nat /\ Qf (n_i1 N k + j)%nat = h_Q st (n_i1 N k + j)%nat) /\
  (forall j, (j <= n_nk N k)%nat -> hb (n_I1 N k + j)%nat = h_h st (n_I1 N k + j)%nat /\ hf (n_I1 N k + j)%nat = h_h st (n_I1 N k + j)%nat).
Proof.
  intros m history m1 i dt n tol m2 p T h0 Hc Hall Eh Ha E He (HT & EK & ET) u st Hd hu hd.
  pose proof (healthy_history D slv HD Hslv _ _ _ Hc Hall Eh) as Hm.
  destruct (step_last D slv HD Hslv (fun _ => True) i dt n tol m1 m2 p Ha Hm I) as (mb & Bl & b1 & _ & W & Rc & E1 & E2 & _); auto.
  destruct (pass_facts D slv HD Hslv _ _ _ _ _ _ Ha W Rc E1 E2) as (bg & Vs & Ao & u' & Hs & Eg & Wt & _ & _ & EO & Eu & F). unfold controls_of in F.
  destruct F as (_ & _ & _ & _ & Est & Ecf & _). fold u in Ecf. subst u'.
  cbn [snd v_st save_body] in Eu. 
  assert (Dd := Hd). unfold st in Dd. rewrite Est in Dd.
  pose proof (setup_facts_ok _ _ _ _ _ _ _ _ Eu) as [Fm Fn Ff Fb _ _].
  destruct (setup_signs N (geometry_of bg) _ _ _ _ dt (sd_wf _ HD) Wt (proj1 Ha) u Eu) as [HW HP].
  (* both relations on superlink k *)
  assert (REL : forall k, (k < n_K N)%nat ->
    h_h st (n_I1 N k) = hu k /\ h_h st (n_I1 N k + n_nk N k)%nat = hd k /\
    forall j, (j < n_nk N k)%nat -> bX (u_b u) (n_I1 N k + j)%nat <> 0 /\ fU (u_f u) (n_I1 N k + j)%nat <> 0 /\
       h_Q st (n_i1 N k + j)%nat = bX (u_b u) (n_I1 N k + j)%nat * h_h st (n_I1 N k + j)%nat + bY (u_b u) (n_I1 N k + j)%nat + bZ (u_b u) (n_I1 N k + j)%nat * hd k /\
       h_Q st (n_i1 N k + j)%nat = fU (u_f u) (n_I1 N k + j)%nat * h_h st (n_I1 N k + (j + 1))%nat + fV (u_f u) (n_I1 N k + j)%nat + fW (u_f u) (n_I1 N k + j)%nat * hu k).
  { intros k Hk.
    destruct (reported_solution N (geometry_of bg) _ _ _ _ dt u Hs (sd_wf _ HD) Wt (proj1 Ha) (or_introl (sd_z _ HD)) He Eu Dd k Hk) as (SS & S1 & S2).
    rewrite <- Est in SS, S1, S2. fold st in SS, S1, S2. fold (hu k) in S1. fold (hd k) in S2. split; [exact S1|]. split; [exact S2|].
    intros j Hj. split; [apply (HP k j Hk Hj)|]. split.
    { pose proof (proj1 (proj2 (fwd_signs _ _ _ _ _ _ _ _ _ _ _ (forward_recurrence_ok _ _ _ _ _ _ _ _ _ _ _ _ _ (wf_layout _ (sd_wf _ HD)) Ff k Hk) (HW k Hk) j Hj))). lra. }
    assert (EQ : local_flows (h_Q st) (n_i1 N k) (n_nk N k) (h_Qu st k) (h_Qd st k) (j + 1)%nat = h_Q st (n_i1 N k + j)%nat).
    { unfold local_flows. destruct (Nat.eqb_spec (j + 1) 0); [lia|]. destruct (Nat.leb_spec (j + 1) (n_nk N k)); [|lia]. f_equal. lia. }
    split.
    - rewrite <- EQ.
      rewrite (C18_backward_relation_holds_for_every_solution _ _ _ _ _ _ _ _ _ _ _ _ _ (wf_layout _ (sd_wf _ HD)) Fb k Hk
        (fun j Hj => proj1 (proj2 (HP k j Hk Hj))) _ _ SS j Hj). cbv beta. rewrite S2. reflexivity.
    - rewrite <- EQ.
      rewrite (C17_forward_relation_holds_for_every_solution _ _ _ _ _ _ _ _ _ _ _ _ _ (wf_layout _ (sd_wf _ HD)) Ff k Hk
        (fun j Hj => proj1 (HP k j Hk Hj)) _ _ SS j Hj). cbv beta. rewrite Nat.add_0_r, S1. reflexivity. }
  destruct (flow_from_recurrence T (u_f u) (u_b u) hu hd (h_h st)) as [Qb Qf] eqn:EF.
  destruct (depth_from_recurrence T (u_f u) (u_b u) hu hd (h_Q st) (n_min N) h0) as [hb hf] eqn:ED.
  intros k Hk. destruct (ET k Hk) as (e1 & e2 & e3). destruct (REL k Hk) as (R1 & R2 & R3).
  assert (Hk' : (k < c_NK T)%nat) by lia.
  split.
  - intros j Hj. injection EF as <- <-. rewrite <- e2.
    rewrite (Ik_at T HT k j Hk' ltac:(lia)), (ki_at T HT k j Hk' ltac:(lia)), e2, e3. destruct (R3 j Hj) as (_ & _ & B & Fw).
    unfold Q_i_b, Q_i_f. rewrite <- Nat.add_assoc. split; symmetry; [exact B|exact Fw].
  - pose proof (depths_recovered T HT (u_f u) (u_b u) hu hd (h_Q st) (fun j => h_h st (n_I1 N k + j)%nat) (n_min N) h0 k Hk') as X.
    rewrite ED, e1, e2, e3 in X. apply X.
    + intros j Hj. exact (R3 j Hj).
    + rewrite Nat.add_0_r. exact R1.
    + exact R2.
    + intros j Hj. destruct (Hd k Hk) as (D1 & D2 & D3).
      destruct (Nat.eq_dec j 0) as [->|]; [rewrite Nat.add_0_r, R1; exact D1|].
      destruct (Nat.eq_dec j (n_nk N k)) as [->|]; [rewrite R2; exact D2|]. destruct (D3 j ltac:(lia) ltac:(lia)). lra.
Qed.
End Hydraulics.
