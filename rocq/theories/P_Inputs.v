(** Property C88: forcing reaches the junctions it is meant for, at the right time. *)
From Coq Require Import ZArith Permutation.
From Verif Require Import Prelude M_Numerics M_Coeffs M_Assembly M_Step M_Geometry M_Storage M_Controls M_Simulation M_Model M_Layout M_Banded M_Forcing
  S_Numerics S_Network S_Step S_Model S_Object L_Sort L_Model L_Gauss P_Assembly P_Permute P_Step P_Limits P_Simulation P_Model P_Replay P_Object P_TimeOrigin.
From Verif Require Import S_Controls M_Tables P_Tables.

(** ** Renumbered tables *)

Lemma increasing_identity (n : nat) (g : nat -> nat) : (forall p, (p < n)%nat -> (g p < n)%nat) ->
  (forall p q, (p < q)%nat -> (q < n)%nat -> (g p < g q)%nat) -> forall p, (p < n)%nat -> g p = p.
Proof.
  intros Hlt Hm.
  assert (L : forall p, (p < n)%nat -> (p <= g p)%nat).
  { induction p as [|p IH]; intros Hp; [lia|]. specialize (IH ltac:(lia)). specialize (Hm p (S p) ltac:(lia) Hp). lia. }
  assert (U : forall d p, (p + d = n)%nat -> (p < n)%nat -> (g p + d <= n)%nat).
  { induction d as [|d IH]; intros p E Hp; [lia|]. destruct (Nat.eq_dec d 0) as [->|Hd]; [specialize (Hlt p Hp); lia|].
    specialize (IH (S p) ltac:(lia) ltac:(lia)). specialize (Hm p (S p) ltac:(lia) ltac:(lia)). lia. }
  intros p Hp. specialize (L p Hp). specialize (U (n - p)%nat p ltac:(lia) Hp). lia.
Qed.

(** Sorting the rows by renumbered ids puts the row with id [perm p] at position p. *)
Lemma sorted_rows n (id row perm pinv : nat -> nat) : permutation_of n id row -> permutation_of n perm pinv ->
  forall p, (p < n)%nat ->
    id (nth p (argsort n (fun r => INR (renumber pinv id r))) O) = perm p /\ (nth p (argsort n (fun r => INR (renumber pinv id r))) O < n)%nat.
Proof.
  intros HI HP p Hp. set (f := fun r => INR (renumber pinv id r)). set (ix := argsort n f).
  assert (B : forall q, (q < n)%nat -> (nth q ix O < n)%nat) by (intros; apply argsort_lt; auto). split; [|auto].
  assert (E : pinv (id (nth p ix O)) = p).
  { apply (increasing_identity n (fun q => pinv (id (nth q ix O)))); auto.
    - intros q Hq. apply (pm_inv_lt _ _ _ HP), (pm_lt _ _ _ HI); auto.
    - intros q r Hqr Hr. pose proof (argsort_le n f q r ltac:(lia) Hr) as L. fold ix in L. unfold f, renumber in L. apply INR_le in L.
      destruct (Nat.eq_dec (pinv (id (nth q ix O))) (pinv (id (nth r ix O)))) as [X|]; [|lia].
      apply (f_equal perm) in X. rewrite !(pm_r _ _ _ HP) in X by (apply (pm_lt _ _ _ HI); auto; apply B; lia).
      apply (f_equal row) in X. rewrite !(pm_l _ _ _ HI) in X by (apply B; lia). apply argsort_inj in X; lia. }
  rewrite <- E at 2. rewrite (pm_r _ _ _ HP) by (apply (pm_lt _ _ _ HI); auto). reflexivity.
Qed.

(** C88: with [auto_permute], whatever order is chosen and whatever ids the rows have (each of 0..M-1 once): construction
    succeeds, row p of the model is the user's row with id [perm p], and a superlink whose end is given as junction i ends at
    the row with id i. *)
Theorem C88_renumbering_goes_by_id : forall J S row perm pinv,
  by_position J -> ends_listed J S -> permutation_of (jt_n J) (jt_id J) row -> permutation_of (jt_n J) perm pinv ->
  exists B S1, construct (Some (perm, pinv)) J S = Some B /\ orient J S = Some S1 /\ jt_n (bt_J B) = jt_n J /\ bt_perm B = perm /\
    (forall r, (r < jt_n J)%nat -> let p := pinv (jt_id J r) in (p < jt_n J)%nat /\ jt_label (bt_J B) p = p /\
       jt_z (bt_J B) p = jt_z J r /\ jt_h0 (bt_J B) p = jt_h0 J r /\ jt_bc (bt_J B) p = jt_bc J r /\ jt_name (bt_J B) p = jt_name J r) /\
    (forall k, (k < lt_n S)%nat ->
       jt_name (bt_J B) (lt_0 (bt_S B) k) = jt_name J (row (lt_0 S1 k)) /\ jt_name (bt_J B) (lt_1 (bt_S B) k) = jt_name J (row (lt_1 S1 k)) /\
       lt_in (bt_S B) k = lt_in S k /\ lt_out (bt_S B) k = lt_out S k).
Proof.
  intros J S row perm pinv HL HE HI HP.
  destruct (C87_direction_rule J S HL HE) as (S1 & E1 & En & Ei & Eo & _ & _ & _ & R).
  assert (HE1 : ends_listed J S1).
  { intros k Hk. rewrite En in Hk. destruct (HE k Hk) as [X Y]. destruct (R k Hk) as [Ru Rd].
    destruct (Rlt_dec (jt_z J (lt_0 S k) + lt_in S k) (jt_z J (lt_1 S k) + lt_out S k)) as [L|L]; [destruct (Ru L) as [-> ->]|destruct (Rd L) as [-> ->]]; lia. }
  pose proof (sorted_rows (jt_n J) (jt_id J) row perm pinv HI HP) as SR.
  unfold construct. rewrite E1. cbn [bind].
  unfold permute_junctions. destruct (forallb (fun r => Nat.ltb (jt_id J r) (jt_n J)) (seq 0 (jt_n J))) eqn:F1.
  2:{ exfalso. apply Bool.not_true_iff_false in F1. apply F1. apply forallb_forall. intros x Hx. apply in_seq in Hx. apply Nat.ltb_lt, (pm_lt _ _ _ HI). lia. }
  cbn [bind]. unfold permute_superlinks. destruct (forallb _ (seq 0 (lt_n S1))) eqn:F2.
  2:{ exfalso. apply Bool.not_true_iff_false in F2. apply F2. apply forallb_forall. intros x Hx. apply in_seq in Hx. destruct (HE1 x ltac:(lia)) as [X Y].
      apply Nat.ltb_lt in X, Y. rewrite X, Y. reflexivity. }
  cbn [bind]. set (ix := argsort (jt_n J) (fun r => INR (renumber pinv (jt_id J) r))) in *.
  assert (RW : forall i, (i < jt_n J)%nat -> nth (pinv i) ix O = row i).
  { intros i Hi. destruct (SR (pinv i) (pm_inv_lt _ _ _ HP i Hi)) as [X Y]. rewrite (pm_r _ _ _ HP) in X by auto.
    rewrite <- (pm_l _ _ _ HI (nth (pinv i) ix O) Y), X. reflexivity. }
  eexists. exists S1. split; [reflexivity|]. split; [exact eq_refl|]. cbn [bt_J bt_S bt_perm jt_n]. split; [reflexivity|]. split; [reflexivity|]. split.
  - intros r Hr. set (p := pinv (jt_id J r)). pose proof (pm_lt _ _ _ HI r Hr) as Hi. assert (Hp : (p < jt_n J)%nat) by (apply (pm_inv_lt _ _ _ HP); auto).
    assert (ER : nth p ix O = r) by (unfold p; rewrite RW, (pm_l _ _ _ HI); auto). split; [exact Hp|].
    cbn [jt_label jt_z jt_h0 jt_bc jt_name]. rewrite ER. split; [reflexivity|auto].
  - intros k Hk. destruct (HE1 k ltac:(lia)) as [X Y]. cbn [jt_name lt_0 lt_1 lt_in lt_out]. unfold renumber. rewrite !RW by auto. rewrite Ei, Eo. auto.
Qed.

(** C88: with the user's rows in the order of their ids, every junction, found by its name in the model, is driven by its own
    columns: the inflow and the prescribed head handed to the model's step at the position of the user's row r are the samples
    of the user's columns r, and internal junctions get their own columns; recorded heads carry the right names. *)
Theorem C88_forcing_reaches_its_junction : forall J S perm pinv B method H_bc Q_in Q_Ik uo uw up t,
  by_position J -> ends_listed J S -> (forall r, (r < jt_n J)%nat -> jt_id J r = r) -> permutation_of (jt_n J) perm pinv ->
  construct (Some (perm, pinv)) J S = Some B ->
  let i := forced method (junction_forcing (bt_perm B) H_bc) (junction_forcing (bt_perm B) Q_in) (internal_forcing Q_Ik) uo uw up t in
  forall r, (r < jt_n J)%nat -> exists p, (p < jt_n (bt_J B))%nat /\ jt_name (bt_J B) p = jt_name J r /\ jt_bc (bt_J B) p = jt_bc J r /\
    (forall v, interpolate_sample t (fr_t Q_in) (fr_col Q_in r) method = Some v -> i_Qin i p = v) /\
    (forall v, interpolate_sample t (fr_t H_bc) (fr_col H_bc r) method = Some v -> i_Hbc i p = v) /\
    (forall I v, interpolate_sample t (fr_t Q_Ik) (fr_col Q_Ik I) method = Some v -> i_Q0 i I = v) /\
    (forall H, In (jt_name J r, H p) (named_heads B H)).
Proof.
  intros J S perm pinv B method H_bc Q_in Q_Ik uo uw up t HL HE Hid HP EB i r Hr.
  assert (HI : permutation_of (jt_n J) (jt_id J) (fun r => r)) by (constructor; intros; rewrite ?Hid; auto).
  destruct (C88_renumbering_goes_by_id J S (fun r => r) perm pinv HL HE HI HP) as (B' & S1 & E & _ & EN & Ep & RJ & _).
  rewrite EB in E. injection E as <-. destruct (RJ r Hr) as (Hp & _ & _ & _ & Eb & Enm). rewrite Hid in Hp, Eb, Enm by auto.
  exists (pinv r). rewrite EN. split; [auto|]. split; [auto|]. split; [auto|]. unfold i, forced. cbn [i_Qin i_Hbc i_Q0].
  unfold sampled, junction_forcing, internal_forcing. cbn [fo_t fo_col]. rewrite Ep, (pm_r _ _ _ HP) by auto.
  repeat split; try (intros v ->; reflexivity); try (intros I v ->; reflexivity).
  intros H. unfold named_heads. apply in_map_iff. exists (pinv r). rewrite Enm, EN. split; [reflexivity|]. apply in_seq. lia.
Qed.

(** C87: with or without renumbering, in tables listed in the order of their ids, a superlink drawn falling or with equal
    offsets joins in the constructed model the junctions and inverts it was drawn between, turned round if it was drawn
    rising, and does not rise. *)
Theorem C87_constructed_superlinks_keep_their_ends : forall auto J S B k,
  by_position J -> ends_listed J S -> (forall r, (r < jt_n J)%nat -> jt_id J r = r) ->
  match auto with None => True | Some (perm, pinv) => permutation_of (jt_n J) perm pinv end ->
  construct auto J S = Some B -> (k < lt_n S)%nat -> ~ rises J S k \/ lt_in S k = lt_out S k ->
  let named j := (jt_name (bt_J B) j, jt_bc (bt_J B) j, jt_z (bt_J B) j) in
  let drawn j := (jt_name J j, jt_bc J j, jt_z J j) in
  exists zu zd, end_inverts (bt_J B) (bt_S B) k = Some (zu, zd) /\ zd <= zu /\
    (~ rises J S k -> named (lt_0 (bt_S B) k) = drawn (lt_0 S k) /\ zu = jt_z J (lt_0 S k) + lt_in S k /\
                      named (lt_1 (bt_S B) k) = drawn (lt_1 S k) /\ zd = jt_z J (lt_1 S k) + lt_out S k) /\
    (rises J S k -> named (lt_0 (bt_S B) k) = drawn (lt_1 S k) /\ zu = jt_z J (lt_1 S k) + lt_out S k /\
                    named (lt_1 (bt_S B) k) = drawn (lt_0 S k) /\ zd = jt_z J (lt_0 S k) + lt_in S k).
Proof.
  intros auto J S B k HL HE Hid Hauto EB Hk Hc named drawn.
  destruct (C87_direction_rule J S HL HE) as (S1 & E1 & En & Ei & Eo & _ & _ & _ & R). destruct (R k Hk) as [Ru Rd]. destruct (HE k Hk) as [L0 L1].
  set (at_ j := match auto with None => j | Some (_, pinv) => pinv j end).
  assert (G : jt_n (bt_J B) = jt_n J /\ lt_in (bt_S B) k = lt_in S k /\ lt_out (bt_S B) k = lt_out S k /\
    lt_0 (bt_S B) k = at_ (lt_0 S1 k) /\ lt_1 (bt_S B) k = at_ (lt_1 S1 k) /\
    forall j, (j < jt_n J)%nat -> (at_ j < jt_n J)%nat /\ named (at_ j) = drawn j).
  { destruct auto as [[perm pinv]|].
    - assert (HI : permutation_of (jt_n J) (jt_id J) (fun r => r)) by (constructor; intros; rewrite ?Hid; auto).
      destruct (C88_renumbering_goes_by_id J S (fun r => r) perm pinv HL HE HI Hauto) as (B' & S2 & EB' & E2 & EN & _ & RJ & RS).
      rewrite EB in EB'. injection EB' as <-. destruct (RS k Hk) as (_ & _ & Ein & Eout). split; [exact EN|]. split; [exact Ein|]. split; [exact Eout|].
      assert (ES : lt_0 (bt_S B) k = pinv (lt_0 S1 k) /\ lt_1 (bt_S B) k = pinv (lt_1 S1 k)).
      { unfold construct in EB. rewrite E1 in EB. cbn [bind] in EB. destruct (permute_junctions pinv J) as [J'|]; [|discriminate]. cbn [bind] in EB.
        unfold permute_superlinks in EB. destruct (forallb _ _); [|discriminate]. cbn [bind] in EB. injection EB as <-. cbn [bt_S lt_0 lt_1]. split; reflexivity. }
      split; [apply ES|]. split; [apply ES|]. intros j Hj. destruct (RJ j Hj) as (X & _ & Z & _ & Bc & Nm). rewrite Hid in * by auto. split; [exact X|].
      unfold named, drawn, at_. rewrite Z, Bc, Nm. reflexivity.
    - unfold construct in EB. rewrite E1 in EB. cbn [bind] in EB. injection EB as <-. unfold named. cbn [bt_J bt_S]. rewrite Ei, Eo. repeat split; auto. }
  destruct G as (EN & Ein & Eout & E0 & E1' & Gj). unfold end_inverts. rewrite EN, Ein, Eout, E0, E1'.
  assert (Zn : forall j, (j < jt_n J)%nat -> jt_z (bt_J B) (at_ j) = jt_z J j) by (intros j Hj; destruct (Gj j Hj) as [_ Q]; unfold named, drawn in Q; congruence).
  destruct (Rlt_dec (jt_z J (lt_0 S k) + lt_in S k) (jt_z J (lt_1 S k) + lt_out S k)) as [L|L].
  - destruct Hc as [Hc|Hc]; [elim Hc; exact L|]. destruct (Ru L) as [-> ->].
    destruct (Gj _ L0) as [A0 N0]. destruct (Gj _ L1) as [A1 N1].
    destruct (Nat.ltb_spec (at_ (lt_1 S k)) (jt_n J)); [|lia]. destruct (Nat.ltb_spec (at_ (lt_0 S k)) (jt_n J)); [|lia]. cbn [andb].
    rewrite (Zn _ L0), (Zn _ L1). eexists _, _. split; [reflexivity|]. split; [lra|]. split; [intros X; elim X; exact L|].
    intros _. rewrite N0, N1, Hc. auto.
  - destruct (Rd L) as [-> ->]. destruct (Gj _ L0) as [A0 N0]. destruct (Gj _ L1) as [A1 N1].
    destruct (Nat.ltb_spec (at_ (lt_0 S k)) (jt_n J)); [|lia]. destruct (Nat.ltb_spec (at_ (lt_1 S k)) (jt_n J)); [|lia]. cbn [andb].
    rewrite (Zn _ L0), (Zn _ L1). eexists _, _. split; [reflexivity|]. split; [lra|]. split; [intros _; rewrite N0, N1; auto|].
    intros X; elim L; exact X.
Qed.

(** Without [auto_permute] rows and columns are used as they are. *)
Theorem C88_without_renumbering : forall J S, by_position J -> ends_listed J S ->
  exists B, construct None J S = Some B /\ bt_J B = J /\ forall f p, fo_col (junction_forcing (bt_perm B) f) p = fr_col f p.
Proof.
  intros J S HL HE. destruct (C87_direction_rule J S HL HE) as (S1 & E & _). unfold construct. rewrite E. cbn [bind].
  eexists. split; [reflexivity|]. split; reflexivity.
Qed.

(** ** Rows in another order than their ids; names of columns *)

(** Two junctions whose rows are listed in the opposite order of their ids. *)
Definition rev_J : junction_table :=
  mkJT 2 (fun r => r) (fun r => (1 - r)%nat) (fun r => match r with O => 1 | _ => 0 end) (fun _ => 1) (fun _ => false) (fun r => (100 + r)%nat).
Definition rev_S : superlink_table := mkLT 1 (fun _ => 0%nat) (fun _ => 1%nat) (fun _ => 0) (fun _ => 0) (fun _ => 0) (fun _ => 0%nat) (fun _ => 1%nat).
Lemma rev_ok : by_position rev_J /\ ends_listed rev_J rev_S /\ permutation_of 2 (jt_id rev_J) (fun r => (1 - r)%nat) /\ permutation_of 2 (fun p => p) (fun p => p).
Proof.
  split; [intros r Hr; reflexivity|]. split; [intros k Hk; simpl; lia|]. split; constructor; cbn [rev_J jt_id]; intros; lia.
Qed.
(** C88: then [auto_permute] gives junctions each other's forcing, even if it finds nothing to reorder. *)
Theorem C88_ids_in_another_order_refuted :
  ~ (forall J S row perm pinv B, by_position J -> ends_listed J S -> permutation_of (jt_n J) (jt_id J) row -> permutation_of (jt_n J) perm pinv ->
       construct (Some (perm, pinv)) J S = Some B -> (forall r r', (r < jt_n J)%nat -> (r' < jt_n J)%nat -> jt_name J r = jt_name J r' -> r = r') ->
       forall f r p, (r < jt_n J)%nat -> (p < jt_n J)%nat -> jt_name (bt_J B) p = jt_name J r ->
         fo_col (junction_forcing (bt_perm B) f) p = fr_col f r).
Proof.
  intros X. destruct rev_ok as (HL & HE & HI & HP).
  destruct (C88_renumbering_goes_by_id rev_J rev_S _ _ _ HL HE HI HP) as (B & S1 & E & _ & _ & Ep & RJ & _).
  specialize (X rev_J rev_S _ _ _ B HL HE HI HP E ltac:(simpl; intros; lia) (mkFrame [0] (fun c => c) (fun c => [INR c])) 0%nat 1%nat ltac:(simpl; lia) ltac:(simpl; lia)).
  destruct (RJ 0%nat ltac:(simpl; lia)) as (_ & _ & _ & _ & _ & N). specialize (X N). rewrite Ep in X. simpl in X. injection X. intros; lra.
Qed.
(** C88: and it joins other junctions than without [auto_permute]. *)
Theorem C88_same_network_refuted :
  ~ (forall J S row perm pinv B B', by_position J -> ends_listed J S -> permutation_of (jt_n J) (jt_id J) row -> permutation_of (jt_n J) perm pinv ->
       construct (Some (perm, pinv)) J S = Some B -> construct None J S = Some B' ->
       forall k, (k < lt_n S)%nat -> jt_name (bt_J B) (lt_0 (bt_S B) k) = jt_name (bt_J B') (lt_0 (bt_S B') k)).
Proof.
  intros X. destruct rev_ok as (HL & HE & HI & HP).
  destruct (C88_renumbering_goes_by_id rev_J rev_S _ _ _ HL HE HI HP) as (B & S1 & E & E1 & _ & _ & _ & RS).
  assert (E' : construct None rev_J rev_S = Some (mkBuilt rev_J S1 (fun p => p))) by (unfold construct; rewrite E1; reflexivity).
  specialize (X rev_J rev_S _ _ _ B _ HL HE HI HP E E' 0%nat ltac:(simpl; lia)). cbn [bt_J bt_S] in X.
  destruct (RS 0%nat ltac:(simpl; lia)) as (N & _). rewrite N in X. cbn [rev_J jt_name] in X.
  destruct (C87_direction_rule rev_J rev_S HL HE) as (S2 & E2 & _ & _ & _ & _ & _ & _ & R). rewrite E1 in E2. injection E2 as <-.
  destruct (R 0%nat ltac:(simpl; lia)) as [_ Rd]. destruct (Rd ltac:(unfold rises; simpl; lra)) as [Z _]. rewrite Z in X. simpl in X. lia.
Qed.
(** C88: names of columns do not matter: a table whose columns are named after the junctions, but listed in another order, is
    read by position. *)
Theorem C88_columns_by_name_refuted :
  ~ (forall J S B f c p, by_position J -> ends_listed J S -> construct None J S = Some B ->
       (p < jt_n J)%nat -> fr_name f c = jt_name J p -> fo_col (junction_forcing (bt_perm B) f) p = fr_col f c).
Proof.
  intros X. destruct rev_ok as (HL & HE & _). destruct (C88_without_renumbering rev_J rev_S HL HE) as (B & E & _ & Ec).
  specialize (X rev_J rev_S B (mkFrame [0] (fun c => (101 - c)%nat) (fun c => [INR c])) 1%nat 0%nat HL HE E ltac:(simpl; lia) eq_refl).
  rewrite Ec in X. simpl in X. injection X. intros; lra.
Qed.

(** ** Time *)

(** The last thing an adaptive step does is a step of the model, from a healthy state, with the inputs of the time it ends at. *)
Section Driven.
Variable D : design.
Variable slv : mat -> arr -> option arr.
Hypothesis HD : sound D.
Hypothesis Hslv : solver (n_M (d_net D)) slv.
Local Notation N := (d_net D).

Lemma last_step_of_attempt c dt sub norm (m m' : object) init e : 0 < dt -> (forall t dt, 0 < dt -> admissible D (c_inputs c t) dt) -> healthy D m ->
  attempt body saved inputs save_body (load_body D) (fun _ i dt v => setup_body D i dt (v_st v)) (fun i dt _ => solve_body D slv i dt)
    heads_of (fun v => h_H (v_st v)) (n_M N) c dt sub norm m = Some (m', init, e) ->
  healthy D m' /\ watered D (v_st (snd init)) /\ exists m0 dt' p, 0 < dt' /\ healthy D m0 /\
    object_step D slv (c_inputs c (m_t m0 + dt')) dt' (c_num_iter c) (c_head_tol c) m0 = Some (m', p).
Proof.
  intros Hdt Hc Hm. unfold attempt.
  assert (MS : forall dt (m : object), 0 < dt -> healthy D m -> exists m' p,
    object_step D slv (c_inputs c (m_t m + dt)) dt (c_num_iter c) (c_head_tol c) m = Some (m', p) /\
    model_step body saved inputs save_body (fun _ i dt v => setup_body D i dt (v_st v)) (fun i dt _ => solve_body D slv i dt) heads_of (fun v => h_H (v_st v)) (n_M N) c dt m = Some m' /\
    healthy D m').
  { clear -HD Hslv Hc. intros dt m Hdt Hm. destruct (object_step_total D slv HD Hslv (c_inputs c (m_t m + dt)) dt (c_num_iter c) (c_head_tol c) m (Hc _ _ Hdt) Hm) as ((m' & p) & E & Hr & _).
    exists m', p. split; [exact E|]. unfold model_step. unfold object_step in E. rewrite E. auto. }
  destruct (MS dt m Hdt Hm) as (m1 & p1 & O1 & -> & H1). cbn [bind]. cbv zeta. pose proof H1 as (_ & _ & W1).
  destruct (Nat.ltb_spec 1 sub) as [L|L].
  2:{ intros [= <- <- <-]. split; [auto|]. split; [exact W1|]. exists m, dt, p1. auto. }
  destruct (object_load_total D HD (m_saved m1) m1 W1 H1) as (m2 & E2 & H2). unfold object_load in E2. rewrite E2. cbn [bind].
  assert (Hds : 0 < dt / INR sub) by (apply Rmult_lt_0_compat; auto; apply Rinv_0_lt_compat, lt_0_INR; lia).
  assert (FS : forall n (m : object), healthy D m -> exists m', fine_steps body saved inputs save_body (fun _ i dt v => setup_body D i dt (v_st v)) (fun i dt _ => solve_body D slv i dt) heads_of (fun v => h_H (v_st v)) (n_M N) c n (dt / INR sub) m = Some m' /\ healthy D m').
  { intros n mm Hmm. unfold fine_steps. induction n as [|n IH]; cbn [for_opt]; [eauto|]. destruct IH as (ma & -> & Ha). destruct (MS _ ma Hds Ha) as (mc & p & _ & E & Hc'). eauto. }
  destruct sub as [|n]; [lia|]. unfold fine_steps. cbn [for_opt].
  destruct (FS n m2 H2) as (m4 & E4 & H4). unfold fine_steps in E4. rewrite E4. destruct (MS _ m4 Hds H4) as (m3 & p3 & O3 & E3 & H3). rewrite E3. cbn [bind].
  destruct (normed_error _ _ _ _ _) as [er|]; cbn [bind]; [|discriminate]. intros [= <- <- <-]. split; [auto|]. split; [exact W1|].
  exists m4, (dt / INR (S n)), p3. auto.
Qed.
Lemma last_step_of_sim : forall retries c dt sub tol norm (s s' : sim body saved), 0 < dt -> (forall t dt, 0 < dt -> admissible D (c_inputs c t) dt) -> healthy D (s_model s) ->
  sim_step body saved inputs save_body (load_body D) (fun _ i dt v => setup_body D i dt (v_st v)) (fun i dt _ => solve_body D slv i dt)
    heads_of (fun v => h_H (v_st v)) (n_M N) retries c dt sub tol norm s = Some s' ->
  healthy D (s_model s') /\ exists m0 dt' p, 0 < dt' /\ healthy D m0 /\
    object_step D slv (c_inputs c (m_t m0 + dt')) dt' (c_num_iter c) (c_head_tol c) m0 = Some (s_model s', p).
Proof.
  induction retries as [|r IH]; intros c dt sub tol norm s s' Hdt Hc Hs; cbn [sim_step];
    (destruct (attempt _ _ _ _ _ _ _ _ _ _ _ _ _ _ _) as [[[m' init] e]|] eqn:EA; [|discriminate]); cbn [bind]; cbv zeta;
    destruct (last_step_of_attempt c dt sub norm _ _ _ _ Hdt Hc Hs EA) as (H' & Wi & X).
  - intros [= <-]. auto.
  - destruct (too_large e tol && Rltb (c_min_dt c) (/ 2 * dt))%bool; [|intros [= <-]; auto].
    cbn [s_model]. destruct (object_load_total D HD init m' Wi H') as (m2 & E2 & H2). unfold object_load in E2. rewrite E2. cbn [bind].
    destruct (sim_step _ _ _ _ _ _ _ _ _ _ r _ _ _ _ _ _) as [s2|] eqn:ES; [|discriminate]. cbn [bind].
    apply IH in ES; [|lra|exact Hc|exact H2]. intros [= <-]. exact ES.
Qed.

(** A call is in order: positive step, inputs the model can take at every time. *)
Definition in_order (q : driven) : Prop :=
  0 < dr_dt q /\ forall t dt, 0 < dt -> admissible D (forced (dr_method q) (dr_Hbc q) (dr_Qin q) (dr_QIk q) (dr_uo q) (dr_uw q) (dr_up q) t) dt.
Lemma drive_all_app l q s : drive_all D slv (l ++ [q]) s = bind (drive_all D slv l s) (drive D slv q).
Proof. unfold drive_all. rewrite fold_left_app. reflexivity. Qed.
Lemma drive_all_healthy l : forall (s s' : sim body saved), (forall q, In q l -> in_order q) -> healthy D (s_model s) -> drive_all D slv l s = Some s' -> healthy D (s_model s').
Proof.
  induction l as [|q l IH] using rev_ind; intros s s' Hl Hs E; [injection E as <-; auto|]. rewrite drive_all_app in E.
  destruct (drive_all D slv l s) as [s1|] eqn:E1; [|discriminate]. cbn [bind] in E.
  destruct (Hl q ltac:(apply in_or_app; right; now left)) as [Hd Ha].
  refine (proj1 (last_step_of_sim _ _ _ _ _ _ _ _ Hd _ _ E)); [exact Ha|]. apply (IH s s1); auto. intros; apply Hl, in_or_app; auto.
Qed.

(** C88: after any adaptive steps, with any retries, subdivisions and iterations, the head of a junction with a prescribed head
    is the value its table has at the time the clock shows (within the junction's limits). *)
Theorem C88_prescribed_heads_follow_the_table : forall m dt0 calls q s j v,
  constructed D m -> (forall c, In c (calls ++ [q]) -> in_order c) -> drive_all D slv (calls ++ [q]) (new_sim body saved m dt0) = Some s ->
  (j < n_M N)%nat -> n_bc N j = true ->
  interpolate_sample (m_t (s_model s)) (fo_t (dr_Hbc q)) (fo_col (dr_Hbc q) j) (dr_method q) = Some v ->
  n_zj N j <= v <= n_zj N j + n_maxj N j -> h_H (b_st (m_body (s_model s))) j = v.
Proof.
  intros m dt0 calls q s j v Hc Hl E Hj Hb Ev Hv. rewrite drive_all_app in E.
  destruct (drive_all D slv calls (new_sim body saved m dt0)) as [s1|] eqn:E1; [|discriminate]. cbn [bind] in E.
  assert (H1 : healthy D (s_model s1)).
  { apply (drive_all_healthy calls (new_sim body saved m dt0) s1); auto; [intros; apply Hl, in_or_app; auto|].
    apply (healthy_history D slv HD Hslv m []); auto. intros a []. }
  destruct (Hl q ltac:(apply in_or_app; right; now left)) as [Hd Ha].
  unfold drive in E. apply last_step_of_sim in E; [|exact Hd|exact Ha|exact H1]. destruct E as (_ & m0 & dt' & p & Hdt' & Hm0 & O). cbn [c_inputs c_num_iter c_head_tol] in O.
  set (i := forced _ _ _ _ _ _ _ (m_t m0 + dt')) in O. assert (Ai : admissible D i dt') by (apply Ha; auto).
  unfold object_step in O. destruct (C40_step_advances_clock_once _ _ _ _ _ _ _ _ _ _ _ _ _ _ _ _ O) as (T & _).
  destruct (step_last D slv HD Hslv (fun _ => True) i dt' (dr_iter q) (dr_htol q) m0 (s_model s) p Ai Hm0 I) as (mb & Bl & b1 & _ & W & Rc & F1 & F2 & _); auto.
  destruct (pass_facts D slv HD Hslv _ _ _ _ _ _ Ai W Rc F1 F2) as (bg & Vs & Ao & u & Hs & _ & _ & _ & _ & _ & _ & F). unfold controls_of in F.
  destruct F as (Hr & Hn & Sol & _ & Est & _).
  assert (EH : Hs j = i_Hbc i j).
  { refine (proj1 (proj2 (C23_boundary_row_prescribes_head _ _ _ _ _ _ _ _ _ _ _ _ j Hr Hn Hj Hb) Hs) (Sol j Hj)). }
  assert (EV : i_Hbc i j = v) by (unfold i, forced; cbn [i_Hbc]; unfold sampled; rewrite <- T, Ev; reflexivity).
  rewrite Est. unfold M_Step.solve_step. cbn [h_H]. rewrite EH, EV. destruct (limit_head_cases (n_zj N j) (n_maxj N j) v ltac:(lra)) as (A1 & A2 & A3). auto.
Qed.

(** C88: the control signals of a call reach the controls they are meant for: after it every weir, pump and orifice reports the
    flow that its law gives at the reported heads for its own signal (an orifice limited by the volume V stored upstream). *)
Theorem C88_signals_reach_their_controls : forall m dt0 calls q s,
  constructed D m -> (forall c, In c (calls ++ [q]) -> in_order c) -> drive_all D slv (calls ++ [q]) (new_sim body saved m dt0) = Some s ->
  let b := m_body (s_model s) in let H := h_H (b_st b) in
  (forall w, (w < w_n (d_we D))%nat -> let W := d_we D in
     b_Qw b w = weir_law (w_L W w) (w_s W w) (w_Cr W w) (w_Ct W w)
       (n_zj N (w_Ju W w) + w_z W w + (1 - dr_uw q w) * w_ymax W w) (H (w_Ju W w)) (H (w_Jd W w))) /\
  (forall k, (k < p_n (d_pu D))%nat -> let P := d_pu D in
     0 <= b_Qp b k /\ (dr_up q k = 0 -> b_Qp b k = 0) /\
     (n_zj N (p_Ju P k) + p_z P k < H (p_Ju P k) -> 0 < dr_up q k -> p_min P k <= H (p_Jd P k) - H (p_Ju P k) <= p_max P k ->
      p_b P k * fpow (b_Qp b k) (p_c P k) = dr_up q k * (p_a P k - (H (p_Jd P k) - H (p_Ju P k))))) /\
  (forall o, (o < o_n (d_or D))%nat -> let O := d_or D in 0 <= o_tau O o * o_ymax O o * dr_uo q o ->
     exists he A_old A V dt', 0 < dt' /\ orifice_geometry (d_ocode D o) (dr_uo q o) he (d_o1 D o) (d_o2 D o) (d_o3 D o) A_old = Some A /\
      let Q := orifice_law A (o_C O o) (n_zj N (o_Ju O o) + o_z O o) (o_tau O o * o_ymax O o * dr_uo q o)
                 (H (o_Ju O o)) (H (o_Jd O o)) (o_oneway O o) in
      (Rabs Q * dt' <= V -> b_Qo b o = Q) /\ (0 <= V < Rabs Q * dt' -> b_Qo b o = (if Rltb Q 0 then - V else V) / dt')).
Proof.
  intros m dt0 calls q s Hc Hl E b H. rewrite drive_all_app in E.
  destruct (drive_all D slv calls (new_sim body saved m dt0)) as [s1|] eqn:E1; [|discriminate]. cbn [bind] in E.
  assert (H1 : healthy D (s_model s1)).
  { apply (drive_all_healthy calls (new_sim body saved m dt0) s1); auto; [intros; apply Hl, in_or_app; auto|].
    apply (healthy_history D slv HD Hslv m []); auto. intros a []. }
  destruct (Hl q ltac:(apply in_or_app; right; now left)) as [Hd Ha].
  unfold drive in E. apply last_step_of_sim in E; [|exact Hd|exact Ha|exact H1]. destruct E as (_ & m0 & dt' & p & Hdt' & Hm0 & O). cbn [c_inputs c_num_iter c_head_tol] in O.
  set (i := forced _ _ _ _ _ _ _ (m_t m0 + dt')) in O. assert (Ai : admissible D i dt') by (apply Ha; auto).
  destruct (reported_flows_healthy D slv HD Hslv _ _ _ _ _ _ _ Hm0 Ai O) as (mb & _ & Fo & Fw & Fp). split; [|split].
  - intros w Hw. exact (Fw w Hw).
  - intros k Hk. destruct (Fp k Hk) as (P1 & _ & P3 & P4). split; [exact P1|]. split; [exact P3|exact P4].
  - intros o Ho Oo Hy. destruct (Fo o Ho) as (A_old & A & V_u & V_d & Fg & _ & _ & Fl). specialize (Fl Hy).
    eexists _, A_old, A, _, dt'. split; [exact Hdt'|]. split; [exact Fg|]. exact Fl.
Qed.
End Driven.

(** Three junctions in a row, renumbered backwards by [auto_permute]: the inflow given for the first one (a wave that peaks at
    600 s) reaches the last position, which carries its name.  And a tide that rises by 2 m in two hours: after steps of 60 s and
    45 s the outlet of the network of C58 stands at the tide's level of 105 s. *)
Definition row_J : junction_table := mkJT 3 (fun r => r) (fun r => r) (fun r => 3 - INR r) (fun _ => 1) (fun r => Nat.eqb r 2) (fun r => (7 * r)%nat).
Definition row_S : superlink_table := mkLT 2 (fun k => k) (fun k => S k) (fun _ => 0) (fun _ => 0) (fun _ => 0) (fun k => k) (fun k => S k).
Definition row_Q : frame := mkFrame [0; 600; 1800] (fun c => (7 * c)%nat) (fun j => match j with O => [1/10; 2; 1/2] | _ => [0; 1/5; 0] end).
Definition back (p : nat) : nat := (2 - p)%nat.
Definition tide : forcing := mkForcing [0; 7200] (fun _ => [1; 3]).
Definition tide_call (dt : R) : driven := mkDriven 1 tide wave (still 0) (fun _ => 1/2) (fun _ => 1/2) (fun _ => 1) 1 3 (1/1000) 0 dt 1 1 2%Z.
Example C88_example :
  (exists B, construct (Some (back, back)) row_J row_S = Some B /\
     jt_name (bt_J B) 2%nat = jt_name row_J 0%nat /\
     i_Qin (forced 1 (junction_forcing (bt_perm B) row_Q) (junction_forcing (bt_perm B) row_Q) (internal_forcing row_Q) zeros zeros zeros 300) 2%nat = 21/20) /\
  exists s, drive_all demo (gauss 3) [tide_call 60; tide_call 45] (new_sim body saved demo_object 60) = Some s /\
    m_t (s_model s) = 105 /\ h_H (b_st (m_body (s_model s))) 2%nat = 1 + 7/240 /\
    (let W := d_we demo in let H := h_H (b_st (m_body (s_model s))) in (0 < w_n W)%nat /\
     b_Qw (m_body (s_model s)) 0%nat = weir_law (w_L W 0%nat) (w_s W 0%nat) (w_Cr W 0%nat) (w_Ct W 0%nat)
       (n_zj (d_net demo) (w_Ju W 0%nat) + w_z W 0%nat + (1 - 1/2) * w_ymax W 0%nat) (H (w_Ju W 0%nat)) (H (w_Jd W 0%nat))).
Proof.
  split.
  - assert (HL : by_position row_J) by (intros r Hr; reflexivity). assert (HE : ends_listed row_J row_S) by (intros k Hk; simpl in *; lia).
    assert (HI : permutation_of (jt_n row_J) (jt_id row_J) (fun r => r)) by (constructor; auto).
    assert (HP : permutation_of (jt_n row_J) back back) by (constructor; cbn [row_J jt_n]; unfold back; intros; lia).
    destruct (C88_renumbering_goes_by_id row_J row_S _ _ _ HL HE HI HP) as (B & S1 & E & _ & _ & Ep & RJ & _). exists B. split; [exact E|].
    destruct (RJ 0%nat ltac:(simpl; lia)) as (_ & _ & _ & _ & _ & N). split; [exact N|].
    unfold forced. cbn [i_Qin]. rewrite Ep. unfold sampled, interpolate_sample, junction_forcing, back. cbn [row_Q fr_t fr_col fo_t fo_col Nat.sub searchsorted].
    destruct (Rltb_spec 0 300); [|lra]. destruct (Rltb_spec 600 300); [lra|]. simpl.
    destruct (Reqb_spec (300 - 0 + (600 - 300)) 0); [lra|]. field.
  - assert (IO : forall c, In c ([tide_call 60] ++ [tide_call 45]) -> in_order demo c).
    { intros c Hc. split; [destruct Hc as [<-|[<-|[]]]; simpl; lra|]. intros t dt Hdt. split; [auto|]. destruct Hc as [<-|[<-|[]]]; (split; simpl; intros; lra). }
    assert (T : forall dt p, 0 < dt -> In (tide_call dt) ([tide_call 60] ++ [tide_call 45]) -> healthy demo (s_model p) -> exists p', drive demo (gauss 3) (tide_call dt) p = Some p' /\ healthy demo (s_model p') /\
      m_t (s_model p') = m_t (s_model p) + dt).
    { intros dt p Hd Hin Hp. destruct (IO _ Hin) as [_ Ha]. cbn [tide_call dr_method dr_Hbc dr_Qin dr_QIk dr_uo dr_uw dr_up] in Ha.
      destruct (object_step_total demo (gauss 3) demo_sound (gauss_solver 3) _ dt 3 (1/1000) (s_model p) (Ha (m_t (s_model p) + dt) dt Hd) Hp) as ((m' & k) & E & Hr & _).
      unfold object_step in E. destruct (C40_step_advances_clock_once _ _ _ _ _ _ _ _ _ _ _ _ _ _ _ _ E) as (Tm & _).
      unfold drive. cbn [tide_call dr_method dr_Hbc dr_Qin dr_QIk dr_uo dr_uw dr_up dr_min dr_iter dr_htol dr_retries dr_dt dr_sub dr_tol dr_norm sim_step].
      unfold attempt, model_step. cbn [c_inputs c_num_iter c_head_tol]. rewrite E. cbn [bind]. cbv zeta. cbn [Nat.ltb Nat.leb]. cbn [bind].
      eexists. split; [reflexivity|]. cbn [s_model]. split; [exact Hr|exact Tm]. }
    destruct C58_example as (_ & _ & C & _).
    pose proof (healthy_history demo (gauss 3) demo_sound (gauss_solver 3) demo_object [] demo_object C ltac:(intros a []) eq_refl) as Hw.
    destruct (T 60 (new_sim body saved demo_object 60) ltac:(lra) ltac:(left; reflexivity) Hw) as (s1 & E1 & H1 & T1).
    destruct (T 45 s1 ltac:(lra) ltac:(right; left; reflexivity) H1) as (s2 & E2 & H2 & T2).
    assert (Tt : m_t (s_model s2) = 105) by (rewrite T2, T1; simpl; lra).
    assert (E : drive_all demo (gauss 3) ([tide_call 60] ++ [tide_call 45]) (new_sim body saved demo_object 60) = Some s2).
    { unfold drive_all. cbn [app fold_left bind]. rewrite E1. cbn [bind]. exact E2. }
    exists s2. split; [exact E|]. split; [exact Tt|].
    split; [|split; [simpl; lia|]; apply (C88_signals_reach_their_controls demo (gauss 3) demo_sound (gauss_solver 3) demo_object 60 [tide_call 60] (tide_call 45) s2 C IO E); simpl; lia].
    apply (C88_prescribed_heads_follow_the_table demo (gauss 3) demo_sound (gauss_solver 3) demo_object 60 [tide_call 60] (tide_call 45) s2 2%nat); auto; try (simpl; lia); try (simpl; lra).
    rewrite Tt. unfold interpolate_sample. cbn [tide_call tide dr_Hbc fo_t fo_col dr_method searchsorted].
    destruct (Rltb_spec 0 105); [|lra]. destruct (Rltb_spec 7200 105); [lra|]. simpl.
    destruct (Reqb_spec (105 - 0 + (7200 - 105)) 0); [lra|]. f_equal. field.
Qed.

(** A superlink drawn uphill in a table whose rows are then reversed: in the model it starts at the upper junction. *)
Definition uphill_S : superlink_table := mkLT 1 (fun _ => 2%nat) (fun _ => 0%nat) (fun _ => 1/4) (fun _ => 1/4) (fun _ => 0) (fun _ => 2%nat) (fun _ => 0%nat).
Example C87_constructed_example : exists B, construct (Some (back, back)) row_J uphill_S = Some B /\
  jt_name (bt_J B) (lt_0 (bt_S B) 0%nat) = jt_name row_J 0%nat /\ end_inverts (bt_J B) (bt_S B) 0%nat = Some (13/4, 5/4).
Proof.
  assert (HL : by_position row_J) by (intros r Hr; reflexivity). assert (HE : ends_listed row_J uphill_S) by (intros k Hk; simpl in *; lia).
  assert (HI : permutation_of (jt_n row_J) (jt_id row_J) (fun r => r)) by (constructor; auto).
  assert (HP : permutation_of (jt_n row_J) back back) by (constructor; cbn [row_J jt_n]; unfold back; intros; lia).
  destruct (C88_renumbering_goes_by_id row_J uphill_S _ _ _ HL HE HI HP) as (B & _ & E & _). exists B. split; [exact E|].
  destruct (C87_constructed_superlinks_keep_their_ends (Some (back, back)) row_J uphill_S B 0%nat HL HE ltac:(auto) HP E ltac:(simpl; lia) ltac:(right; reflexivity))
    as (zu & zd & Ez & _ & _ & R).
  assert (X : rises row_J uphill_S 0%nat) by (unfold rises; simpl; lra). destruct (R X) as (N & U & _ & D). rewrite Ez, U, D. split; [exact (f_equal (fun x => fst (fst x)) N)|].
  f_equal. apply f_equal2; simpl; lra.
Qed.
