(** C67: the hydraulic class used without numba ([SuperLink]) and the compiled one ([nSuperLink]). *)
From Verif Require Import Prelude M_Coeffs M_Recurrence M_Layout M_SuperLinkPy S_Superlink L_Forward L_Backward L_Boundary.
From Coq Require Import List.
Import ListNotations.

(** ** A step *)

Lemma calls_raised {S} sg (body : method -> S -> outcome S) cs s :
  fold_left (fun o c => and_then o (call sg body c)) cs (Raised s) = Raised s.
Proof. induction cs; auto. Qed.

Lemma calls_app {S} sg (body : method -> S -> outcome S) cs ds s :
  calls sg body (cs ++ ds) s = and_then (calls sg body cs s) (calls sg body ds).
Proof.
  unfold calls. rewrite fold_left_app. destruct (fold_left _ cs (Done s)) as [s'|s']; simpl; auto.
  apply calls_raised.
Qed.

Definition left_state {S} (o : outcome S) : S := match o with Done s => s | Raised s => s end.

(** Observations no called method changes survive a sequence of calls. *)
Lemma calls_keep {S X} (obs : S -> X) sg (body : method -> S -> outcome S) cs s :
  (forall m s, In m (map fst cs) -> obs (left_state (body m s)) = obs s) ->
  obs (left_state (calls sg body cs s)) = obs s.
Proof.
  revert s. induction cs as [|c cs IH]; intros s H; auto.
  change (c :: cs) with ([c] ++ cs). rewrite calls_app.
  assert (E : obs (left_state (calls sg body [c] s)) = obs s).
  { unfold calls; simpl. unfold call. destruct (forallb _ _); auto. apply H. simpl. auto. }
  destruct (calls sg body [c] s) as [s'|s']; simpl in *; auto. rewrite IH; auto.
Qed.

(** Methods called before the superlink ends. *)
Definition before_ends (orifices damping : bool) : list (method * list keyword) :=
  [(link_hydraulic_geometry, []); (upstream_hydraulic_geometry, []); (downstream_hydraulic_geometry, []);
   (compute_storage_areas, []); (compute_storage_volumes, []); (node_velocities, [])] ++
  (if orifices then [(orifice_hydraulic_geometry, [k_u])] else []) ++
  (if damping then [(compute_flow_regime, [])] else []) ++
  [(link_coeffs_, [k_dt; k_first_iter]); (node_coeffs, [k_Q_0Ik; k_dt; k_first_iter]);
   (forward_recurrence, []); (backward_recurrence, [])].

Lemma setup_calls_split orifices weirs pumps damping : exists rest,
  setup_calls false orifices weirs pumps damping =
  before_ends orifices damping ++ (superlink_upstream_head_coefficients, [k_dt]) :: rest.
Proof. destruct orifices, damping; eexists; reflexivity. Qed.

(** Methods that run before the failing call. *)
Definition early : list method :=
  [save_state; link_hydraulic_geometry; upstream_hydraulic_geometry; downstream_hydraulic_geometry;
   compute_storage_areas; compute_storage_volumes; node_velocities; orifice_hydraulic_geometry;
   compute_flow_regime; link_coeffs_; node_coeffs; forward_recurrence; backward_recurrence].

Lemma before_ends_early orifices damping m : In m (map fst (before_ends orifices damping)) -> In m early.
Proof. destruct orifices, damping; simpl; intuition. Qed.

(** Without numba every call of [step] raises, whatever the object, the inputs and the options: the call that computes
    the upstream ends passes a keyword its signature lacks.  No later stage runs: what the earlier methods leave alone
    - heads, flows, clock - is as before. *)
Theorem C67_every_step_raises_without_numba_refuted :
  forall (S X : Type) (obs : S -> X) (body : method -> S -> outcome S) implicit orifices weirs pumps damping
         (store undo : S -> S) (solve : S -> outcome S) settled num_iter s,
  exists s',
    step_calls python_signature body implicit orifices weirs pumps damping store undo solve settled num_iter s = Raised s' /\
    ((forall m s, In m early -> obs (left_state (body m s)) = obs s) -> (forall s, obs (store s) = obs s) ->
     obs s' = obs s).
Proof.
  intros. unfold step_calls.
  assert (G : exists s', setup_step_calls python_signature body true implicit orifices weirs pumps damping store s = Raised s' /\
     ((forall m s, In m early -> obs (left_state (body m s)) = obs s) -> (forall s, obs (store s) = obs s) ->
      obs s' = obs s)).
  { unfold setup_step_calls.
    pose proof (calls_keep obs python_signature body [(save_state, [])] s) as K0.
    destruct (calls python_signature body [(save_state, [])] s) as [s1|s1]; cbn [and_then left_state] in *.
    2:{ exists s1. split; auto. intros H _. apply K0. intros m s0 [<-|[]]. apply H. simpl; auto. }
    destruct implicit.
    2:{ exists (store s1). split; auto. intros H H'. rewrite H'. apply K0. intros m s0 [<-|[]]. apply H. simpl; auto. }
    destruct (setup_calls_split orifices weirs pumps damping) as [rest ->]. rewrite calls_app.
    pose proof (calls_keep obs python_signature body (before_ends orifices damping) (store s1)) as K1.
    destruct (calls python_signature body (before_ends orifices damping) (store s1)) as [s2|s2]; cbn [and_then left_state] in *.
    2:{ exists s2. split; auto. intros H H'. rewrite K1, H'.
        - apply K0. intros m s0 [<-|[]]. apply H. simpl; auto.
        - intros m s0 Hm. apply H. eapply before_ends_early; eauto. }
    exists s2. split.
    - unfold calls. cbn [fold_left and_then]. unfold call at 2. cbn. apply calls_raised.
    - intros H H'. rewrite K1, H'.
      + apply K0. intros m s0 [<-|[]]. apply H. simpl; auto.
      + intros m s0 Hm. apply H. eapply before_ends_early; eauto. }
  destruct G as (s' & -> & K). exists s'. split; auto.
Qed.

Lemma calls_done {S} sg (body : method -> S -> outcome S) cs s :
  (forall m s, exists s', body m s = Done s') ->
  forallb (fun c => forallb (fun k => existsb (keyword_eqb k) (sg (fst c))) (snd c)) cs = true ->
  exists s', calls sg body cs s = Done s'.
Proof.
  intros HB. revert s. induction cs as [|c cs IH]; intros s H; [eexists; reflexivity|].
  simpl in H. apply andb_prop in H as [H1 H2].
  change (c :: cs) with ([c] ++ cs). rewrite calls_app. unfold calls at 1; simpl. unfold call. rewrite H1.
  destruct (HB (fst c) s) as [s' ->]. simpl. auto.
Qed.

(** With numba every keyword is accepted: a step raises only if a stage does. *)
Theorem C67_steps_run_with_numba :
  forall (S : Type) (body : method -> S -> outcome S) orifices weirs pumps damping
         (store undo : S -> S) (solve : S -> outcome S) settled num_iter s,
  (forall m s, exists s', body m s = Done s') -> (forall s, exists s', solve s = Done s') ->
  exists s', step_calls numba_signature body true orifices weirs pumps damping store undo solve settled num_iter s = Done s'.
Proof.
  intros S body orifices weirs pumps damping store undo solve settled num_iter s HB HS. unfold step_calls.
  assert (PS : forall first s, exists s',
    and_then (setup_step_calls numba_signature body first true orifices weirs pumps damping store s) solve = Done s').
  { intros first s0. unfold setup_step_calls.
    destruct (calls_done numba_signature body (if first then [(save_state, [])] else []) s0 HB) as [s1 ->].
    { destruct first; reflexivity. }
    cbn [and_then].
    destruct (calls_done numba_signature body (setup_calls false orifices weirs pumps damping) (store s1) HB) as [s2 ->].
    { destruct orifices, weirs, pumps, damping; reflexivity. }
    cbn [and_then]. apply HS. }
  destruct (PS true s) as [s1 ->]. cbn [and_then]. destruct (settled s s1); [eauto|].
  generalize (num_iter - 1)%nat as n. intros n. revert s1. induction n as [|n IH]; intros s1; [eauto|].
  destruct (PS false (undo s1)) as [s2 ->]. cbn [and_then]. destruct (settled s1 s2); [eauto|]. apply IH.
Qed.

(** ** The sweeps *)

Lemma scatter_at_cases ix key val a x :
  (exists I, In I ix /\ key I = x /\ scatter_at ix key val a x = val I) \/
  ((forall I, In I ix -> key I <> x) /\ scatter_at ix key val a x = a x).
Proof.
  unfold scatter_at. revert a. induction ix as [|I ix IH]; intros a; simpl.
  - right. split; [intros ? []|reflexivity].
  - destruct (IH (upd a (key I) (val I))) as [(I' & H1 & H2 & H3)|[H1 H2]].
    + left. exists I'. auto.
    + destruct (Nat.eq_dec (key I) x) as [Ex|N].
      * left. exists I. split; auto. split; auto. rewrite H2. subst x. apply upd_eq.
      * right. split; [intros I' [<-|H']; auto|]. rewrite H2. apply upd_neq; auto.
Qed.

Lemma scatter_opt_cases ix key val (fv : nat -> R) a :
  (forall I, In I ix -> val I = Some (fv I)) ->
  scatter_opt ix key val a = Some (scatter_at ix key fv a).
Proof.
  unfold scatter_opt, scatter_at. revert a. induction ix as [|I ix IH]; intros a H; simpl; auto.
  rewrite H by (left; auto). simpl. apply IH. intros; apply H; right; auto.
Qed.

(** Numbering of links and junctions, as the constructor lays it out (C38). *)
Record numbered (NK : nat) (T : tables) : Prop := mkNumbered {
  nb_layout : layout NK (t_nk T) (t_i_1k T) (t_I_1k T);
  nb_ends : forall k, (k < NK)%nat -> t_I_Np1k T k = (t_I_1k T k + t_nk T k)%nat /\
     t_I_Nk T k = (t_I_1k T k + t_nk T k - 1)%nat /\ t_i_nk T k = (t_i_1k T k + t_nk T k - 1)%nat;
  nb_marks : forall k j, (k < NK)%nat -> (j <= t_nk T k)%nat ->
     t_is_start T (t_I_1k T k + j)%nat = Nat.eqb j 0 /\ t_is_end T (t_I_1k T k + j)%nat = Nat.eqb j (t_nk T k);
  nb_next : forall k j, (k < NK)%nat -> (j < t_nk T k)%nat ->
     t_forward_I_I T (t_I_1k T k + j)%nat = (t_I_1k T k + j + 1)%nat /\
     t_backward_I_I T (t_I_1k T k + j + 1)%nat = (t_I_1k T k + j)%nat /\
     t_forward_I_i T (t_I_1k T k + j)%nat = (t_i_1k T k + j)%nat }.

Section Sweeps.
  Variables (NK : nat) (T : tables).
  Hypothesis HT : numbered NK T.
  Variables a b c P A E D : arr.
  Notation nk := (t_nk T).
  Notation i1 := (t_i_1k T).
  Notation I1 := (t_I_1k T).

  Lemma own_link k k' j j' : (k < NK)%nat -> (k' < NK)%nat -> (j < nk k)%nat -> (j' < nk k')%nat ->
    (i1 k + j = i1 k' + j')%nat -> k = k' /\ j = j'.
  Proof.
    intros Hk Hk' Hj Hj' Ee. destruct (nb_layout _ _ HT) as [_ HL].
    destruct (Nat.lt_trichotomy k k') as [L|[->|L]]; [|split; lia|]; specialize (HL _ _ L); lia.
  Qed.
  Lemma own_junction k k' j j' : (k < NK)%nat -> (k' < NK)%nat -> (j <= nk k)%nat -> (j' <= nk k')%nat ->
    (I1 k + j = I1 k' + j')%nat -> k = k' /\ j = j'.
  Proof.
    intros Hk Hk' Hj Hj' Ee. destruct (nb_layout _ _ HT) as [_ HL].
    destruct (Nat.lt_trichotomy k k') as [L|[->|L]]; [|split; lia|]; specialize (HL _ _ L); lia.
  Qed.
  Lemma nk_pos' k : (k < NK)%nat -> (1 <= nk k)%nat.
  Proof. intros Hk. destruct (nb_layout _ _ HT) as [HL _]. auto. Qed.

  (** *** Forward *)
  Variable f : fwd.
  Hypothesis HF : forall k, (k < NK)%nat -> fwd_eqs a b c P A E D (i1 k) (I1 k) (nk k) f.

  (** Agreement of the coefficients of the first [m] links of every superlink. *)
  Definition agree_f (m : nat) (s : fwd) : Prop := forall k j, (k < NK)%nat -> (j < nk k)%nat -> (j < m)%nat ->
    fT s (i1 k + j)%nat = fT f (i1 k + j)%nat /\ fU s (I1 k + j)%nat = fU f (I1 k + j)%nat /\
    fV s (I1 k + j)%nat = fV f (I1 k + j)%nat /\ fW s (I1 k + j)%nat = fW f (I1 k + j)%nat.

  (** Writing correct values at any junctions of the network cannot spoil agreement. *)
  Lemma scatter_agrees ix key val (s ref : arr) x :
    (forall I, In I ix -> key I = x -> val I = ref x) -> ((exists I, In I ix /\ key I = x) \/ s x = ref x) ->
    scatter_at ix key val s x = ref x.
  Proof.
    intros H1 H2. destruct (scatter_at_cases ix key val s x) as [(I & Hin & Hk & ->)|[N ->]]; auto.
    destruct H2 as [(I & Hin & Hk)|]; auto. exfalso. eapply N; eauto.
  Qed.

  Lemma py_forward_first_agrees m s : (1 <= m)%nat -> agree_f m s \/ m = 1%nat ->
    agree_f m (py_forward_first a b c P A E D T NK false s).
  Proof.
    intros Hm Hs k j Hk Hj Hjm.
    assert (Hin : forall k, (k < NK)%nat -> In k (seq 0 NK)) by (intros; apply in_seq; lia).
    assert (VT : forall k, (k < NK)%nat -> T_1k (a (i1 k)) (b (i1 k)) (c (i1 k)) = fT f (i1 k))
      by (intros; rewrite (fe_T0 _ _ _ _ _ _ _ _ _ _ _ (HF k0 ltac:(auto))); reflexivity).
    assert (N2 : forall k, (k < NK)%nat -> t_forward_I_I T (I1 k) = (I1 k + 1)%nat).
    { intros k0 Hk0. pose proof (nk_pos' k0 Hk0). destruct (nb_next _ _ HT k0 0%nat Hk0 ltac:(lia)) as [X _].
      rewrite !Nat.add_0_r in X. exact X. }
    assert (OL : forall k0, In k0 (seq 0 NK) -> i1 k0 = (i1 k + j)%nat -> k0 = k /\ j = 0%nat).
    { intros k0 H0 E0. apply in_seq in H0. pose proof (nk_pos' k0 ltac:(lia)).
      destruct (own_link k0 k 0 j) as [X Y]; auto; lia. }
    assert (OJ : forall k0, In k0 (seq 0 NK) -> I1 k0 = (I1 k + j)%nat -> k0 = k /\ j = 0%nat).
    { intros k0 H0 E0. apply in_seq in H0. destruct (own_junction k0 k 0 j) as [X Y]; auto; lia. }
    assert (SOLD : j = 0%nat \/ (fT s (i1 k + j)%nat = fT f (i1 k + j)%nat /\ fU s (I1 k + j)%nat = fU f (I1 k + j)%nat /\
       fV s (I1 k + j)%nat = fV f (I1 k + j)%nat /\ fW s (I1 k + j)%nat = fW f (I1 k + j)%nat)).
    { destruct Hs as [Hs| ->]; [right; apply Hs; auto|left; lia]. }
    unfold py_forward_first. cbn [fT fU fV fW].
    pose proof (HF k Hk) as Fk.
    repeat split; apply scatter_agrees.
    - intros k0 H0 E0. destruct (OL _ H0 E0) as [-> ->]. rewrite Nat.add_0_r. auto.
    - destruct SOLD as [->|S0]; [left; exists k; rewrite Nat.add_0_r; auto|right; apply S0].
    - intros k0 H0 E0. destruct (OJ _ H0 E0) as [-> ->]. rewrite Nat.add_0_r, N2, VT by auto.
      rewrite (fe_U0 _ _ _ _ _ _ _ _ _ _ _ Fk). reflexivity.
    - destruct SOLD as [->|S0]; [left; exists k; rewrite Nat.add_0_r; auto|right; apply S0].
    - intros k0 H0 E0. destruct (OJ _ H0 E0) as [-> ->]. rewrite Nat.add_0_r, N2, VT by auto.
      rewrite (fe_V0 _ _ _ _ _ _ _ _ _ _ _ Fk). reflexivity.
    - destruct SOLD as [->|S0]; [left; exists k; rewrite Nat.add_0_r; auto|right; apply S0].
    - intros k0 H0 E0. destruct (OJ _ H0 E0) as [-> ->]. rewrite Nat.add_0_r, VT by auto.
      rewrite (fe_W0 _ _ _ _ _ _ _ _ _ _ _ Fk). reflexivity.
    - destruct SOLD as [->|S0]; [left; exists k; rewrite Nat.add_0_r; auto|right; apply S0].
  Qed.

  (** The frontier of a round: the junctions at position [m] of the superlinks with more than [m] links. *)
  Definition frontier (m : nat) (ix : list nat) : Prop :=
    forall I, In I ix <-> exists k, (k < NK)%nat /\ (m < nk k)%nat /\ I = (I1 k + m)%nat.

  Lemma py_T_ik_eq P0 a0 b0 c0 D0 D1 A0 E0 V0 U0 T0 v :
    Some v = V_Ik P0 a0 D0 D1 c0 A0 E0 V0 U0 T0 -> py_T_ik a0 b0 c0 A0 E0 U0 = T_ik a0 b0 c0 A0 E0 U0.
  Proof.
    unfold V_Ik, div, py_T_ik, T_ik, safe_divide. destruct (Reqb (U0 - E0) 0); [discriminate|reflexivity].
  Qed.

  Lemma py_forward_round_agrees m ix s : (1 <= m)%nat -> frontier m ix -> agree_f m s ->
    exists s', py_forward_round a b c P A E D T ix s = Some s' /\ agree_f (m + 1) s'.
  Proof.
    intros Hm Hix Hs. unfold py_forward_round. cbv zeta.
    set (T' := scatter_at ix (t_forward_I_i T) _ (fT s)).
    set (U' := scatter_at ix (fun I => I) _ (fU s)).
    (* tables at the frontier *)
    assert (TB : forall I, In I ix -> exists k j, (k < NK)%nat /\ (S j < nk k)%nat /\ m = S j /\ I = (I1 k + S j)%nat /\
       t_forward_I_i T I = (i1 k + S j)%nat /\ t_backward_I_I T I = (I1 k + j)%nat /\ t_forward_I_I T I = (I1 k + S (S j))%nat).
    { intros I HI. apply Hix in HI as (k & Hk & Hmk & ->). exists k, (m - 1)%nat.
      destruct (nb_next _ _ HT k m Hk Hmk) as (Q1 & _ & Q3).
      destruct (nb_next _ _ HT k (m - 1)%nat Hk ltac:(lia)) as (_ & Q2 & _).
      replace (I1 k + (m - 1) + 1)%nat with (I1 k + m)%nat in Q2 by lia.
      replace (S (m - 1)) with m by lia. repeat split; auto; lia. }
    assert (KI : forall I k j, In I ix -> (k < NK)%nat -> (j < nk k)%nat -> t_forward_I_i T I = (i1 k + j)%nat -> j = m /\ I = (I1 k + m)%nat).
    { intros I k j HI Hk Hj Ee. destruct (TB I HI) as (k' & j' & Hk' & Hj' & Em & EI & Ei & _). rewrite Ei in Ee.
      destruct (own_link k' k (S j') j) as [X Y]; auto. subst. auto. }
    assert (JI : forall I k j, In I ix -> (k < NK)%nat -> (j < nk k)%nat -> I = (I1 k + j)%nat -> j = m).
    { intros I k j HI Hk Hj Ee. destruct (TB I HI) as (k' & j' & Hk' & Hj' & Em & EI & _). rewrite EI in Ee.
      destruct (own_junction k' k (S j') j) as [X Y]; auto; lia. }
    assert (OLD : forall k j, (k < NK)%nat -> (j < nk k)%nat -> (j < m + 1)%nat -> (j < m)%nat \/ In (I1 k + m)%nat ix /\ j = m).
    { intros k j Hk Hj Hjm. destruct (Nat.eq_dec j m); [right|left; lia]. split; auto. apply Hix. exists k. repeat split; auto; lia. }
    assert (AT : forall k j, (k < NK)%nat -> (j < nk k)%nat -> (j < m + 1)%nat -> T' (i1 k + j)%nat = fT f (i1 k + j)%nat).
    { intros k j Hk Hj Hjm. unfold T'. apply scatter_agrees.
      - intros I HI Ek. destruct (KI _ _ _ HI Hk Hj Ek) as [-> EI].
        destruct (TB I HI) as (k' & j' & Hk' & Hj' & Em & EI' & Ei & Eb & Ef).
        assert (k' = k) as ->. { destruct (own_junction k' k (S j') m) as [X _]; auto; lia. }
        rewrite Ei, Eb. destruct (Hs k j' Hk ltac:(lia) ltac:(lia)) as (_ & SU & _). rewrite SU, EI'.
        pose proof (fe_V _ _ _ _ _ _ _ _ _ _ _ (HF k Hk) j' Hj') as EV.
        rewrite (py_T_ik_eq _ _ _ _ _ _ _ _ _ _ _ _ EV), Em. symmetry. apply (fe_T _ _ _ _ _ _ _ _ _ _ _ (HF k Hk)). auto.
      - destruct (OLD k j Hk Hj Hjm) as [L|[Hin ->]]; [right; apply Hs; auto|left].
        exists (I1 k + m)%nat. split; auto. apply (nb_next _ _ HT); auto. }
    assert (AU : forall k j, (k < NK)%nat -> (j < nk k)%nat -> (j < m + 1)%nat -> U' (I1 k + j)%nat = fU f (I1 k + j)%nat).
    { intros k j Hk Hj Hjm. unfold U'. apply scatter_agrees.
      - intros I HI Ek. cbv beta in Ek. pose proof (JI _ _ _ HI Hk Hj Ek) as ->.
        destruct (TB I HI) as (k' & j' & Hk' & Hj' & Em & EI' & Ei & Eb & Ef).
        assert (k' = k) as ->. { destruct (own_junction k' k (S j') m) as [X _]; auto; lia. }
        rewrite Ei, Ef, AT by lia. rewrite Em. symmetry. apply (fe_U _ _ _ _ _ _ _ _ _ _ _ (HF k Hk)). auto.
      - destruct (OLD k j Hk Hj Hjm) as [L|[Hin ->]]; [right; apply Hs; auto|left]. exists (I1 k + m)%nat. auto. }
    (* V: the values exist *)
    rewrite (scatter_opt_cases ix _ _ (fV f)).
    2:{ intros I HI. destruct (TB I HI) as (k & j & Hk & Hj & Em & EI & Ei & Eb & Ef). rewrite Ei, Eb, Ef, EI.
        destruct (Hs k j Hk ltac:(lia) ltac:(lia)) as (_ & _ & SV & _). rewrite SV, AU, AT by lia.
        symmetry. apply (fe_V _ _ _ _ _ _ _ _ _ _ _ (HF k Hk)). auto. }
    cbn [bind]. eexists. split; [reflexivity|]. intros k j Hk Hj Hjm. cbn [fT fU fV fW].
    split; [apply AT; auto|]. split; [apply AU; auto|]. split; apply scatter_agrees.
    - intros I HI Ek. cbv beta in Ek. rewrite Ek. auto.
    - destruct (OLD k j Hk Hj Hjm) as [L|[Hin ->]]; [right; apply Hs; auto|left]. exists (I1 k + m)%nat. auto.
    - intros I HI Ek. cbv beta in Ek. pose proof (JI _ _ _ HI Hk Hj Ek) as ->.
      destruct (TB I HI) as (k' & j' & Hk' & Hj' & Em & EI' & Ei & Eb & Ef).
      assert (k' = k) as ->. { destruct (own_junction k' k (S j') m) as [X _]; auto; lia. }
      destruct (Hs k j' Hk ltac:(lia) ltac:(lia)) as (_ & _ & _ & SW).
      rewrite Ei, Eb, SW, AU, AT, EI', Em by lia. symmetry. apply (fe_W _ _ _ _ _ _ _ _ _ _ _ (HF k Hk)). auto.
    - destruct (OLD k j Hk Hj Hjm) as [L|[Hin ->]]; [right; apply Hs; auto|left]. exists (I1 k + m)%nat. auto.
  Qed.

  Lemma frontier_next m ix : (1 <= m)%nat -> frontier m ix ->
    frontier (m + 1) (filter (fun I => negb (t_is_end T I)) (map (t_forward_I_I T) ix)).
  Proof.
    intros Hm Hix I. rewrite filter_In, in_map_iff. split.
    - intros [(I' & <- & HI') Hn]. apply Hix in HI' as (k & Hk & Hmk & ->).
      destruct (nb_next _ _ HT k m Hk Hmk) as (Q1 & _). rewrite Q1 in Hn |- *.
      replace (I1 k + m + 1)%nat with (I1 k + (m + 1))%nat in * by lia.
      destruct (nb_marks _ _ HT k (m + 1)%nat Hk ltac:(lia)) as [_ Q2]. rewrite Q2 in Hn.
      destruct (Nat.eqb_spec (m + 1) (nk k)); [discriminate|]. exists k. repeat split; auto; lia.
    - intros (k & Hk & Hmk & ->). split.
      + exists (I1 k + m)%nat. destruct (nb_next _ _ HT k m Hk ltac:(lia)) as (Q1 & _). rewrite Q1. split; [lia|].
        apply Hix. exists k. repeat split; auto; lia.
      + destruct (nb_marks _ _ HT k (m + 1)%nat Hk ltac:(lia)) as [_ Q2]. rewrite Q2.
        destruct (Nat.eqb_spec (m + 1) (nk k)); auto; lia.
  Qed.

  Lemma frontier_empty m ix : frontier m ix -> (forall k, (k < NK)%nat -> (nk k <= m)%nat) -> ix = [].
  Proof.
    intros Hix Hn. destruct ix as [|I ix]; auto. exfalso.
    destruct (proj1 (Hix I) (or_introl eq_refl)) as (k & Hk & Hmk & _). specialize (Hn k Hk). lia.
  Qed.

  Lemma agree_f_all m s : agree_f m s -> (forall k, (k < NK)%nat -> (nk k <= m)%nat) -> forall M, agree_f M s.
  Proof. intros Hs Hn M k j Hk Hj _. apply Hs; auto. specialize (Hn k Hk). lia. Qed.

  Lemma frontier_nil m : frontier m [] -> forall k, (k < NK)%nat -> (nk k <= m)%nat.
  Proof.
    intros Hix k Hk. destruct (Nat.le_gt_cases (nk k) m) as [L|L]; auto. exfalso.
    apply (proj2 (Hix (I1 k + m)%nat)). exists k. auto.
  Qed.

  Lemma py_forward_loop_agrees fuel : forall m ix s, (1 <= m)%nat -> frontier m ix -> agree_f m s ->
    (forall k, (k < NK)%nat -> (nk k <= m + fuel)%nat) ->
    exists s', py_forward_loop a b c P A E D T (S fuel) ix s = Some s' /\ forall M, agree_f M s'.
  Proof.
    induction fuel as [|fuel IH]; intros m ix s Hm Hix Hs Hf.
    - rewrite (frontier_empty m ix Hix) by (intros k Hk; specialize (Hf k Hk); lia). exists s. split; auto.
      apply (agree_f_all m); auto. intros k Hk; specialize (Hf k Hk); lia.
    - destruct ix as [|I0 ix0].
      + exists s. split; auto. apply (agree_f_all m); auto. apply frontier_nil; auto.
      + change (exists s', (do s1 <- py_forward_round a b c P A E D T (I0 :: ix0) s;
          py_forward_loop a b c P A E D T (S fuel)
            (filter (fun I => negb (t_is_end T I)) (map (t_forward_I_I T) (I0 :: ix0))) s1) = Some s' /\
          forall M, agree_f M s').
        destruct (py_forward_round_agrees m (I0 :: ix0) s Hm Hix Hs) as (s1 & -> & H1). cbn [bind].
        apply (IH (m + 1)%nat); auto; try lia.
        * apply frontier_next; auto.
        * intros k Hk; specialize (Hf k Hk); lia.
  Qed.

  Lemma first_frontier :
    frontier 1 (filter (fun I => negb (t_is_end T I)) (map (fun k => t_forward_I_I T (I1 k)) (seq 0 NK))).
  Proof.
    assert (N2 : forall k, (k < NK)%nat -> t_forward_I_I T (I1 k) = (I1 k + 1)%nat).
    { intros k0 Hk0. pose proof (nk_pos' k0 Hk0). destruct (nb_next _ _ HT k0 0%nat Hk0 ltac:(lia)) as [X _].
      rewrite !Nat.add_0_r in X. exact X. }
    intros I. rewrite filter_In, in_map_iff. split.
    - intros [(k & <- & Hk) Hn]. apply in_seq in Hk. assert (Hk' : (k < NK)%nat) by lia. clear Hk.
      rewrite N2 in Hn |- * by auto. pose proof (nk_pos' k Hk').
      destruct (nb_marks _ _ HT k 1%nat Hk' ltac:(lia)) as [_ Q2]. rewrite Q2 in Hn.
      destruct (Nat.eqb_spec 1 (nk k)); [discriminate|]. exists k. repeat split; auto; lia.
    - intros (k & Hk & Hmk & ->). split.
      + exists k. rewrite N2 by auto. split; auto. apply in_seq; lia.
      + destruct (nb_marks _ _ HT k 1%nat Hk ltac:(lia)) as [_ Q2]. rewrite Q2.
        destruct (Nat.eqb_spec 1 (nk k)); auto; lia.
  Qed.

  Lemma py_forward_agrees fuel s : (forall k, (k < NK)%nat -> (nk k <= fuel)%nat) -> (1 <= fuel)%nat ->
    exists s', py_forward_recurrence a b c P A E D T NK false fuel s = Some s' /\ forall M, agree_f M s'.
  Proof.
    intros Hf H1. destruct fuel as [|fuel]; [lia|]. unfold py_forward_recurrence. cbv zeta.
    destruct (py_forward_loop_agrees fuel 1 _ (py_forward_first a b c P A E D T NK false s) (le_n 1) first_frontier)
      as (s1 & -> & A1).
    { apply py_forward_first_agrees; auto. }
    { intros k Hk. specialize (Hf k Hk). lia. }
    cbn [bind]. eexists. split; [reflexivity|]. intros M. destruct M as [|M]; [intros ? ? ? ? ?; lia|].
    apply py_forward_first_agrees; [lia|]. left. apply A1.
  Qed.

  (** *** Backward *)
  Variable w : bwd.
  Hypothesis HB : forall k, (k < NK)%nat -> bwd_eqs a b c P A E D (i1 k) (I1 k) (nk k) w.

  (** Agreement of the coefficients of the last [m] links of every superlink. *)
  Definition agree_b (m : nat) (s : bwd) : Prop := forall k j, (k < NK)%nat -> (j < nk k)%nat -> (nk k <= j + m)%nat ->
    bO s (i1 k + j)%nat = bO w (i1 k + j)%nat /\ bX s (I1 k + j)%nat = bX w (I1 k + j)%nat /\
    bY s (I1 k + j)%nat = bY w (I1 k + j)%nat /\ bZ s (I1 k + j)%nat = bZ w (I1 k + j)%nat.

  Lemma py_backward_first_agrees m s : (1 <= m)%nat -> agree_b m s \/ m = 1%nat ->
    agree_b m (py_backward_first a b c P A E D T NK false s).
  Proof.
    intros Hm Hs k j Hk Hj Hjm.
    assert (EN : forall k, (k < NK)%nat -> t_i_nk T k = (i1 k + nk k - 1)%nat /\ t_I_Nk T k = (I1 k + nk k - 1)%nat /\ t_I_Np1k T k = (I1 k + nk k)%nat)
      by (intros k0 Hk0; destruct (nb_ends _ _ HT k0 Hk0) as (X & Y & Z); auto).
    assert (VO : forall k, (k < NK)%nat -> O_nk (a (i1 k + nk k - 1)%nat) (b (i1 k + nk k - 1)%nat) (c (i1 k + nk k - 1)%nat) = bO w (i1 k + nk k - 1)%nat)
      by (intros k0 Hk0; rewrite (be_O0 _ _ _ _ _ _ _ _ _ _ _ _ (HB k0 Hk0)); reflexivity).
    assert (OL : forall k0, In k0 (seq 0 NK) -> t_i_nk T k0 = (i1 k + j)%nat -> k0 = k /\ j = (nk k - 1)%nat).
    { intros k0 H0 E0. apply in_seq in H0. pose proof (nk_pos' k0 ltac:(lia)). destruct (EN k0 ltac:(lia)) as (X & _).
      rewrite X in E0. destruct (own_link k0 k (nk k0 - 1)%nat j) as [Y Z]; auto; try lia. subst. auto. }
    assert (OJ : forall k0, In k0 (seq 0 NK) -> t_I_Nk T k0 = (I1 k + j)%nat -> k0 = k /\ j = (nk k - 1)%nat).
    { intros k0 H0 E0. apply in_seq in H0. pose proof (nk_pos' k0 ltac:(lia)). destruct (EN k0 ltac:(lia)) as (_ & X & _).
      rewrite X in E0. destruct (own_junction k0 k (nk k0 - 1)%nat j) as [Y Z]; auto; try lia. subst. auto. }
    assert (SOLD : j = (nk k - 1)%nat \/ (bO s (i1 k + j)%nat = bO w (i1 k + j)%nat /\ bX s (I1 k + j)%nat = bX w (I1 k + j)%nat /\
       bY s (I1 k + j)%nat = bY w (I1 k + j)%nat /\ bZ s (I1 k + j)%nat = bZ w (I1 k + j)%nat)).
    { destruct Hs as [Hs| ->]; [right; apply Hs; auto|left; lia]. }
    destruct (EN k Hk) as (E1 & E2 & E3). pose proof (nk_pos' k Hk) as Hn.
    assert (Hin : In k (seq 0 NK)) by (apply in_seq; lia).
    unfold py_backward_first. cbn [bO bX bY bZ]. pose proof (HB k Hk) as Bk.
    repeat split; apply scatter_agrees.
    - intros k0 H0 E0. destruct (OL _ H0 E0) as [-> ->]. rewrite E1. replace (i1 k + (nk k - 1))%nat with (i1 k + nk k - 1)%nat by lia. auto.
    - destruct SOLD as [->|S0]; [left; exists k; rewrite E1; split; [auto|lia]|right; apply S0].
    - intros k0 H0 E0. destruct (OJ _ H0 E0) as [-> ->]. rewrite E1, E2, VO by auto.
      replace (I1 k + (nk k - 1))%nat with (I1 k + nk k - 1)%nat by lia. rewrite (be_X0 _ _ _ _ _ _ _ _ _ _ _ _ Bk). reflexivity.
    - destruct SOLD as [->|S0]; [left; exists k; rewrite E2; split; [auto|lia]|right; apply S0].
    - intros k0 H0 E0. destruct (OJ _ H0 E0) as [-> ->]. rewrite E1, E2, E3, VO by auto.
      replace (I1 k + (nk k - 1))%nat with (I1 k + nk k - 1)%nat by lia. rewrite (be_Y0 _ _ _ _ _ _ _ _ _ _ _ _ Bk). reflexivity.
    - destruct SOLD as [->|S0]; [left; exists k; rewrite E2; split; [auto|lia]|right; apply S0].
    - intros k0 H0 E0. destruct (OJ _ H0 E0) as [-> ->]. rewrite E1, E3, VO by auto.
      replace (I1 k + (nk k - 1))%nat with (I1 k + nk k - 1)%nat by lia. rewrite (be_Z0 _ _ _ _ _ _ _ _ _ _ _ _ Bk). reflexivity.
    - destruct SOLD as [->|S0]; [left; exists k; rewrite E2; split; [auto|lia]|right; apply S0].
  Qed.

  (** The junctions before the last [m] links. *)
  Definition frontier_b (m : nat) (ix : list nat) : Prop :=
    forall I, In I ix <-> exists k j, (k < NK)%nat /\ (j + m + 1 = nk k)%nat /\ I = (I1 k + j)%nat.

  Lemma py_O_ik_eq P0 a0 b0 c0 D0 D1 A0 E1 Y1 X1 O0 v :
    Some v = Y_Ik P0 a0 D0 D1 c0 A0 E1 Y1 X1 O0 -> py_O_ik a0 b0 c0 A0 E1 X1 = O_ik a0 b0 c0 A0 E1 X1.
  Proof.
    unfold Y_Ik, div, py_O_ik, O_ik, safe_divide. destruct (Reqb (X1 + E1) 0); [discriminate|reflexivity].
  Qed.

  Lemma py_backward_round_agrees m ix s : (1 <= m)%nat -> frontier_b m ix -> agree_b m s ->
    exists s', py_backward_round a b c P A E D T ix s = Some s' /\ agree_b (m + 1) s'.
  Proof.
    intros Hm Hix Hs. unfold py_backward_round. cbv zeta.
    set (O' := scatter_at ix (t_forward_I_i T) _ (bO s)).
    set (X' := scatter_at ix (fun I => I) _ (bX s)).
    assert (TB : forall I, In I ix -> exists k j, (k < NK)%nat /\ (j + m + 1 = nk k)%nat /\ I = (I1 k + j)%nat /\
       t_forward_I_i T I = (i1 k + j)%nat /\ t_forward_I_I T I = (I1 k + S j)%nat).
    { intros I HI. apply Hix in HI as (k & j & Hk & Hmk & ->). exists k, j.
      destruct (nb_next _ _ HT k j Hk ltac:(lia)) as (Q1 & _ & Q3). repeat split; auto; lia. }
    assert (KI : forall I k j, In I ix -> (k < NK)%nat -> (j < nk k)%nat -> t_forward_I_i T I = (i1 k + j)%nat ->
        I = (I1 k + j)%nat /\ (j + m + 1 = nk k)%nat).
    { intros I k j HI Hk Hj Ee. destruct (TB I HI) as (k' & j' & Hk' & Em & EI & Ei & _). rewrite Ei in Ee.
      destruct (own_link k' k j' j) as [X Y]; auto; try lia. subst. auto. }
    assert (JI : forall I k j, In I ix -> (k < NK)%nat -> (j < nk k)%nat -> I = (I1 k + j)%nat -> (j + m + 1 = nk k)%nat).
    { intros I k j HI Hk Hj Ee. destruct (TB I HI) as (k' & j' & Hk' & Em & EI & _). rewrite EI in Ee.
      destruct (own_junction k' k j' j) as [X Y]; auto; try lia. subst. auto. }
    assert (OLD : forall k j, (k < NK)%nat -> (j < nk k)%nat -> (nk k <= j + (m + 1))%nat ->
        (nk k <= j + m)%nat \/ In (I1 k + j)%nat ix).
    { intros k j Hk Hj Hjm. destruct (Nat.le_gt_cases (nk k) (j + m)); [left; auto|right].
      apply Hix. exists k, j. repeat split; auto; lia. }
    assert (TI : forall k j, (k < NK)%nat -> (j < nk k)%nat -> In (I1 k + j)%nat ix ->
        t_forward_I_i T (I1 k + j)%nat = (i1 k + j)%nat /\ t_forward_I_I T (I1 k + j)%nat = (I1 k + S j)%nat).
    { intros k j Hk Hj _. destruct (nb_next _ _ HT k j Hk Hj) as (Q1 & _ & Q3). rewrite Q1, Q3. split; auto; lia. }
    assert (AO : forall k j, (k < NK)%nat -> (j < nk k)%nat -> (nk k <= j + (m + 1))%nat -> O' (i1 k + j)%nat = bO w (i1 k + j)%nat).
    { intros k j Hk Hj Hjm. unfold O'. apply scatter_agrees.
      - intros I HI Ek. destruct (KI _ _ _ HI Hk Hj Ek) as [-> Em]. destruct (TI k j Hk Hj HI) as [Ei Ef]. rewrite Ei, Ef.
        destruct (Hs k (S j) Hk ltac:(lia) ltac:(lia)) as (_ & SX & _). rewrite SX.
        pose proof (be_Y _ _ _ _ _ _ _ _ _ _ _ _ (HB k Hk) j ltac:(lia) ltac:(lia)) as EY.
        rewrite (py_O_ik_eq _ _ _ _ _ _ _ _ _ _ _ _ EY). symmetry. apply (be_O _ _ _ _ _ _ _ _ _ _ _ _ (HB k Hk)); lia.
      - destruct (OLD k j Hk Hj Hjm) as [L|Hin]; [right; apply Hs; auto|left].
        exists (I1 k + j)%nat. split; auto. apply TI; auto. }
    assert (AX : forall k j, (k < NK)%nat -> (j < nk k)%nat -> (nk k <= j + (m + 1))%nat -> X' (I1 k + j)%nat = bX w (I1 k + j)%nat).
    { intros k j Hk Hj Hjm. unfold X'. apply scatter_agrees.
      - intros I HI Ek. cbv beta in Ek. pose proof (JI _ _ _ HI Hk Hj Ek) as Em. subst I.
        destruct (TI k j Hk Hj HI) as [Ei Ef]. rewrite Ei, AO by lia.
        symmetry. apply (be_X _ _ _ _ _ _ _ _ _ _ _ _ (HB k Hk)); lia.
      - destruct (OLD k j Hk Hj Hjm) as [L|Hin]; [right; apply Hs; auto|left]. exists (I1 k + j)%nat. auto. }
    rewrite (scatter_opt_cases ix _ _ (bY w)).
    2:{ intros I HI. destruct (TB I HI) as (k & j & Hk & Em & -> & Ei & Ef). rewrite Ei, Ef.
        destruct (Hs k (S j) Hk ltac:(lia) ltac:(lia)) as (_ & _ & SY & _). rewrite SY, AX, AO by lia.
        symmetry. apply (be_Y _ _ _ _ _ _ _ _ _ _ _ _ (HB k Hk)); lia. }
    cbn [bind]. eexists. split; [reflexivity|]. intros k j Hk Hj Hjm. cbn [bO bX bY bZ].
    split; [apply AO; auto|]. split; [apply AX; auto|]. split; apply scatter_agrees.
    - intros I HI Ek. cbv beta in Ek. rewrite Ek. auto.
    - destruct (OLD k j Hk Hj Hjm) as [L|Hin]; [right; apply Hs; auto|left]. exists (I1 k + j)%nat. auto.
    - intros I HI Ek. cbv beta in Ek. pose proof (JI _ _ _ HI Hk Hj Ek) as Em. subst I.
      destruct (TI k j Hk Hj HI) as [Ei Ef]. destruct (Hs k (S j) Hk ltac:(lia) ltac:(lia)) as (_ & _ & _ & SZ).
      rewrite Ei, Ef, SZ, AX, AO by lia. symmetry. apply (be_Z _ _ _ _ _ _ _ _ _ _ _ _ (HB k Hk)); lia.
    - destruct (OLD k j Hk Hj Hjm) as [L|Hin]; [right; apply Hs; auto|left]. exists (I1 k + j)%nat. auto.
  Qed.

  (** The step from one frontier to the next, from the junctions [I1 k + nk k - m]. *)
  Lemma frontier_b_next m ix : (1 <= m)%nat ->
    (forall I, In I ix <-> exists k j, (k < NK)%nat /\ (j + m = nk k)%nat /\ I = (I1 k + j)%nat) ->
    frontier_b m (map (t_backward_I_I T) (filter (fun I => negb (t_is_start T I)) ix)).
  Proof.
    intros Hm Hix I. rewrite in_map_iff. split.
    - intros (I' & <- & HI'). apply filter_In in HI' as [HI' Hn]. apply Hix in HI' as (k & j & Hk & Hj & ->).
      destruct (nb_marks _ _ HT k j Hk ltac:(lia)) as [Q2 _]. rewrite Q2 in Hn.
      destruct (Nat.eqb_spec j 0); [discriminate|]. exists k, (j - 1)%nat.
      destruct (nb_next _ _ HT k (j - 1)%nat Hk ltac:(lia)) as (_ & Q1 & _).
      replace (I1 k + (j - 1) + 1)%nat with (I1 k + j)%nat in Q1 by lia. rewrite Q1. repeat split; auto; lia.
    - intros (k & j & Hk & Hj & ->). exists (I1 k + (j + 1))%nat.
      destruct (nb_next _ _ HT k j Hk ltac:(lia)) as (_ & Q1 & _).
      replace (I1 k + j + 1)%nat with (I1 k + (j + 1))%nat in Q1 by lia. split; auto.
      apply filter_In. split; [apply Hix; exists k, (j + 1)%nat; repeat split; auto; lia|].
      destruct (nb_marks _ _ HT k (j + 1)%nat Hk ltac:(lia)) as [Q2 _]. rewrite Q2.
      destruct (Nat.eqb_spec (j + 1) 0); auto; lia.
  Qed.

  Lemma frontier_b_nil m : frontier_b m [] -> forall k, (k < NK)%nat -> (nk k <= m)%nat.
  Proof.
    intros Hix k Hk. destruct (Nat.le_gt_cases (nk k) m) as [L|L]; auto. exfalso.
    apply (proj2 (Hix (I1 k + (nk k - 1 - m))%nat)). exists k, (nk k - 1 - m)%nat. repeat split; auto; lia.
  Qed.

  Lemma agree_b_all m s : agree_b m s -> (forall k, (k < NK)%nat -> (nk k <= m)%nat) ->
    forall M, agree_b M s.
  Proof. intros Hs Hn M k j Hk Hj _. apply Hs; auto. specialize (Hn k Hk). lia. Qed.

  Lemma py_backward_loop_agrees fuel : forall m ix s, (1 <= m)%nat -> frontier_b m ix -> agree_b m s ->
    (forall k, (k < NK)%nat -> (nk k <= m + fuel)%nat) ->
    exists s', py_backward_loop a b c P A E D T (S fuel) ix s = Some s' /\ forall M, agree_b M s'.
  Proof.
    induction fuel as [|fuel IH]; intros m ix s Hm Hix Hs Hf.
    - assert (ix = []) as ->.
      { destruct ix as [|I ix]; auto. exfalso. destruct (proj1 (Hix I) (or_introl eq_refl)) as (k & j & Hk & Hj & _).
        specialize (Hf k Hk). lia. }
      exists s. split; auto. apply (agree_b_all m); auto. intros k Hk; specialize (Hf k Hk); lia.
    - destruct ix as [|I0 ix0].
      + exists s. split; auto. apply (agree_b_all m); auto. apply frontier_b_nil; auto.
      + change (exists s', (do s1 <- py_backward_round a b c P A E D T (I0 :: ix0) s;
          py_backward_loop a b c P A E D T (S fuel)
            (map (t_backward_I_I T) (filter (fun I => negb (t_is_start T I)) (I0 :: ix0))) s1) = Some s' /\
          forall M, agree_b M s').
        destruct (py_backward_round_agrees m (I0 :: ix0) s Hm Hix Hs) as (s1 & -> & H1). cbn [bind].
        apply (IH (m + 1)%nat); auto; try lia.
        * apply frontier_b_next; [lia|]. intros I. rewrite (Hix I). split; intros (k & j & Hk & Hj & EI); exists k, j; repeat split; auto; lia.
        * intros k Hk; specialize (Hf k Hk); lia.
  Qed.

  Lemma py_backward_agrees fuel s : (forall k, (k < NK)%nat -> (nk k <= fuel)%nat) -> (1 <= fuel)%nat ->
    exists s', py_backward_recurrence a b c P A E D T NK false fuel s = Some s' /\ forall M, agree_b M s'.
  Proof.
    intros Hf H1. destruct fuel as [|fuel]; [lia|]. unfold py_backward_recurrence. cbv zeta.
    destruct (py_backward_loop_agrees fuel 1
      (map (t_backward_I_I T) (filter (fun I => negb (t_is_start T I)) (map (t_I_Nk T) (seq 0 NK))))
      (py_backward_first a b c P A E D T NK false s) (le_n 1)) as (s1 & -> & A1).
    { apply frontier_b_next; [lia|]. intros I. rewrite in_map_iff. split.
      - intros (k & <- & Hk). apply in_seq in Hk. exists k, (nk k - 1)%nat. pose proof (nk_pos' k ltac:(lia)).
        destruct (nb_ends _ _ HT k ltac:(lia)) as (_ & X & _). rewrite X. repeat split; lia.
      - intros (k & j & Hk & Hj & ->). exists k. destruct (nb_ends _ _ HT k Hk) as (_ & X & _). rewrite X.
        split; [lia|apply in_seq; lia]. }
    { apply py_backward_first_agrees; auto. }
    { intros k Hk. specialize (Hf k Hk). lia. }
    cbn [bind]. eexists. split; [reflexivity|]. intros M. destruct M as [|M]; [intros k j Hk Hj; lia|].
    apply py_backward_first_agrees; [lia|]. left. apply A1.
  Qed.
End Sweeps.

(** With the default end method the sweeps of both classes give the same coefficients in every link and junction,
    whenever the compiled ones divide by nothing that is 0; the loops of the vectorised ones end. *)
Theorem C67_sweeps_agree :
  forall NK T a b c P A E D sf f sb w, numbered NK T ->
  numba_forward_recurrence sf a b c P A E D NK (t_nk T) (t_I_1k T) (t_i_1k T) = Some f ->
  numba_backward_recurrence sb a b c P A E D NK (t_nk T) (t_I_Nk T) (t_i_nk T) = Some w ->
  exists enough, forall fuel s s', (enough <= fuel)%nat ->
  exists f' w', py_forward_recurrence a b c P A E D T NK false fuel s = Some f' /\
                py_backward_recurrence a b c P A E D T NK false fuel s' = Some w' /\
  forall k j, (k < NK)%nat -> (j < t_nk T k)%nat ->
    let i := (t_i_1k T k + j)%nat in let I := (t_I_1k T k + j)%nat in
    (fT f' i = fT f i /\ fU f' I = fU f I /\ fV f' I = fV f I /\ fW f' I = fW f I) /\
    (bO w' i = bO w i /\ bX w' I = bX w I /\ bY w' I = bY w I /\ bZ w' I = bZ w I).
Proof.
  intros NK T a b c P A E D sf f sb w HT Ef Eb.
  assert (Bound : exists m, forall k, (k < NK)%nat -> (t_nk T k <= m)%nat).
  { clear. induction NK as [|n [m IH]]; [exists O; intros; lia|]. exists (m + t_nk T n)%nat. intros k Hk.
    destruct (Nat.eq_dec k n) as [->|]; [lia|]. specialize (IH k ltac:(lia)). lia. }
  destruct Bound as [m Hm]. exists (m + 1)%nat. intros fuel s s' Hfuel.
  assert (HF : forall k, (k < NK)%nat -> fwd_eqs a b c P A E D (t_i_1k T k) (t_I_1k T k) (t_nk T k) f)
    by (intros k Hk; exact (forward_recurrence_ok _ _ _ _ _ _ _ sf _ _ _ _ f (nb_layout _ _ HT) Ef k Hk)).
  assert (HB : forall k, (k < NK)%nat -> bwd_eqs a b c P A E D (t_i_1k T k) (t_I_1k T k) (t_nk T k) w).
  { intros k Hk. eapply backward_recurrence_ok; [apply (nb_layout _ _ HT)| |exact Eb|auto].
    intros k0 Hk0. destruct (nb_ends _ _ HT k0 Hk0) as (_ & X & Y). auto. }
  destruct (py_forward_agrees NK T HT a b c P A E D f HF fuel s) as (f' & EF & AF).
  { intros k Hk. specialize (Hm k Hk). lia. } { lia. }
  destruct (py_backward_agrees NK T HT a b c P A E D w HB fuel s') as (w' & EB & AB).
  { intros k Hk. specialize (Hm k Hk). lia. } { lia. }
  exists f', w'. split; auto. split; auto. intros k j Hk Hj. cbv zeta. split.
  - apply (AF (j + 1)%nat); auto; lia.
  - apply (AB (t_nk T k)); auto; lia.
Qed.
