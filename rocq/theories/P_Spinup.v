(** Property C95: spinning a model up. *)
From Coq Require Import ZArith.
From Verif Require Import Prelude M_Numerics M_Coeffs M_Recurrence M_Assembly M_Step M_Geometry M_Storage M_Controls M_Simulation M_Model
  S_Numerics S_Geometry S_Superlink S_Network S_Step S_Simulation S_Model S_Object S_Replay
  P_Assembly P_Superlink P_Step P_Limits P_Simulation L_Model L_Gauss P_Model P_Geometry P_Object P_Datum L_Step.
From Verif Require Import M_Spinup.

(** ** The clock, the counter and the saved clock do not influence a step *)
Section Clock.
Variable D : design.
Variable slv : mat -> arr -> option arr.
Local Notation N := (d_net D).

Definition alike (m m' : object) : Prop := m_body m' = m_body m /\ snd (m_saved m') = snd (m_saved m).
Definition both {A} (P : A -> A -> Prop) (x y : option A) : Prop :=
  match x, y with Some a, Some b => P a b | None, None => True | _, _ => False end.

Local Notation setup' := (setup_step' body saved inputs save_body (fun _ i dt v => setup_body D i dt (v_st v))).
Local Notation solve' := (solve_step' body saved inputs (fun i dt _ => solve_body D slv i dt)).
Local Notation iterate' := (iterate body saved inputs save_body (fun _ i dt v => setup_body D i dt (v_st v)) (fun i dt _ => solve_body D slv i dt) heads_of (n_M N)).

Lemma setup_alike fi i dt m m' : alike m m' -> both alike (setup' fi i dt m) (setup' fi i dt m').
Proof.
  intros [B S]. unfold setup_step'. destruct fi; cbn [save_state m_saved m_body snd fst].
  - rewrite B. destruct (setup_body D i dt _ _); cbn [bind both]; [|exact I]. split; reflexivity.
  - rewrite B, S. destruct (setup_body D i dt _ _); cbn [bind both]; [|exact I]. split; [reflexivity|exact S].
Qed.
Lemma solve_alike i dt m m' : alike m m' -> both alike (solve' i dt m) (solve' i dt m').
Proof.
  intros [B S]. unfold solve_step'. rewrite B. destruct (solve_body D slv i dt _); cbn [bind both]; [|exact I]. split; [reflexivity|exact S].
Qed.
Lemma iterate_alike n : forall i dt tol H m m', alike m m' ->
  both (fun r r' => alike (fst r) (fst r') /\ snd r' = snd r) (iterate' n i dt tol H m) (iterate' n i dt tol H m').
Proof.
  induction n as [|n IH]; intros i dt tol H m m' A; cbn [iterate]; [split; [exact A|reflexivity]|].
  set (q := mkModel (m_t m - dt) (m_ic m - 1)%Z (m_body m) (m_saved m)). set (q' := mkModel (m_t m' - dt) (m_ic m' - 1)%Z (m_body m') (m_saved m')).
  pose proof (setup_alike false i dt q q' A) as A1.
  destruct (setup' false i dt q) as [q1|], (setup' false i dt q') as [q1'|]; cbn [both] in A1; try contradiction; cbn [bind]; [|exact I].
  pose proof (solve_alike i dt q1 q1' A1) as A2.
  destruct (solve' i dt q1) as [q2|], (solve' i dt q1') as [q2'|]; cbn [both] in A2; try contradiction; cbn [bind]; [|exact I].
  destruct A2 as [B2 S2]. rewrite B2. destruct (all_below _ _ _ _); [split; [split; [exact B2|exact S2]|reflexivity]|].
  pose proof (IH i dt tol (heads_of (m_body q2)) q2 q2' (conj B2 S2)) as A3.
  destruct (iterate' n i dt tol _ q2) as [r|], (iterate' n i dt tol _ q2') as [r'|]; cbn [both] in A3; try contradiction; cbn [bind]; [|exact I].
  destruct A3 as [A3 E3]. split; [exact A3|]. exact (f_equal S E3).
Qed.
Lemma step_alike i dt n tol m m' : alike m m' ->
  both (fun r r' => alike (fst r) (fst r') /\ snd r' = snd r) (object_step D slv i dt n tol m) (object_step D slv i dt n tol m').
Proof.
  intros A. unfold object_step, step.
  pose proof (setup_alike true i dt m m' A) as A1.
  destruct (setup' true i dt m) as [q1|], (setup' true i dt m') as [q1'|]; cbn [both] in A1; try contradiction; cbn [bind]; [|exact I].
  pose proof (solve_alike i dt q1 q1' A1) as A2.
  destruct (solve' i dt q1) as [q2|], (solve' i dt q1') as [q2'|]; cbn [both] in A2; try contradiction; cbn [bind]; [|exact I].
  destruct (Nat.ltb 0 (n - 1)); [|split; [exact A2|reflexivity]].
  destruct A2 as [B2 S2]. rewrite B2, S2. destruct (all_below _ _ _ _); [split; [split; [exact B2|exact S2]|reflexivity]|].
  pose proof (iterate_alike (n - 1) i dt tol (heads_of (m_body q2)) q2 q2' (conj B2 S2)) as A3.
  destruct (iterate' (n - 1) i dt tol _ q2) as [r|], (iterate' (n - 1) i dt tol _ q2') as [r'|]; cbn [both] in A3; try contradiction; cbn [bind]; [|exact I].
  destruct A3 as [A3 E3]. split; [exact A3|]. exact (f_equal S E3).
Qed.
Lemma perform_alike a m m' : alike m m' -> both alike (perform D slv a m) (perform D slv a m').
Proof.
  intros A. destruct a as [i dt n tol| |t v|]; cbn [perform].
  - pose proof (step_alike i dt n tol m m' A) as A1.
    destruct (object_step D slv i dt n tol m), (object_step D slv i dt n tol m'); cbn [both bind] in *; try contradiction; [|exact I]. apply A1.
  - destruct A as [B S]. cbn [both]. unfold alike, object_save, save_state. cbn [m_body m_saved snd]. now rewrite B.
  - destruct A as [B S]. unfold object_load, load_state. rewrite B. cbn [snd].
    destruct (load_body D v (m_body m)); cbn [bind both]; [|exact I]. split; [reflexivity|exact S].
  - destruct A as [B S]. unfold object_load, load_state. rewrite B, S. destruct (load_body D _ (m_body m)); cbn [bind both]; [|exact I]. split; [reflexivity|exact S].
Qed.
Lemma perform_all_alike l : forall m m', alike m m' -> both alike (perform_all D slv l m) (perform_all D slv l m').
Proof.
  induction l as [|a l IH]; intros m m' A; [exact A|]. cbn [perform_all]. pose proof (perform_alike a m m' A) as A1.
  destruct (perform D slv a m), (perform D slv a m'); cbn [both bind] in *; try contradiction; [|exact I]. now apply IH.
Qed.

(** ** Spinning up *)

(** An ordinary step as made during spin-up. *)
Definition spin_step (dt : R) (Q_in Q_0Ik : option arr) (kw : keywords) (a : action) : Prop :=
  exists i, a = Step i dt (kw_iter kw) (kw_tol kw) /\
    (Q_in = None -> forall j, i_Qin i j = 1 / 1000000) /\ (forall q, Q_in = Some q -> i_Qin i = q) /\
    (Q_0Ik = None -> forall j, i_Q0 i j = 1 / 1000000) /\ (forall q, Q_0Ik = Some q -> i_Q0 i = q) /\
    (forall H, kw_Hbc kw = Some H -> i_Hbc i = H) /\
    (forall u, kw_uo kw = Some u -> i_uo i = u) /\ (kw_uo kw = None -> forall o, i_uo i o = 0) /\
    (forall u, kw_uw kw = Some u -> i_uw i = u) /\ (kw_uw kw = None -> forall o, i_uw i o = 0) /\
    (forall u, kw_up kw = Some u -> i_up i = u) /\ (kw_up kw = None -> forall o, i_up i o = 0).

Lemma spin_step_ok dt Q_in Q_0Ik kw m : spin_step dt Q_in Q_0Ik kw (Step (spin_inputs Q_in Q_0Ik kw m) dt (kw_iter kw) (kw_tol kw)).
Proof.
  exists (spin_inputs Q_in Q_0Ik kw m). split; [reflexivity|]. unfold spin_inputs. cbn.
  repeat split; try (intros ->; reflexivity); intros ? ->; reflexivity.
Qed.

(** The loop. *)
Lemma spin_loop n dt Q_in Q_0Ik kw : forall m m', spinup D slv n dt Q_in Q_0Ik false kw m = Some m' ->
  exists l, length l = n /\ (forall a, In a l -> spin_step dt Q_in Q_0Ik kw a) /\ perform_all D slv l m = Some m' /\
    m_t m' = m_t m + INR n * dt /\ m_ic m' = (m_ic m + Z.of_nat n)%Z /\ (m_saved m' = m_saved m \/ (0 < n)%nat) /\
    ((0 < n)%nat -> fst (m_saved m') = m_t m + INR (n - 1) * dt).
Proof.
  unfold spinup. induction n as [|n IH]; intros m m' E.
  - cbn [for_opt bind] in E. injection E as <-. exists []. split; [reflexivity|]. split; [intros a []|]. split; [reflexivity|].
    simpl INR. split; [lra|]. split; [lia|]. split; [now left|lia].
  - cbn [for_opt] in E.
    match type of E with context[for_opt n ?f m] => destruct (for_opt n f m) as [m1|] eqn:E1; [|discriminate] end. cbn [bind] in E.
    destruct (object_step D slv (spin_inputs Q_in Q_0Ik kw m1) dt (kw_iter kw) (kw_tol kw) m1) as [[m2 p]|] eqn:E2; [|discriminate].
    cbn [bind fst] in E. injection E as <-.
    destruct (IH m m1) as (l & L & A & P & T & C & _); [now rewrite E1|].
    exists (l ++ [Step (spin_inputs Q_in Q_0Ik kw m1) dt (kw_iter kw) (kw_tol kw)]).
    split; [rewrite app_length, L; simpl; lia|]. split.
    { intros a Ha. apply in_app_or in Ha. destruct Ha as [Ha|[<-|[]]]; [now apply A|apply spin_step_ok]. }
    split; [rewrite perform_all_app, P; cbn [bind perform_all perform]; rewrite E2; reflexivity|].
    destruct (C40_step_advances_clock_once _ _ _ _ _ _ _ _ _ _ _ _ _ _ _ _ E2) as (T2 & C2 & S2 & _).
    rewrite T2, C2, S2, T, C, S_INR. split; [lra|]. split; [lia|]. split; [right; lia|]. intros _. cbn [fst].
    replace (S n - 1)%nat with n by lia. reflexivity.
Qed.
Lemma spinup_reset n dt Q_in Q_0Ik kw m m' : spinup D slv n dt Q_in Q_0Ik true kw m = Some m' ->
  exists m1, spinup D slv n dt Q_in Q_0Ik false kw m = Some m1 /\ m' = mkModel 0 0%Z (m_body m1) (m_saved m1).
Proof.
  unfold spinup. destruct (for_opt n _ m) as [m1|]; [|discriminate]. cbn [bind]. intros E. injection E as <-. eauto.
Qed.

(** C95: spin-up is n ordinary steps, each with the inflows given or else a trickle of 1e-6 m3/s into every superjunction and
    every junction; then clock and counter are zero, if asked for, and otherwise have advanced by n steps.  Whatever is done
    afterwards has the same result, or fails, as it would after these steps without zeroing the clock. *)
Theorem C95_spinup_is_ordinary_steps : forall n dt Q_in Q_0Ik reset kw m m',
  spinup D slv n dt Q_in Q_0Ik reset kw m = Some m' ->
  exists steps m1, length steps = n /\ (forall a, In a steps -> spin_step dt Q_in Q_0Ik kw a) /\
    perform_all D slv steps m = Some m1 /\
    (m_t m', m_ic m') = (if reset then (0, 0%Z) else (m_t m + INR n * dt, (m_ic m + Z.of_nat n)%Z)) /\
    m_body m' = m_body m1 /\ m_saved m' = m_saved m1 /\
    forall later, match perform_all D slv later m', perform_all D slv (steps ++ later) m with
                  | Some r, Some r' => m_body r = m_body r' /\ snd (m_saved r) = snd (m_saved r')
                  | None, None => True
                  | _, _ => False
                  end.
Proof.
  intros n dt Q_in Q_0Ik reset kw m m' E.
  assert (X : exists m1, spinup D slv n dt Q_in Q_0Ik false kw m = Some m1 /\ m' = if reset then mkModel 0 0%Z (m_body m1) (m_saved m1) else m1).
  { destruct reset; [now apply spinup_reset|exists m'; auto]. }
  destruct X as (m1 & E1 & ->). destruct (spin_loop _ _ _ _ _ _ _ E1) as (l & L & A & P & T & C & _).
  exists l, m1. split; [exact L|]. split; [exact A|]. split; [exact P|].
  split; [destruct reset; cbn [m_t m_ic]; [reflexivity|now rewrite T, C]|].
  split; [now destruct reset|]. split; [now destruct reset|]. intros later. rewrite perform_all_app, P. cbn [bind].
  assert (Al : alike m1 (if reset then mkModel 0 0%Z (m_body m1) (m_saved m1) else m1)) by (destruct reset; split; reflexivity).
  pose proof (perform_all_alike later _ _ Al) as B.
  destruct (perform_all D slv later m1), (perform_all D slv later (if reset then _ else _)); cbn [both] in B; auto.
Qed.

Hypothesis HD : sound D.
Hypothesis Hslv : solver (n_M N) slv.

(** Signals that do not close round orifices nor drive pumps backwards; the defaults are such if there is no round orifice. *)
Definition signals_ok (kw : keywords) : Prop :=
  (forall o, (o < o_n (d_or D))%nat -> d_ocode D o = 1%nat \/ d_ocode D o = 7%nat -> exists u, kw_uo kw = Some u /\ 0 < u o) /\
  (forall u p, kw_up kw = Some u -> (p < p_n (d_pu D))%nat -> 0 <= u p).

Lemma spin_admissible dt Q_in Q_0Ik kw m : 0 < dt -> signals_ok kw -> admissible D (spin_inputs Q_in Q_0Ik kw m) dt.
Proof.
  intros Hdt [Ho Hp]. split; [exact Hdt|]. unfold spin_inputs. cbn [i_up i_uo]. split.
  - intros p Hpn. destruct (kw_up kw) as [u|] eqn:E; cbn [given]; [eapply Hp; eauto|lra].
  - intros o Hon Hc. destruct (Ho o Hon Hc) as (u & -> & Hu). exact Hu.
Qed.
Lemma spin_step_allowed dt Q_in Q_0Ik kw a : 0 < dt -> signals_ok kw -> spin_step dt Q_in Q_0Ik kw a -> allowed D a.
Proof.
  intros Hdt [Ho Hp] (i & -> & _ & _ & _ & _ & _ & Uo & _ & _ & _ & Up & Zp). split; [exact Hdt|]. split.
  - intros p Hpn. destruct (kw_up kw) as [u|] eqn:E; [rewrite (Up u eq_refl); eapply Hp; eauto|rewrite Zp by reflexivity; lra].
  - intros o Hon Hc. destruct (Ho o Hon Hc) as (u & Eu & Hu). now rewrite (Uo u Eu).
Qed.

(** C95: on a sound design spin-up does not fail, after any history, and leaves heads and depths within their limits. *)
Theorem C95_spinup_never_fails : forall n dt Q_in Q_0Ik reset kw m history m0,
  constructed D m -> (forall a, In a history -> allowed D a) -> perform_all D slv history m = Some m0 ->
  0 < dt -> signals_ok kw ->
  exists m', spinup D slv n dt Q_in Q_0Ik reset kw m0 = Some m' /\ ((0 < n)%nat -> within_limits N (b_st (m_body m'))).
Proof.
  intros n dt Q_in Q_0Ik reset kw m history m0 HC HA HP Hdt Hs.
  assert (Hm : healthy D m0).
  { destruct (C58_no_history_fails D slv HD Hslv m history HC HA) as (q & Eq & _). rewrite HP in Eq. injection Eq as <-.
    apply (healthy_history D slv HD Hslv m history); auto. }
  assert (L : forall n, exists m', for_opt n (fun _ m => do r <- object_step D slv (spin_inputs Q_in Q_0Ik kw m) dt (kw_iter kw) (kw_tol kw) m; Some (fst r)) m0
                = Some m' /\ healthy D m' /\ ((0 < n)%nat -> within_limits N (b_st (m_body m')))).
  { induction n0 as [|k (q & Eq & Hq & _)]; [exists m0; split; [reflexivity|]; split; [exact Hm|lia]|].
    cbn [for_opt]. rewrite Eq. cbn [bind].
    destruct (object_step_total D slv HD Hslv (spin_inputs Q_in Q_0Ik kw q) dt (kw_iter kw) (kw_tol kw) q) as (r & -> & Hr & Lr); auto.
    { now apply spin_admissible. }
    cbn [bind]. exists (fst r). auto. }
  destruct (L n) as (q & Eq & _ & Lq). unfold spinup. rewrite Eq. cbn [bind]. eexists. split; [reflexivity|]. now destruct reset.
Qed.

(** C95: on a network without prescribed heads each step of spin-up that reaches no limit on heads or depths adds
    dt * 1e-6 m3 for every superjunction and every junction, or what is given instead. *)
Theorem C95_each_step_adds_the_trickle : forall n dt Q_in Q_0Ik kw m history m0 m1 m2,
  constructed D m -> (forall a, In a history -> allowed D a) -> perform_all D slv history m = Some m0 ->
  0 < dt -> signals_ok kw ->
  spinup D slv n dt Q_in Q_0Ik false kw m0 = Some m1 -> spinup D slv (S n) dt Q_in Q_0Ik false kw m0 = Some m2 ->
  n_end_o N = false -> (forall j, (j < n_M N)%nat -> n_bc N j = false) ->
  heads_free N (b_st (m_body m2)) -> depths_inside N (b_cf (m_body m2)) (b_st (m_body m2)) ->
  exists thu thd st G, geometry_at D st thu thd G /\ (kw_iter kw = 1%nat -> st = b_st (m_body m1)) /\
    stored_volume_change N G (h_H st) (b_st (m_body m1)) (b_st (m_body m2))
    = dt * (match Q_in with Some q => sum_n q (n_M N) | None => INR (n_M N) / 1000000 end +
            match Q_0Ik with
            | Some q => sum_n (fun k => sum_n (fun j => q (n_I1 N k + j)%nat) (n_nk N k + 1)) (n_K N)
            | None => sum_n (fun k => INR (n_nk N k + 1)) (n_K N) / 1000000
            end).
Proof.
  intros n dt Q_in Q_0Ik kw m history m0 m1 m2 HC HA HP Hdt Hs E1 E2 He Hb Hh Hd.
  destruct (spin_loop _ _ _ _ _ _ _ E1) as (l & _ & A & P & _).
  unfold spinup in E1, E2. cbn [for_opt] in E2.
  match type of E2 with context[for_opt n ?f m0] => destruct (for_opt n f m0) as [q|]; [|discriminate] end. cbn [bind] in E1, E2.
  injection E1 as ->.
  destruct (object_step D slv (spin_inputs Q_in Q_0Ik kw m1) dt (kw_iter kw) (kw_tol kw) m1) as [[q2 p]|] eqn:ES; [|discriminate].
  cbn [bind fst] in E2. injection E2 as ->.
  assert (HA' : forall a, In a (history ++ l) -> allowed D a).
  { intros a Ha. apply in_app_or in Ha. destruct Ha; [now apply HA|eapply spin_step_allowed; eauto]. }
  assert (HP' : perform_all D slv (history ++ l) m = Some m1) by (rewrite perform_all_app, HP; exact P).
  destruct (C26_object_conserves_volume D slv HD Hslv m (history ++ l) m1 _ dt _ _ m2 p HC HA' HP' (spin_admissible _ _ _ _ _ Hdt Hs) ES He Hb Hh Hd)
    as (mb & G & B & Ga & V).
  - exists (b_thu (m_body mb)), (b_thd (m_body mb)), (b_st (m_body mb)), G. split; [exact Ga|]. split.
    { intros Hk. destruct B as [[_ ->]|(q & Ep & Hq & _)]; [reflexivity|].
      destruct (C40_step_advances_clock_once _ _ _ _ _ _ _ _ _ _ _ _ _ _ _ _ ES) as (_ & _ & _ & Bp & _). rewrite Hk in Bp. simpl in Bp. lia. }
    rewrite V. f_equal. unfold total_inflow, spin_inputs. cbn [i_Qin i_Q0].
    assert (K : forall c k, sum_n (fun _ => c) k = INR k * c).
    { intros c k. induction k as [|k IH]; [simpl; lra|]. cbn [sum_n]. rewrite IH, S_INR. lra. }
    f_equal.
    + destruct Q_in; cbn [given]; [reflexivity|]. unfold trickle. rewrite K. lra.
    + destruct Q_0Ik; cbn [given]; [reflexivity|]. unfold trickle.
      assert (K2 : forall k, sum_n (fun i => sum_n (fun _ => 1 / 1000000) (n_nk N i + 1)) k = sum_n (fun i => INR (n_nk N i + 1)) k * (1 / 1000000)).
      { induction k as [|k IH]; [simpl; lra|]. cbn [sum_n]. rewrite IH, K. lra. }
      rewrite K2. lra.
Qed.

(** C95: without boundary heads given, junctions with a prescribed head keep the head they have. *)
Theorem C95_boundary_heads_are_kept : forall n dt Q_in Q_0Ik reset kw m history m0 m' j,
  constructed D m -> (forall a, In a history -> allowed D a) -> perform_all D slv history m = Some m0 ->
  0 < dt -> signals_ok kw -> kw_Hbc kw = None -> kw_iter kw = 1%nat ->
  spinup D slv n dt Q_in Q_0Ik reset kw m0 = Some m' ->
  (j < n_M N)%nat -> n_bc N j = true ->
  n_zj N j <= h_H (b_st (m_body m0)) j <= n_zj N j + n_maxj N j -> h_H (b_st (m_body m')) j = h_H (b_st (m_body m0)) j.
Proof.
  intros n dt Q_in Q_0Ik reset kw m history m0 m' j HC HA HP Hdt Hs Hk _ E Hj Hb HL.
  assert (X : exists m1, spinup D slv n dt Q_in Q_0Ik false kw m0 = Some m1 /\ m_body m' = m_body m1).
  { destruct reset; [destruct (spinup_reset _ _ _ _ _ _ _ E) as (m1 & E1 & ->); eauto|eauto]. }
  destruct X as (m1 & E1 & ->). clear E. revert m1 E1. induction n as [|n IH]; intros m1 E1.
  - unfold spinup in E1. cbn [for_opt bind] in E1. now injection E1 as <-.
  - pose proof E1 as E1'. unfold spinup in E1'. cbn [for_opt] in E1'.
    match type of E1' with context[for_opt n ?f m0] => destruct (for_opt n f m0) as [q|] eqn:Eq; [|discriminate] end. cbn [bind] in E1'.
    assert (E0 : spinup D slv n dt Q_in Q_0Ik false kw m0 = Some q) by (unfold spinup; now rewrite Eq).
    destruct (object_step D slv (spin_inputs Q_in Q_0Ik kw q) dt (kw_iter kw) (kw_tol kw) q) as [[q2 p]|] eqn:ES; [|discriminate].
    cbn [bind fst] in E1'. injection E1' as ->.
    destruct (spin_loop _ _ _ _ _ _ _ E0) as (l & _ & A & P & _). specialize (IH q E0).
    assert (HA' : forall a, In a (history ++ l) -> allowed D a).
    { intros a Ha. apply in_app_or in Ha. destruct Ha; [now apply HA|eapply spin_step_allowed; eauto]. }
    assert (HP' : perform_all D slv (history ++ l) m = Some q) by (rewrite perform_all_app, HP; exact P).
    destruct (C23_step_takes_prescribed_heads D slv HD Hslv m (history ++ l) q _ dt _ _ m1 p j HC HA' HP' (spin_admissible _ _ _ _ _ Hdt Hs) ES Hj Hb ltac:(lra)) as (T & _).
    rewrite T; unfold spin_inputs; cbn [i_Hbc]; rewrite Hk; cbn [given]; unfold heads_of; rewrite IH; [reflexivity|exact HL].
Qed.
End Clock.

(** C95, refuted: without signals a model with a round orifice does not spin up. *)
Theorem C95_round_orifice_refuted : forall D slv n dt Q_in Q_0Ik reset kw m o,
  (0 < n)%nat -> kw_uo kw = None -> (o < o_n (d_or D))%nat -> d_ocode D o = 1%nat \/ d_ocode D o = 7%nat ->
  spinup D slv n dt Q_in Q_0Ik reset kw m = None.
Proof.
  intros D slv n dt Q_in Q_0Ik reset kw m o Hn Hk Ho Hc.
  assert (St : forall q, object_step D slv (spin_inputs Q_in Q_0Ik kw q) dt (kw_iter kw) (kw_tol kw) q = None).
  { intros q. unfold object_step, step, setup_step', setup_body. cbn [save_state m_saved m_body snd].
    destruct (geometries D (m_body q)) as [b|]; cbn [bind]; [|reflexivity].
    destruct (storage_volumes D (b_st b) (b_Vs b)); cbn [bind]; [|reflexivity].
    assert (F : orifice_areas D (b_st b) (i_uo (spin_inputs Q_in Q_0Ik kw q)) (b_Ao b) = None).
    { destruct (orifice_areas D (b_st b) _ (b_Ao b)) as [A|] eqn:E; [|reflexivity]. exfalso.
      unfold orifice_areas in E. pose proof (all_entries_spec _ _ _ _ E o Ho) as X. unfold spin_inputs in X. cbn [i_uo] in X. rewrite Hk in X. cbn [given] in X.
      destruct (C33_closing_circular_orifice_raises_refuted
        (orifice_depth (h_H (b_st b) (o_Ju (d_or D) o)) (h_H (b_st b) (o_Jd (d_or D) o)) (n_zj (d_net D) (o_Ju (d_or D) o)) (o_z (d_or D) o))
        (d_o1 D o) (d_o2 D o) (d_o3 D o) (b_Ao b o)) as [N1 N7].
      destruct Hc as [-> | ->] in X; congruence. }
    rewrite F. reflexivity. }
  unfold spinup. destruct n as [|n]; [lia|]. cbn [for_opt].
  match goal with |- context[for_opt n ?f m] => destruct (for_opt n f m) as [q|] end; [|reflexivity]. cbn [bind]. now rewrite St.
Qed.

(** C95, refuted: zeroing the clock leaves the saved time, so that loading the saved state after spin-up puts the clock at the
    time before the last step of the spin-up. *)
Theorem C95_loading_after_spinup_refuted : forall D slv n dt Q_in Q_0Ik kw m m' r,
  (0 < n)%nat -> spinup D slv n dt Q_in Q_0Ik true kw m = Some m' -> m_t m' = 0 /\
  (perform D slv Restore m' = Some r -> m_t r = m_t m + INR (n - 1) * dt).
Proof.
  intros D slv n dt Q_in Q_0Ik kw m m' r Hn E. destruct (spinup_reset _ _ _ _ _ _ _ _ _ E) as (m1 & E1 & ->). split; [reflexivity|].
  destruct (spin_loop _ _ _ _ _ _ _ _ _ E1) as (l & _ & _ & _ & _ & _ & _ & S). cbn [perform]. unfold object_load, load_state. cbn [m_saved m_body].
  destruct (load_body D _ _); cbn [bind]; [|discriminate]. intros X. injection X as <-. cbn [m_t]. now apply S.
Qed.

(** The network of C26's example spins up for any number of steps. *)
Example C95_example : forall n, exists m', spinup fill (gauss 2) n 10 None None true default_keywords fill_object = Some m' /\
  m_t m' = 0 /\ ((0 < n)%nat -> within_limits fill_net (b_st (m_body m'))).
Proof.
  intros n. assert (C : constructed fill fill_object).
  { split; [reflexivity|]. split; intros i Hi; simpl; lra. }
  assert (Sg : signals_ok fill default_keywords).
  { split; [intros o Ho; simpl in Ho; lia|intros u p E; discriminate]. }
  destruct (C95_spinup_never_fails fill (gauss 2) fill_sound (gauss_solver 2) n 10 None None true default_keywords fill_object [] fill_object C) as (m' & E & L); auto; try lra.
  { intros a []. }
  exists m'. split; [exact E|]. split; [|exact L]. now destruct (spinup_reset _ _ _ _ _ _ _ _ _ E) as (m1 & _ & ->).
Qed.

(** With its inflows the first step reaches no limit, as C95_each_step_adds_the_trickle asks for. *)
Example C95_trickle_example :
  let kw := mkKeywords (Some (i_Hbc fill_inputs)) (Some (i_uo fill_inputs)) (Some (i_uw fill_inputs)) (Some (i_up fill_inputs)) 1 0 in
  signals_ok fill kw /\
  exists m', spinup fill (gauss 2) 0 60 (Some (i_Qin fill_inputs)) (Some (i_Q0 fill_inputs)) false kw fill_object = Some fill_object /\
    spinup fill (gauss 2) 1 60 (Some (i_Qin fill_inputs)) (Some (i_Q0 fill_inputs)) false kw fill_object = Some m' /\
    heads_free fill_net (b_st (m_body m')) /\ depths_inside fill_net (b_cf (m_body m')) (b_st (m_body m')) /\ m_t m' = 60.
Proof.
  split; [split; [intros o Ho; simpl in Ho; lia|intros u p E Hp; simpl in Hp; lia]|].
  destruct C26_object_example as (_ & _ & _ & m' & E & Hf & Hd & _).
  exists m'. split; [reflexivity|]. split; [|split; [exact Hf|split; [exact Hd|]]].
  - unfold spinup. cbn [for_opt bind].
    match goal with |- context[object_step fill (gauss 2) ?i 60 ?k ?t fill_object] =>
      change (object_step fill (gauss 2) i 60 k t fill_object) with (object_step fill (gauss 2) fill_inputs 60 1 0 fill_object) end.
    rewrite E. reflexivity.
  - unfold object_step in E. destruct (C40_step_advances_clock_once _ _ _ _ _ _ _ _ _ _ _ _ _ _ _ _ E) as (T & _). rewrite T. simpl. lra.
Qed.
