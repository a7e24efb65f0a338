(** Property C78 for simulations: without error control the datum stays a convention; with it, accepted steps depend on the datum. *)
From Coq Require Import ZArith.
From Verif Require Import Prelude M_Numerics M_Coeffs M_Recurrence M_Assembly M_Step M_Geometry M_Storage M_Controls M_Simulation M_Model
  S_Numerics S_Geometry S_Superlink S_Network S_Step S_Simulation S_Model S_Object S_Replay S_Mirror S_Embed L_Forward L_Backward L_Internals L_Coeffs L_Step
  P_Assembly P_Superlink P_Wellposed P_Step P_Limits P_Simulation
  L_Model L_Gauss P_Model P_Replay L_Relate P_Resume P_Object L_Mirror L_MirrorStep L_MirrorObject P_Mirror P_MirrorCases L_Embed L_EmbedObject P_Embed P_EmbedCases P_EmbedPasses.

(** ** A simulation as a sequence of steps and rollbacks *)
Section Actions.
Variable D : design.
Variable slv : mat -> arr -> option arr.
Local Notation N := (d_net D).
Local Notation model_step := (model_step body saved inputs save_body (fun _ i dt v => setup_body D i dt (v_st v)) (fun i dt _ => solve_body D slv i dt)
  heads_of (fun v => h_H (v_st v)) (n_M N)).
Local Notation fine_steps := (fine_steps body saved inputs save_body (fun _ i dt v => setup_body D i dt (v_st v)) (fun i dt _ => solve_body D slv i dt)
  heads_of (fun v => h_H (v_st v)) (n_M N)).
Local Notation attempt := (attempt body saved inputs save_body (load_body D) (fun _ i dt v => setup_body D i dt (v_st v)) (fun i dt _ => solve_body D slv i dt)
  heads_of (fun v => h_H (v_st v)) (n_M N)).
Local Notation sim_step := (sim_step body saved inputs save_body (load_body D) (fun _ i dt v => setup_body D i dt (v_st v)) (fun i dt _ => solve_body D slv i dt)
  heads_of (fun v => h_H (v_st v)) (n_M N)).

Definition one_action (c : config inputs) (dt t : R) : action := Step (c_inputs c (t + dt)) dt (c_num_iter c) (c_head_tol c).
Definition fine_actions (c : config inputs) (n : nat) (dt t : R) : list action := map (fun k => one_action c dt (t + INR k * dt)) (seq 0 n).
Definition attempt_actions (c : config inputs) (dt : R) (sub : nat) (t : R) : list action :=
  one_action c dt t :: (if Nat.ltb 1 sub then Restore :: fine_actions c sub (dt / INR sub) t else []).
Definition simulate (calls : list (call inputs)) (s : sim body saved) : option (sim body saved) :=
  fold_left (fun o q => do s <- o; match q with Call _ r c dt sub tol norm => sim_step r c dt sub tol norm s end) calls (Some s).

Lemma perform_all_app l l' m : perform_all D slv (l ++ l') m = bind (perform_all D slv l m) (perform_all D slv l').
Proof.
  revert m. induction l as [|a l IH]; intros m; [reflexivity|]. cbn [app perform_all]. destruct (perform D slv a m) as [m1|]; cbn [bind]; auto.
Qed.
Lemma one_as_action c dt m : model_step c dt m = perform D slv (one_action c dt (m_t m)) m.
Proof. reflexivity. Qed.
Lemma fine_as_actions c n dt m m' : fine_steps c n dt m = Some m' -> perform_all D slv (fine_actions c n dt (m_t m)) m = Some m'.
Proof.
  revert m'. induction n as [|n IH]; intros m' E; [exact E|]. unfold M_Simulation.fine_steps in E. cbn [for_opt] in E.
  match type of E with context[for_opt n ?f m] => destruct (for_opt n f m) as [m1|] eqn:E1; [|discriminate] end.
  unfold fine_actions. rewrite seq_S, map_app, perform_all_app. change (map _ (seq 0 n)) with (fine_actions c n dt (m_t m)).
  rewrite (IH m1 E1). cbn [bind map perform_all plus]. rewrite one_as_action in E.
  rewrite (fine_steps_clock _ _ _ _ _ _ _ _ _ _ _ _ _ _ E1) in E. rewrite E. reflexivity.
Qed.
Lemma attempt_as_actions c dt sub norm m m' init e : attempt c dt sub norm m = Some (m', init, e) ->
  perform_all D slv (attempt_actions c dt sub (m_t m)) m = Some m'.
Proof.
  unfold M_Simulation.attempt, attempt_actions. intros E.
  match type of E with bind ?x _ = _ => destruct x as [m1|] eqn:E1; [|discriminate] end. cbn [bind] in E. cbn [perform_all].
  pose proof E1 as E1'. rewrite one_as_action in E1'. rewrite E1'. cbn [bind].
  destruct (Nat.ltb 1 sub); [|injection E as <- <- <-; reflexivity].
  match type of E with bind ?x _ = _ => destruct x as [m2|] eqn:E2; [|discriminate] end. cbn [bind] in E.
  match type of E with bind ?x _ = _ => destruct x as [m3|] eqn:E3; [|discriminate] end. cbn [bind] in E.
  match type of E with bind ?x _ = _ => destruct x as [e'|] eqn:E4; [|discriminate] end. cbn [bind] in E. injection E as <- <- <-.
  cbn [perform_all perform]. unfold object_load. rewrite E2. cbn [bind]. apply fine_as_actions in E3.
  replace (m_t m) with (m_t m2); [exact E3|]. destruct (model_step_spec _ _ _ _ _ _ _ _ _ _ _ _ _ E1) as [_ S1].
  unfold load_state in E2. destruct (load_body _ _ _); [|discriminate]. injection E2 as <-. cbn [m_t]. rewrite S1. reflexivity.
Qed.
(** A call without retries, or without subdivisions. *)
Lemma call_as_actions r c dt sub tol norm s s' : r = 0%nat \/ (sub <= 1)%nat -> sim_step r c dt sub tol norm s = Some s' ->
  perform_all D slv (attempt_actions c dt sub (m_t (s_model s))) (s_model s) = Some (s_model s').
Proof.
  intros H E. unfold M_Simulation.sim_step in E. destruct r as [|r]; cbn fix beta iota in E; fold sim_step in E.
  - match type of E with bind ?x _ = _ => destruct x as [[[m1 i1] e1]|] eqn:E1; [|discriminate] end. cbn [bind] in E. injection E as <-.
    eapply attempt_as_actions; eauto.
  - match type of E with bind ?x _ = _ => destruct x as [[[m1 i1] e1]|] eqn:E1; [|discriminate] end. cbn [bind] in E.
    destruct H as [H|H]; [discriminate|].
    assert (e1 = NoErr) by (eapply (attempt_spec body saved inputs); eauto). subst e1. cbn [too_large andb] in E. injection E as <-.
    eapply attempt_as_actions; eauto.
Qed.
End Actions.

(** ** The datum, without error control *)
Definition raise_call (c : R) (q : call inputs) : call inputs :=
  match q with Call _ r g dt sub tol norm => Call _ r (mkConfig (fun t => raise_inputs c (c_inputs g t)) (c_min_dt g) (c_num_iter g) (c_head_tol g)) dt sub tol norm end.

Section Datum.
Variable c : R.
Variable D : design.
Local Notation N := (d_net D).
Hypothesis HD : sound D.
Hypothesis HT : tabled D.
Hypothesis Hch : chained D.
Hypothesis Hmk : link_marks N.
Hypothesis HM : (0 < n_M N)%nat.
Variables slv slv' : mat -> arr -> option arr.
Hypothesis Hslv : solver (n_M N) slv.
Hypothesis Hslv' : solver (n_M N) slv'.

Lemma raised_attempt g dt sub t :
  attempt_actions (mkConfig (fun t => raise_inputs c (c_inputs g t)) (c_min_dt g) (c_num_iter g) (c_head_tol g)) dt sub t
  = map (raise_action c) (attempt_actions g dt sub t).
Proof.
  unfold attempt_actions. cbn [map raise_action one_action c_inputs c_num_iter c_head_tol]. f_equal. destruct (Nat.ltb 1 sub); [|reflexivity].
  cbn [map raise_action]. f_equal. unfold fine_actions. rewrite map_map. reflexivity.
Qed.
Lemma raised_healthy m : healthy D m -> healthy (raise_design c D) (raise_object c m).
Proof. intros (W & R & S). split; [exact W|]. split; [exact R|exact S]. Qed.

(** Simulations whose calls have no retries or no subdivisions: heads higher by c at the same times, the same depths and flows. *)
Theorem C78_simulation_without_retries : forall (m : object) dt0 (calls : list (call inputs)),
  healthy D m ->
  (forall r g dt sub tol norm, In (Call inputs r g dt sub tol norm) calls ->
     (r = 0%nat \/ (sub <= 1)%nat) /\ In norm [0; 1; 2; -1]%Z /\ 0 < dt /\ (forall t dt, 0 < dt -> admissible D (c_inputs g t) dt)) ->
  exists s s', simulate D slv calls (new_sim body saved m dt0) = Some s /\
    simulate (raise_design c D) slv' (map (raise_call c) calls) (new_sim body saved (raise_object c m) dt0) = Some s' /\
    let st := b_st (m_body (s_model s)) in
    let st' := b_st (m_body (s_model s')) in
    m_t (s_model s') = m_t (s_model s) /\
    (forall j, (j < n_M N)%nat -> h_H st' j = h_H st j + c) /\
    (forall k, (k < n_K N)%nat -> h_Qu st' k = h_Qu st k /\ h_Qd st' k = h_Qd st k) /\
    (forall k j, (k < n_K N)%nat -> (j <= n_nk N k)%nat -> h_h st' (n_I1 N k + j)%nat = h_h st (n_I1 N k + j)%nat) /\
    (forall k j, (k < n_K N)%nat -> (j < n_nk N k)%nat -> h_Q st' (n_i1 N k + j)%nat = h_Q st (n_i1 N k + j)%nat) /\
    (forall o, (o < o_n (d_or D))%nat -> b_Qo (m_body (s_model s')) o = b_Qo (m_body (s_model s)) o) /\
    (forall w, (w < w_n (d_we D))%nat -> b_Qw (m_body (s_model s')) w = b_Qw (m_body (s_model s)) w) /\
    (forall p, (p < p_n (d_pu D))%nat -> b_Qp (m_body (s_model s')) p = b_Qp (m_body (s_model s)) p).
Proof.
  intros m dt0 calls Hm Hc.
  assert (HD' := raised_sound c D HD).
  enough (G : exists s s' l, simulate D slv calls (new_sim body saved m dt0) = Some s /\
    simulate (raise_design c D) slv' (map (raise_call c) calls) (new_sim body saved (raise_object c m) dt0) = Some s' /\
    (forall a, In a l -> allowed D a) /\ perform_all D slv l m = Some (s_model s) /\
    perform_all (raise_design c D) slv' (map (raise_action c) l) (raise_object c m) = Some (s_model s')).
  { destruct G as (s & s' & l & E & E' & Al & P & P'). exists s, s'. split; [exact E|]. split; [exact E'|].
    destruct (C78_datum_is_a_convention c D HD HT Hch Hmk slv slv' Hslv Hslv' m l Hm Al) as (r & r' & X & X' & Cn).
    rewrite P in X. injection X as <-. rewrite P' in X'. injection X' as <-. exact Cn. }
  assert (Ind : forall calls s s' l, (forall r g dt sub tol norm, In (Call inputs r g dt sub tol norm) calls ->
       (r = 0%nat \/ (sub <= 1)%nat) /\ In norm [0; 1; 2; -1]%Z /\ 0 < dt /\ (forall t dt, 0 < dt -> admissible D (c_inputs g t) dt)) ->
     healthy D (s_model s) -> healthy (raise_design c D) (s_model s') -> (forall a, In a l -> allowed D a) ->
     perform_all D slv l m = Some (s_model s) -> perform_all (raise_design c D) slv' (map (raise_action c) l) (raise_object c m) = Some (s_model s') ->
     exists t t' l', simulate D slv calls s = Some t /\ simulate (raise_design c D) slv' (map (raise_call c) calls) s' = Some t' /\
       (forall a, In a l' -> allowed D a) /\ perform_all D slv l' m = Some (s_model t) /\
       perform_all (raise_design c D) slv' (map (raise_action c) l') (raise_object c m) = Some (s_model t')).
  2:{ destruct (Ind calls (new_sim body saved m dt0) (new_sim body saved (raise_object c m) dt0) [] Hc Hm (raised_healthy m Hm)) as (t & t' & l' & X);
        [intros a []|reflexivity|reflexivity|]. exists t, t', l'. exact X. }
  clear Hc calls. induction calls as [|[r g dt sub tol norm] q IH]; intros s s' l Hc Hs Hs' Al P P'.
  { exists s, s', l. split; [reflexivity|]. split; [reflexivity|auto]. }
  destruct (Hc r g dt sub tol norm (or_introl eq_refl)) as (Hr & Hn & Hdt & Hi).
  set (g' := mkConfig (fun t => raise_inputs c (c_inputs g t)) (c_min_dt g) (c_num_iter g) (c_head_tol g)).
  destruct (simulation_step_total D slv HD Hslv r g dt sub tol norm s HM Hn Hdt Hi Hs) as (s1 & E1 & H1).
  destruct (simulation_step_total (raise_design c D) slv' HD' Hslv' r g' dt sub tol norm s' HM Hn Hdt Hi Hs') as (s1' & E1' & H1').
  pose proof (call_as_actions D slv r g dt sub tol norm s s1 Hr E1) as A1.
  pose proof (call_as_actions (raise_design c D) slv' r g' dt sub tol norm s' s1' Hr E1') as A1'.
  destruct (C78_datum_is_a_convention c D HD HT Hch Hmk slv slv' Hslv Hslv' m l Hm Al) as (x & x' & X & X' & T & _).
  rewrite P in X. injection X as <-. rewrite P' in X'. injection X' as <-.
  unfold g' in A1'. rewrite raised_attempt, T in A1'.
  destruct (IH s1 s1' (l ++ attempt_actions g dt sub (m_t (s_model s)))) as (t & t' & l' & Y1 & Y2 & Y); auto.
  - intros r0 g0 dt1 sub0 tol0 norm0 Hin. exact (Hc r0 g0 dt1 sub0 tol0 norm0 (or_intror Hin)).
  - intros a Ha. apply in_app_or in Ha. destruct Ha as [Ha|[<-|Ha]]; [auto|apply Hi; auto|].
    destruct (Nat.ltb_spec 1 sub) as [L|L]; [|destruct Ha]. destruct Ha as [<-|Ha]; [exact Logic.I|].
    unfold fine_actions in Ha. apply in_map_iff in Ha. destruct Ha as (k & <- & _). apply Hi.
    apply Rmult_lt_0_compat; [auto|]. apply Rinv_0_lt_compat. apply lt_0_INR. lia.
  - rewrite perform_all_app, P. exact A1.
  - rewrite map_app, perform_all_app, P'. exact A1'.
  - exists t, t', l'. split; [|split; [|exact Y]].
    + unfold simulate. cbn [fold_left bind]. rewrite E1. exact Y1.
    + unfold simulate. cbn [map raise_call fold_left bind]. unfold g' in E1'. rewrite E1'. exact Y2.
Qed.
End Datum.

(** The network of C78 driven by a wave, 100 m higher: steps with subdivisions, and steps with retries but no subdivisions. *)
Definition gentle : list (call inputs) :=
  [Call inputs 0 (mkConfig (fun t => mkInputs (fun _ => 1) (fun _ => t / 600) zeros (fun _ => 1/2) (fun _ => 1/2) (fun _ => 1)) 1 3 (1/1000)) 60 4 1 2%Z; Call inputs 3 (mkConfig (fun _ => lateral 4) 1 1 0) 30 1 1 0%Z].
Example C78_simulation_example :
  exists s s', simulate straight (gauss 3) gentle (new_sim body saved (starting flow_state) 60) = Some s /\
    simulate (raise_design 100 straight) (gauss 3) (map (raise_call 100) gentle) (new_sim body saved (raise_object 100 (starting flow_state)) 60) = Some s' /\
    m_t (s_model s') = m_t (s_model s) /\ h_H (b_st (m_body (s_model s'))) 2%nat = h_H (b_st (m_body (s_model s))) 2%nat + 100 /\
    b_Qp (m_body (s_model s')) 0%nat = b_Qp (m_body (s_model s)) 0%nat.
Proof.
  destruct (C78_simulation_without_retries 100 straight straight_sound straight_tabled straight_chained straight_marks ltac:(simpl; lia) (gauss 3) (gauss 3)
    (gauss_solver 3) (gauss_solver 3) (starting flow_state) 60 gentle straight_healthy) as (s & s' & E & E' & T & S1 & _ & _ & _ & _ & _ & S7).
  - intros r g dt sub tol norm [X|[X|[]]]; injection X as <- <- <- <- <- <-; (split; [auto with arith|]); (split; [simpl; auto|]); (split; [lra|]);
      intros t dt Hdt; (split; [exact Hdt|split; simpl; intros; lra]).
  - exists s, s'. split; [exact E|]. split; [exact E'|]. split; [exact T|]. split; [apply S1; simpl; lia|apply S7; simpl; lia].
Qed.

(** ** The datum, with error control *)

(** One step of one pass: the tank rises by the inflow over its surface. *)
Lemma pond_step1 c dt (m : object) : c_num_iter c = 1%nat -> (forall t, c_inputs c t = pond_inputs) -> 0 < dt -> healthy (pond 1) m ->
  1/1000 <= h_H (b_st (m_body m)) 2%nat -> 0 <= h_H (b_st (m_body m)) 2%nat + 1/2 * dt / (h_H (b_st (m_body m)) 2%nat + 1) <= 100 ->
  exists m', perform (pond 1) (gauss 3) (one_action c dt (m_t m)) m = Some m' /\ healthy (pond 1) m' /\ m_t m' = m_t m + dt /\
    m_saved m' = (m_t m, save_body (m_body m)) /\ (forall j, (j < 2)%nat -> h_H (b_st (m_body m')) j = 2) /\
    h_H (b_st (m_body m')) 2%nat = h_H (b_st (m_body m)) 2%nat + 1/2 * dt / (h_H (b_st (m_body m)) 2%nat + 1).
Proof.
  intros Hn Hi Hdt (W & Rc & Ws) H1 H2.
  assert (A : admissible (pond 1) pond_inputs dt) by (split; [lra|split; simpl; intros; lia]).
  assert (L : forall x, 0 <= x <= 100 -> limit_head 0 100 x = x).
  { intros x Hx. unfold limit_head. rewrite Rmax_left, Rmin_left; lra. }
  destruct (setup_body_total (pond 1) (pond_sound 1) pond_inputs dt (b_st (m_body m)) (m_body m) A W Rc) as (b1 & E1 & _ & R1 & Sv).
  destruct (solve_body_total (pond 1) (pond_sound 1) (gauss 3) (gauss_solver 3) pond_inputs dt b1 Sv R1) as (b2 & E2 & W2 & R2 & _).
  destruct (pond_pass 1 (gauss 3) pond_inputs dt (b_st (m_body m)) (m_body m) b1 b2 (gauss_solver 3) Hdt W Rc E1 E2) as [X Y].
  exists (mkModel (m_t m + dt) (m_ic m + 1)%Z b2 (m_t m, save_body (m_body m))).
  split; [|split; [split; [exact W2|split; [exact R2|exact W]]|]].
  - unfold perform, one_action, object_step, step, setup_step'. rewrite Hi, Hn. cbn [save_state m_t m_body m_saved m_ic snd].
    change (v_st (save_body (m_body m))) with (b_st (m_body m)). rewrite E1. cbn [bind]. unfold solve_step'. cbn [m_t m_body m_saved m_ic snd]. rewrite E2. reflexivity.
  - cbn [m_t m_saved m_body]. split; [reflexivity|]. split; [reflexivity|]. split; [intros j Hj; rewrite X by auto; apply L; simpl; lra|].
    rewrite (Y 2%nat) by (try lia; auto). cbn [pond_inputs i_Qin]. change (Nat.eqb 2 2) with true. cbv iota. rewrite L; auto.
Qed.
(** One attempt with two subdivisions. *)
Lemma attempt_two D slv g norm (m m1 m2 m3 m4 : object) : let dh := 1 / INR 2 in
  perform D slv (one_action g 1 (m_t m)) m = Some m1 -> perform D slv Restore m1 = Some m2 ->
  perform D slv (one_action g dh (m_t m2)) m2 = Some m3 -> perform D slv (one_action g dh (m_t m3)) m3 = Some m4 ->
  attempt body saved inputs save_body (load_body D) (fun _ i dt v => setup_body D i dt (v_st v)) (fun i dt _ => solve_body D slv i dt)
    heads_of (fun v => h_H (v_st v)) (n_M (d_net D)) g 1 2 norm m
  = (do e <- normed_error norm (n_M (d_net D)) (fun j => h_H (b_st (m_body m1)) j - h_H (b_st (m_body m4)) j) (h_H (b_st (m_body m4))) (h_H (b_st (m_body m3)));
     Some (m4, m_saved m1, e)).
Proof.
  intros dh E1 E2 E3 E4. unfold attempt. rewrite one_as_action, E1. cbn [bind]. change (Nat.ltb 1 2) with true. cbv iota.
  change (load_state body saved (load_body D) (m_saved m1) m1) with (perform D slv Restore m1). rewrite E2. cbn [bind].
  unfold fine_steps. cbn [for_opt]. fold dh. rewrite one_as_action, E3, one_as_action, E4. cbn [bind].
  rewrite <- one_as_action in E4. destruct (model_step_spec _ _ _ _ _ _ _ _ _ _ _ _ _ E4) as [_ S4]. rewrite S4. reflexivity.
Qed.
Lemma norm_of_three raw Hc Hp : raw 0%nat = 0 -> raw 1%nat = 0 -> (forall j, (j < 3)%nat -> 0 <= Hc j) ->
  normed_error 2 3 raw Hc Hp = Some (Err (Rmax (Rabs (sqrt ((raw 2%nat / error_scale Hc Hp 2) ^ 2 / 3))) eps)).
Proof.
  intros R0 R1 P. unfold normed_error. cbn [Nat.eqb Z.eqb Pos.eqb seq existsb]. 
  assert (Q : forall j, (j < 3)%nat -> Reqb (error_scale Hc Hp j) 0 = false).
  { intros j Hj. destruct (Reqb_spec (error_scale Hc Hp j) 0) as [Z|Z]; [|reflexivity]. exfalso. unfold error_scale in Z.
    pose proof (P j Hj). pose proof (Rmax_l (Hc j) (Hp j)). lra. }
  rewrite !Q by lia. cbn [orb]. do 4 f_equal. f_equal. cbn [sum_n]. rewrite R0, R1. replace (INR 3) with 3 by (simpl; lra). unfold Rdiv. rewrite Rmult_0_l, Rmult_0_l. ring.
Qed.
Lemma pond_tabled T : tabled (pond T).
Proof. constructor; simpl; intros; try lia. destruct i as [|[|i]]; auto; simpl; auto; lia. Qed.
Lemma pond_chained T : chained (pond T).
Proof. intros [|k] j Hk Hj; simpl in Hk; [|lia]. reflexivity. Qed.
Lemma pond_marks T : link_marks (pond_net T).
Proof. intros [|k] j Hk Hj; simpl in Hk; [|lia]. cbn in *. do 2 (destruct j as [|j]; [split; reflexivity|]). lia. Qed.

(** One call with one retry: a tank that fills slowly.  Measured from a datum 100 m lower, the error is 80 times smaller, so that the first
    attempt is accepted and the clock ends at 1 s instead of 1/2 s. *)
Definition slow : call inputs := Call inputs 1 (mkConfig (fun _ => pond_inputs) (1/10) 1 0) 1 2 1 2%Z.
Theorem C78_accepted_steps_refuted :
  sound (pond 1) /\ healthy (pond 1) pond_object /\
  (forall t dt, 0 < dt -> admissible (pond 1) (c_inputs (mkConfig (fun _ : R => pond_inputs) (1/10) 1 0) t) dt) /\
  exists s s', simulate (pond 1) (gauss 3) [slow] (new_sim body saved pond_object 1) = Some s /\
    simulate (raise_design 100 (pond 1)) (gauss 3) [raise_call 100 slow] (new_sim body saved (raise_object 100 pond_object) 1) = Some s' /\
    m_t (s_model s) = 1/2 /\ m_t (s_model s') = 1.
Proof.
  assert (Wp : watered (pond 1) pond_state) by (apply pond_watered; simpl; intros; lra).
  assert (Hp : healthy (pond 1) pond_object) by (split; [exact Wp|split; [constructor|exact Wp]]).
  assert (Ad : forall t dt, 0 < dt -> admissible (pond 1) (c_inputs (mkConfig (fun _ : R => pond_inputs) (1/10) 1 0) t) dt)
    by (intros t dt Hdt; split; [exact Hdt|split; simpl; intros; lia]).
  split; [apply pond_sound|]. split; [exact Hp|]. split; [exact Ad|].
  set (g := mkConfig (fun _ : R => pond_inputs) (1/10) 1 0) in *.
  set (g' := mkConfig (fun t : R => raise_inputs 100 (c_inputs g t)) (c_min_dt g) (c_num_iter g) (c_head_tol g)).
  assert (HD' := raised_sound 100 (pond 1) (pond_sound 1)).
  set (dh := 1 / INR 2). assert (Hdh : dh = 1/2) by (unfold dh; simpl; lra).
  (* the attempt *)
  destruct (pond_step1 g 1 pond_object) as (m1 & E1 & H1 & T1 & S1 & B1 & V1); auto; [lra|simpl; lra|simpl; lra|].
  change (h_H (b_st (m_body pond_object)) 2%nat) with 1 in V1.
  destruct (object_load_total (pond 1) (pond_sound 1) (m_saved m1) m1) as (m2 & E2 & H2); [rewrite S1; exact Wp|exact H1|].
  assert (F2 : m_t m2 = 0 /\ b_st (m_body m2) = pond_state).
  { unfold object_load, load_state, load_body in E2. rewrite S1 in E2. cbn [snd fst] in E2.
    destruct (geometries_total (pond 1) (pond_sound 1) (restore (pond 1) (save_body (m_body pond_object)) (m_body m1)) Wp) as (b & X & _ & _ & Es & _).
    rewrite X in E2. cbn [bind] in E2. injection E2 as <-. cbn [m_t m_body]. split; [reflexivity|exact Es]. }
  destruct F2 as [T2 V2].
  destruct (pond_step1 g dh m2) as (m3 & E3 & H3 & T3 & S3 & B3 & V3); auto; [lra|rewrite V2; simpl; lra|rewrite V2; simpl; lra|].
  rewrite V2, Hdh in V3. change (h_H pond_state 2%nat) with 1 in V3.
  destruct (pond_step1 g dh m3) as (m4 & E4 & H4 & T4 & S4 & B4 & V4); auto; [lra|rewrite V3; lra|rewrite V3; lra|].
  rewrite V3, Hdh in V4.
  assert (W3 : h_H (b_st (m_body m3)) 2%nat = 9/8) by (rewrite V3; lra).
  assert (W4 : h_H (b_st (m_body m4)) 2%nat = 169/136) by (rewrite V4; lra).
  assert (W1 : h_H (b_st (m_body m1)) 2%nat = 5/4) by (rewrite V1; lra).
  pose proof (attempt_two (pond 1) (gauss 3) g 2 pond_object m1 m2 m3 m4 E1 E2 E3 E4) as At.
  (* the attempt 100 m higher *)
  set (St := fun dt => Step pond_inputs dt 1 0).
  assert (R1 : perform_all (pond 1) (gauss 3) [St 1] pond_object = Some m1).
  { cbn [perform_all]. change (St 1) with (one_action g 1 (m_t pond_object)). rewrite E1. reflexivity. }
  assert (R2 : perform_all (pond 1) (gauss 3) [St 1; Restore] pond_object = Some m2).
  { cbn [perform_all]. change (St 1) with (one_action g 1 (m_t pond_object)). rewrite E1. cbn [bind].
    change (perform (pond 1) (gauss 3) Restore m1) with (object_load (pond 1) (m_saved m1) m1). rewrite E2. reflexivity. }
  assert (R3 : perform_all (pond 1) (gauss 3) [St 1; Restore; St dh] pond_object = Some m3).
  { change [St 1; Restore; St dh] with ([St 1; Restore] ++ [St dh]). rewrite perform_all_app, R2. cbn [bind perform_all].
    change (St dh) with (one_action g dh (m_t m2)). rewrite E3. reflexivity. }
  assert (R4 : perform_all (pond 1) (gauss 3) [St 1; Restore; St dh; St dh] pond_object = Some m4).
  { change [St 1; Restore; St dh; St dh] with ([St 1; Restore; St dh] ++ [St dh]). rewrite perform_all_app, R3. cbn [bind perform_all].
    change (St dh) with (one_action g dh (m_t m3)). rewrite E4. reflexivity. }
  assert (Al : forall a, In a [St 1; Restore; St dh; St dh] -> allowed (pond 1) a).
  { intros a [<-|[<-|[<-|[<-|[]]]]]; try exact Logic.I; (split; [lra|split; simpl; intros; lia]). }
  assert (Up : forall l r, perform_all (pond 1) (gauss 3) l pond_object = Some r -> (forall a, In a l -> allowed (pond 1) a) ->
     exists r', perform_all (raise_design 100 (pond 1)) (gauss 3) (map (raise_action 100) l) (raise_object 100 pond_object) = Some r' /\
       m_t r' = m_t r /\ (forall j, (j < 3)%nat -> h_H (b_st (m_body r')) j = h_H (b_st (m_body r)) j + 100)).
  { intros l r E A. destruct (C78_datum_is_a_convention 100 (pond 1) (pond_sound 1) (pond_tabled 1) (pond_chained 1) (pond_marks 1) (gauss 3) (gauss 3) (gauss_solver 3)
      (gauss_solver 3) pond_object l Hp A) as (x & x' & X & X' & T & Hh & _). rewrite E in X. injection X as <-. exists x'. auto. }
  destruct (Up _ _ R1) as (m1' & Q1 & _ & K1); [intros a [<-|[]]; apply Al; simpl; auto|].
  destruct (Up _ _ R2) as (m2' & Q2 & _ & K2); [intros a Ha; apply Al; simpl in *; tauto|].
  destruct (Up _ _ R3) as (m3' & Q3 & _ & K3); [intros a Ha; apply Al; simpl in *; tauto|].
  destruct (Up _ _ R4) as (m4' & Q4 & T4' & K4); [exact Al|].
  set (St' := fun dt => Step (raise_inputs 100 pond_inputs) dt 1 0).
  assert (G1 : perform (raise_design 100 (pond 1)) (gauss 3) (one_action g' 1 (m_t (raise_object 100 pond_object))) (raise_object 100 pond_object) = Some m1').
  { change (one_action g' 1 (m_t (raise_object 100 pond_object))) with (St' 1). change (map (raise_action 100) [St 1]) with [St' 1] in Q1. cbn [perform_all] in Q1.
    destruct (perform _ _ (St' 1) _); cbn [bind] in Q1; auto. }
  assert (G2 : perform (raise_design 100 (pond 1)) (gauss 3) Restore m1' = Some m2').
  { change (map (raise_action 100) [St 1; Restore]) with ([St' 1] ++ [Restore]) in Q2. rewrite perform_all_app in Q2.
    change (map (raise_action 100) [St 1]) with [St' 1] in Q1. rewrite Q1 in Q2. cbn [bind perform_all] in Q2.
    destruct (perform _ _ Restore m1'); cbn [bind] in Q2; auto. }
  assert (G3 : perform (raise_design 100 (pond 1)) (gauss 3) (one_action g' dh (m_t m2')) m2' = Some m3').
  { change (one_action g' dh (m_t m2')) with (St' dh). change (map (raise_action 100) [St 1; Restore; St dh]) with ([St' 1; Restore] ++ [St' dh]) in Q3.
    rewrite perform_all_app in Q3. change (map (raise_action 100) [St 1; Restore]) with [St' 1; Restore] in Q2. rewrite Q2 in Q3. cbn [bind perform_all] in Q3.
    destruct (perform _ _ (St' dh) m2'); cbn [bind] in Q3; auto. }
  assert (G4 : perform (raise_design 100 (pond 1)) (gauss 3) (one_action g' dh (m_t m3')) m3' = Some m4').
  { change (one_action g' dh (m_t m3')) with (St' dh). change (map (raise_action 100) [St 1; Restore; St dh; St dh]) with ([St' 1; Restore; St' dh] ++ [St' dh]) in Q4.
    rewrite perform_all_app in Q4. change (map (raise_action 100) [St 1; Restore; St dh]) with [St' 1; Restore; St' dh] in Q3. rewrite Q3 in Q4. cbn [bind perform_all] in Q4.
    destruct (perform _ _ (St' dh) m3'); cbn [bind] in Q4; auto. }
  pose proof (attempt_two (raise_design 100 (pond 1)) (gauss 3) g' 2 (raise_object 100 pond_object) m1' m2' m3' m4' G1 G2 G3 G4) as At'.
  clear Up Q1 Q2 Q3 Q4 R1 R2 R3 R4 G1 G2 G3 G4.
  (* the two errors *)
  change (n_M (d_net (pond 1))) with 3%nat in At. change (n_M (d_net (raise_design 100 (pond 1)))) with 3%nat in At'.
  rewrite norm_of_three in At, At'.
  2:{ rewrite K1, K4, B1, B4 by lia. lra. }
  2:{ rewrite K1, K4, B1, B4 by lia. lra. }
  2:{ intros [|[|[|j]]] Hj; [| | |lia]; rewrite K4 by lia; [rewrite B4 by lia|rewrite B4 by lia|rewrite W4]; lra. }
  2:{ rewrite B1, B4 by lia. lra. }
  2:{ rewrite B1, B4 by lia. lra. }
  2:{ intros [|[|[|j]]] Hj; [rewrite B4 by lia|rewrite B4 by lia|rewrite W4|lia]; lra. }
  cbn [bind] in At, At'. unfold error_scale in At, At'. rewrite W1, W4, W3 in At. rewrite K1, K4, K3, W1, W4, W3 in At' by lia.
  rewrite (Rmax_left (169/136) (9/8)) in At by lra. rewrite (Rmax_left (169/136 + 100) (9/8 + 100)) in At' by lra.
  set (e := Rmax (Rabs (sqrt (((5/4 - 169/136) / (/ 1000000 + 169/136 * / 1000)) ^ 2 / 3))) eps) in *.
  match type of At' with _ = Some (_, _, Err ?x) => set (e' := x) in * end.
  assert (Le : too_large (Err e) 1 = true).
  { cbn [too_large]. destruct (Rltb_spec 1 e) as [_|Z]; [reflexivity|]. exfalso. apply Z. unfold e. eapply Rlt_le_trans; [|apply Rmax_l].
    eapply Rlt_le_trans; [|apply Rle_abs]. rewrite <- sqrt_1 at 1. apply sqrt_lt_1; try lra. }
  assert (Le' : too_large (Err e') 1 = false).
  { cbn [too_large]. destruct (Rltb_spec 1 e') as [Z|_]; [|reflexivity]. exfalso. apply (Rlt_not_le _ _ Z). unfold e'. apply Rmax_lub; [|unfold eps; lra].
    rewrite Rabs_right by (apply Rle_ge, sqrt_pos). rewrite <- sqrt_1. apply sqrt_le_1; try lra. }
  clearbody e e'.
  (* the call *)
  destruct (simulation_step_total (pond 1) (gauss 3) (pond_sound 1) (gauss_solver 3) 1 g 1 2 1 2 (new_sim body saved pond_object 1)) as (s & Es & _);
    [simpl; lia|simpl; auto|lra|exact Ad|exact Hp|].
  destruct (simulation_step_total (raise_design 100 (pond 1)) (gauss 3) HD' (gauss_solver 3) 1 g' 1 2 1 2 (new_sim body saved (raise_object 100 pond_object) 1)) as (s' & Es' & _);
    [simpl; lia|simpl; auto|lra|exact Ad|apply raised_healthy; exact Hp|].
  exists s, s'. split; [unfold simulate, slow; cbn [fold_left bind]; exact Es|].
  split; [unfold simulate, slow, raise_call; cbn [fold_left bind]; exact Es'|]. split.
  - cbn [sim_step] in Es. change (s_model (new_sim body saved pond_object 1)) with pond_object in Es. change (n_M (d_net (pond 1))) with 3%nat in Es. rewrite At in Es.
    cbn [bind] in Es. rewrite Le in Es. destruct (Rltb_spec (c_min_dt g) (/ 2 * 1)) as [_|Z]; [|exfalso; apply Z; simpl; lra]. cbn [andb s_model] in Es.
    change (load_state body saved (load_body (pond 1)) (m_saved m1) m4) with (object_load (pond 1) (m_saved m1) m4) in Es.
    destruct (object_load (pond 1) (m_saved m1) m4) as [m5|] eqn:E5; [|discriminate]. cbn [bind s_model] in Es.
    assert (T5 : m_t m5 = 0).
    { unfold object_load, load_state in E5. destruct (load_body _ _ _); [|discriminate]. injection E5 as <-. cbn [m_t]. rewrite S1. reflexivity. }
    match type of Es with bind (bind ?x _) _ = _ => destruct x as [[[m6 i6] e6]|] eqn:E6; [|discriminate] end. cbn [bind s_model] in Es. injection Es as <-.
    cbn [s_model]. destruct (attempt_spec _ _ _ _ _ _ _ _ _ _ _ _ _ _ _ _ _ _ E6) as (T6 & _). rewrite T6. cbn [s_model]. rewrite T5. lra.
  - cbn [sim_step] in Es'. change (s_model (new_sim body saved (raise_object 100 pond_object) 1)) with (raise_object 100 pond_object) in Es'.
    change (n_M (d_net (raise_design 100 (pond 1)))) with 3%nat in Es'. rewrite At' in Es'. cbn [bind] in Es'. rewrite Le' in Es'. cbn [andb] in Es'. injection Es' as <-.
    cbn [s_model]. rewrite T4', T4, T3, T2, Hdh. lra.
Qed.
