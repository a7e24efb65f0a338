(** Property C80: where time is counted from makes no difference. *)
From Coq Require Import ZArith FunctionalExtensionality.
From Verif Require Import Prelude M_Coeffs M_Numerics M_Assembly M_Step M_Geometry M_Storage M_Controls M_Simulation M_Model M_Forcing
  S_Model S_Object L_Model L_Gauss P_Step P_Model.

(** ** Sampling *)
Lemma searchsorted_later s xp x : searchsorted (map (fun t => t + s) xp) (x + s) = searchsorted xp x.
Proof.
  induction xp as [|a l IH]; [reflexivity|]. cbn [map searchsorted]. rewrite IH.
  destruct (Rltb_spec (a + s) (x + s)), (Rltb_spec a x); auto; lra.
Qed.
Lemma sample_later s x xp fp method : interpolate_sample (x + s) (map (fun t => t + s) xp) fp method = interpolate_sample x xp fp method.
Proof.
  unfold interpolate_sample. rewrite map_length, searchsorted_later. set (ix := searchsorted xp x).
  destruct (Nat.eqb ix 0); [reflexivity|]. destruct (Nat.leb (length xp) ix); [reflexivity|]. rewrite !nth_error_map.
  destruct (nth_error xp (ix - 1)) as [xl|]; [|reflexivity]. destruct (nth_error xp ix) as [xr|]; [|reflexivity]. cbn [option_map].
  replace (x + s - (xl + s)) with (x - xl) by ring. replace (xr + s - (x + s)) with (xr - x) by ring. reflexivity.
Qed.
Definition later_forcing (s : R) (f : forcing) : forcing := mkForcing (map (fun t => t + s) (fo_t f)) (fo_col f).
Lemma forced_later s method H_bc Q_in Q_Ik uo uw up t :
  forced method (later_forcing s H_bc) (later_forcing s Q_in) (later_forcing s Q_Ik) uo uw up (t + s) = forced method H_bc Q_in Q_Ik uo uw up t.
Proof.
  unfold forced. f_equal; unfold sampled, later_forcing; cbn [fo_t fo_col]; apply functional_extensionality; intros j; rewrite sample_later; reflexivity.
Qed.

(** ** The stepper: with any hydraulics *)
Section Stepper.
Variables (B V I : Type).
Variable save : B -> V.
Variable load : V -> B -> option B.
Variable setup : bool -> I -> R -> V -> B -> option B.
Variable solve : I -> R -> V -> B -> option B.
Variable heads : B -> arr.
Variable saved_heads : V -> arr.
Variable M : nat.
Variable s : R.

(** Everything as before, the clock (and the time of the saved state) s later. *)
Definition later_model (m : model B V) : model B V := mkModel (m_t m + s) (m_ic m) (m_body m) (fst (m_saved m) + s, snd (m_saved m)).
Definition later_sim (q : sim B V) : sim B V := mkSim (later_model (s_model q)) (s_dt q) (s_dts q) (s_err q) (s_errs q) (s_count q).
Definition later_state (v : R * V) : R * V := (fst v + s, snd v).

Lemma save_later m : save_state B V save (later_model m) = later_model (save_state B V save m).
Proof. reflexivity. Qed.
Lemma load_later v m : load_state B V load (later_state v) (later_model m) = option_map later_model (load_state B V load v m).
Proof. unfold load_state, later_model, later_state. cbn [m_body m_ic m_saved m_t fst snd]. destruct (load (snd v) (m_body m)); reflexivity. Qed.
Lemma setup_later fi i dt m : setup_step' B V I save setup fi i dt (later_model m) = option_map later_model (setup_step' B V I save setup fi i dt m).
Proof.
  unfold setup_step'. destruct fi.
  - rewrite save_later. cbn [later_model m_saved m_body snd]. destruct (setup true i dt _ _); reflexivity.
  - cbn [later_model m_saved m_body snd]. destruct (setup false i dt _ _); reflexivity.
Qed.
Lemma solve_later i dt m : solve_step' B V I solve i dt (later_model m) = option_map later_model (solve_step' B V I solve i dt m).
Proof.
  unfold solve_step'. cbn [later_model m_saved m_body snd m_t m_ic]. destruct (solve i dt _ _); [|reflexivity]. cbn [bind option_map]. unfold later_model.
  cbn [m_saved m_body fst snd m_t m_ic]. do 2 f_equal. ring.
Qed.
Lemma iterate_later n : forall i dt tol H m,
  iterate B V I save setup solve heads M n i dt tol H (later_model m)
  = option_map (fun r => (later_model (fst r), snd r)) (iterate B V I save setup solve heads M n i dt tol H m).
Proof.
  induction n as [|n IH]; intros i dt tol H m; [reflexivity|]. cbn [iterate].
  replace (mkModel (m_t (later_model m) - dt) (m_ic (later_model m) - 1) (m_body (later_model m)) (m_saved (later_model m)))
    with (later_model (mkModel (m_t m - dt) (m_ic m - 1) (m_body m) (m_saved m))).
  2:{ unfold later_model. cbn [m_t m_ic m_body m_saved]. f_equal. ring. }
  rewrite setup_later. destruct (setup_step' _ _ _ _ _ _ _ _ _) as [m1|]; [|reflexivity]. cbn [option_map bind].
  rewrite solve_later. destruct (solve_step' _ _ _ _ _ _ _) as [m2|]; [|reflexivity]. cbn [option_map bind]. cbn [later_model m_body].
  destruct (all_below M tol H (heads (m_body m2))); [reflexivity|].
  change (mkModel (m_t m2 + s) (m_ic m2) (m_body m2) (fst (m_saved m2) + s, snd (m_saved m2))) with (later_model m2). rewrite IH.
  destruct (iterate _ _ _ _ _ _ _ _ _ _ _ _ _ _) as [[r p]|]; reflexivity.
Qed.
Lemma step_later i dt n tol m :
  step B V I save setup solve heads saved_heads M i dt n tol (later_model m)
  = option_map (fun r => (later_model (fst r), snd r)) (step B V I save setup solve heads saved_heads M i dt n tol m).
Proof.
  unfold step. rewrite setup_later. destruct (setup_step' _ _ _ _ _ _ _ _ _) as [m1|]; [|reflexivity]. cbn [option_map bind].
  rewrite solve_later. destruct (solve_step' _ _ _ _ _ _ _) as [m2|]; [|reflexivity]. cbn [option_map bind].
  destruct (Nat.ltb 0 (n - 1)); [|reflexivity]. change (m_body (later_model m2)) with (m_body m2). change (snd (m_saved (later_model m2))) with (snd (m_saved m2)).
  destruct (all_below _ _ _ _); [reflexivity|]. rewrite iterate_later. destruct (iterate _ _ _ _ _ _ _ _ _ _ _ _ _ _) as [[r p]|]; reflexivity.
Qed.

(** The same configuration, its inputs s later. *)
Definition later_config (c c' : config I) : Prop :=
  (forall t, c_inputs c' (t + s) = c_inputs c t) /\ c_min_dt c' = c_min_dt c /\ c_num_iter c' = c_num_iter c /\ c_head_tol c' = c_head_tol c.

Lemma model_step_later c c' dt m : later_config c c' ->
  model_step B V I save setup solve heads saved_heads M c' dt (later_model m)
  = option_map later_model (model_step B V I save setup solve heads saved_heads M c dt m).
Proof.
  intros (Ei & _ & En & Et). unfold model_step. rewrite En, Et, step_later. change (m_t (later_model m)) with (m_t m + s).
  replace (m_t m + s + dt) with (m_t m + dt + s) by ring. rewrite Ei. destruct (step _ _ _ _ _ _ _ _ _ _ _ _ _ _); reflexivity.
Qed.
Lemma fine_later c c' n dt m : later_config c c' ->
  fine_steps B V I save setup solve heads saved_heads M c' n dt (later_model m)
  = option_map later_model (fine_steps B V I save setup solve heads saved_heads M c n dt m).
Proof.
  intros Hc. unfold fine_steps. induction n as [|n IH]; [reflexivity|]. cbn [for_opt]. rewrite IH.
  destruct (for_opt n _ m) as [m1|]; [|reflexivity]. cbn [option_map bind]. apply model_step_later; auto.
Qed.
Lemma attempt_later c c' dt sub norm m : later_config c c' ->
  attempt B V I save load setup solve heads saved_heads M c' dt sub norm (later_model m)
  = option_map (fun r => (later_model (fst (fst r)), later_state (snd (fst r)), snd r)) (attempt B V I save load setup solve heads saved_heads M c dt sub norm m).
Proof.
  intros Hc. unfold attempt. rewrite (model_step_later c c' dt m Hc). destruct (model_step _ _ _ _ _ _ _ _ _ _ _ _) as [m1|]; [|reflexivity].
  cbn [option_map bind]. change (m_saved (later_model m1)) with (later_state (m_saved m1)). change (m_body (later_model m1)) with (m_body m1).
  destruct (Nat.ltb 1 sub); [|reflexivity]. rewrite load_later. destruct (load_state _ _ _ _ _) as [m2|]; [|reflexivity]. cbn [option_map bind].
  rewrite (fine_later c c' _ _ m2 Hc). destruct (fine_steps _ _ _ _ _ _ _ _ _ _ _ _ _) as [m3|]; [|reflexivity]. cbn [option_map bind].
  change (m_body (later_model m3)) with (m_body m3). change (snd (m_saved (later_model m3))) with (snd (m_saved m3)).
  destruct (normed_error _ _ _ _ _); reflexivity.
Qed.
Lemma sim_step_later retries : forall c c' dt sub tol norm q, later_config c c' ->
  sim_step B V I save load setup solve heads saved_heads M retries c' dt sub tol norm (later_sim q)
  = option_map later_sim (sim_step B V I save load setup solve heads saved_heads M retries c dt sub tol norm q).
Proof.
  induction retries as [|r IH]; intros c c' dt sub tol norm q Hc; cbn [sim_step]; change (s_model (later_sim q)) with (later_model (s_model q));
    rewrite (attempt_later c c' dt sub norm _ Hc); (destruct (attempt _ _ _ _ _ _ _ _ _ _ _ _ _ _ _) as [[[m v] e]|]; [|reflexivity]); cbn [option_map bind fst snd].
  - reflexivity.
  - destruct Hc as (Ei & Em & En & Et). assert (Hc : later_config c c') by (repeat split; auto). rewrite Em.
    destruct (too_large e tol && Rltb (c_min_dt c) (/ 2 * dt)); [|reflexivity]. cbn [s_model]. rewrite load_later.
    destruct (load_state _ _ _ _ _) as [m2|]; [|reflexivity]. cbn [option_map bind s_dt s_dts s_err s_errs s_count later_sim].
    match goal with |- context[sim_step _ _ _ _ _ _ _ _ _ _ r c' _ _ _ _ ?y] => match goal with |- context[sim_step _ _ _ _ _ _ _ _ _ _ r c _ _ _ _ ?x] => change y with (later_sim x) end end.
    rewrite (IH c c' _ _ _ _ _ Hc). destruct (sim_step _ _ _ _ _ _ _ _ _ _ _ _ _ _ _ _ _); reflexivity.
Qed.
End Stepper.

(** ** A simulation driven by tables *)

(** One call of [Simulation.step]: the tables and settings of the simulation, the arguments of the call. *)
Record driven : Type := mkDriven {
  dr_method : nat; dr_Hbc : forcing; dr_Qin : forcing; dr_QIk : forcing; dr_uo : arr; dr_uw : arr; dr_up : arr;
  dr_min : R; dr_iter : nat; dr_htol : R; dr_retries : nat; dr_dt : R; dr_sub : nat; dr_tol : R; dr_norm : Z }.
Definition drive (D : design) (slv : mat -> arr -> option arr) (q : driven) : sim body saved -> option (sim body saved) :=
  sim_step body saved inputs save_body (load_body D) (fun _ i dt v => setup_body D i dt (v_st v)) (fun i dt _ => solve_body D slv i dt)
    heads_of (fun v => h_H (v_st v)) (n_M (d_net D)) (dr_retries q)
    (mkConfig (forced (dr_method q) (dr_Hbc q) (dr_Qin q) (dr_QIk q) (dr_uo q) (dr_uw q) (dr_up q)) (dr_min q) (dr_iter q) (dr_htol q))
    (dr_dt q) (dr_sub q) (dr_tol q) (dr_norm q).
Definition drive_all D slv (l : list driven) (q : sim body saved) : option (sim body saved) :=
  fold_left (fun o c => bind o (drive D slv c)) l (Some q).
(** The same call with all tables s later. *)
Definition later_call (s : R) (q : driven) : driven :=
  mkDriven (dr_method q) (later_forcing s (dr_Hbc q)) (later_forcing s (dr_Qin q)) (later_forcing s (dr_QIk q)) (dr_uo q) (dr_uw q) (dr_up q)
    (dr_min q) (dr_iter q) (dr_htol q) (dr_retries q) (dr_dt q) (dr_sub q) (dr_tol q) (dr_norm q).

(** Starting s later with all tables s later gives the same states and the same accepted steps, s later -- or fails where the other
    fails. *)
Theorem C80_time_origin_is_a_convention : forall D slv s (calls : list driven) (q q' : sim body saved),
  m_t (s_model q') = m_t (s_model q) + s -> fst (m_saved (s_model q')) = fst (m_saved (s_model q)) + s ->
  snd (m_saved (s_model q')) = snd (m_saved (s_model q)) -> m_body (s_model q') = m_body (s_model q) -> m_ic (s_model q') = m_ic (s_model q) ->
  s_dt q' = s_dt q -> s_dts q' = s_dts q -> s_err q' = s_err q -> s_errs q' = s_errs q -> s_count q' = s_count q ->
  match drive_all D slv calls q, drive_all D slv (map (later_call s) calls) q' with
  | Some r, Some r' =>
      m_t (s_model r') = m_t (s_model r) + s /\ m_body (s_model r') = m_body (s_model r) /\ m_ic (s_model r') = m_ic (s_model r) /\
      m_saved (s_model r') = (fst (m_saved (s_model r)) + s, snd (m_saved (s_model r))) /\
      s_dt r' = s_dt r /\ s_dts r' = s_dts r /\ s_errs r' = s_errs r /\ s_count r' = s_count r
  | None, None => True
  | _, _ => False
  end.
Proof.
  intros D slv s calls q q' E1 E2 E3 E4 E5 E6 E7 E8 E9 E10.
  assert (Eq : q' = later_sim body saved s q).
  { destruct q' as [[t' ic' b' [sv1 sv2]] dt' dts' er' ers' ct'], q as [[t ic b [s1 s2]] dt dts er ers ct]. unfold later_sim, later_model.
    cbn [s_model m_t m_ic m_body m_saved s_dt s_dts s_err s_errs s_count fst snd] in *. subst. reflexivity. }
  subst q'. clear E1 E2 E3 E4 E5 E6 E7 E8 E9 E10.
  assert (One : forall c p, drive D slv (later_call s c) (later_sim body saved s p) = option_map (later_sim body saved s) (drive D slv c p)).
  { intros c p. unfold drive. apply sim_step_later. split; [|auto]. intros t. apply forced_later. }
  assert (All : forall l p, drive_all D slv (map (later_call s) l) (later_sim body saved s p) = option_map (later_sim body saved s) (drive_all D slv l p)).
  { unfold drive_all. induction l as [|c l IH]; intros p; [reflexivity|]. cbn [map fold_left bind]. rewrite One.
    destruct (drive D slv c p) as [p1|]; cbn [option_map bind]; [apply IH|].
    assert (Nn : forall l', fold_left (fun o c => bind o (drive D slv c)) l' None = None) by (induction l'; auto). rewrite !Nn. reflexivity. }
  rewrite All. destruct (drive_all D slv calls q) as [r|]; [|exact Logic.I]. cbn [option_map]. repeat split.
Qed.

(** An hour later: the network of C58 under a flood wave of three points, two adaptive steps with retries. *)
Definition wave : forcing := mkForcing [0; 600; 1800] (fun j => match j with O => [1/10; 2; 1/2] | _ => [0; 1/5; 0] end).
Definition still (v : R) : forcing := mkForcing [0; 7200] (fun _ => [v; v]).
Definition call_ex (dt : R) : driven := mkDriven 1 (still 1) wave (still 0) (fun _ => 1/2) (fun _ => 1/2) (fun _ => 1) 1 3 (1/1000) 2 dt 2 1 2%Z.
Example C80_example :
  let q := new_sim body saved demo_object 60 in
  exists r r', drive_all demo (gauss 3) [call_ex 60; call_ex 45] q = Some r /\
    drive_all demo (gauss 3) (map (later_call 3600) [call_ex 60; call_ex 45]) (later_sim body saved 3600 q) = Some r' /\
    m_t (s_model r') = m_t (s_model r) + 3600 /\ m_body (s_model r') = m_body (s_model r) /\ s_dts r' = s_dts r /\
    sampled 1 wave 300 0%nat = 21/20 /\ sampled 1 (later_forcing 3600 wave) 3900 0%nat = 21/20.
Proof.
  intros q.
  assert (Hw : healthy demo demo_object).
  { assert (W : watered demo rest_state).
    { intros i Hi. simpl in Hi. cbn [rest_state h_h demo d_Ik]. unfold rest_bed. do 5 (destruct i as [|i]; [simpl; lra|]). lia. }
    split; [exact W|]. split; [constructor|exact W]. }
  assert (T : forall c p, In c [call_ex 60; call_ex 45] -> healthy demo (s_model p) -> exists p', drive demo (gauss 3) c p = Some p' /\ healthy demo (s_model p')).
  { intros c p Hc Hp. unfold drive. apply simulation_step_total; auto; [apply demo_sound|apply gauss_solver|simpl; lia| | |].
    - destruct Hc as [<-|[<-|[]]]; simpl; auto.
    - destruct Hc as [<-|[<-|[]]]; simpl; lra.
    - intros t dt Hdt. split; [auto|]. destruct Hc as [<-|[<-|[]]]; (split; simpl; intros; lra). }
  destruct (T (call_ex 60) q (or_introl eq_refl) Hw) as (q1 & E1 & H1).
  destruct (T (call_ex 45) q1 (or_intror (or_introl eq_refl)) H1) as (q2 & E2 & _).
  pose proof (C80_time_origin_is_a_convention demo (gauss 3) 3600 [call_ex 60; call_ex 45] q (later_sim body saved 3600 q)
    eq_refl eq_refl eq_refl eq_refl eq_refl eq_refl eq_refl eq_refl eq_refl eq_refl) as X.
  assert (E : drive_all demo (gauss 3) [call_ex 60; call_ex 45] q = Some q2) by (unfold drive_all; cbn [fold_left bind]; rewrite E1; cbn [bind]; exact E2).
  rewrite E in X. destruct (drive_all demo (gauss 3) (map (later_call 3600) [call_ex 60; call_ex 45]) (later_sim body saved 3600 q)) as [r'|]; [|destruct X].
  destruct X as (X1 & X2 & _ & _ & _ & X3 & _ & _). exists q2, r'. split; [exact E|]. split; [reflexivity|]. split; [exact X1|]. split; [exact X2|]. split; [exact X3|].
  assert (W : sampled 1 wave 300 0%nat = 21/20).
  { unfold sampled, interpolate_sample. cbn [wave fo_t fo_col searchsorted]. 
    destruct (Rltb_spec 0 300); [|lra]. destruct (Rltb_spec 600 300); [lra|]. simpl.
    destruct (Reqb_spec (300 - 0 + (600 - 300)) 0); [lra|]. field. }
  split; [exact W|]. unfold sampled in *. replace 3900 with (300 + 3600) by ring.
  cbn [later_forcing fo_t fo_col] in *. rewrite sample_later. exact W.
Qed.
