(** Property C58: on a sound design no history of steps, iterations, saves and loads ever fails. *)
From Coq Require Import ZArith.
From Verif Require Import Prelude M_Numerics M_Coeffs M_Recurrence M_Assembly M_Step M_Geometry M_Storage M_Controls M_Simulation M_Model
  S_Numerics S_Geometry S_Superlink S_Network S_Step S_Simulation S_Model P_Assembly P_Superlink P_Step P_Limits P_Simulation L_Model L_Gauss.

Section Runs.
Variable D : design.
Variable slv : mat -> arr -> option arr.
Local Notation N := (d_net D).

(** One action of the user. *)
Definition perform (a : action) (m : object) : option object :=
  match a with
  | Step i dt n tol => do r <- object_step D slv i dt n tol m; Some (fst r)
  | Save => Some (object_save m)
  | Load t v => object_load D (t, v) m
  | Restore => object_load D (m_saved m) m
  end.
Fixpoint perform_all (l : list action) (m : object) : option object :=
  match l with [] => Some m | a :: l => do m <- perform a m; perform_all l m end.

(** A constructed object: system arrays still as allocated, links not empty. *)
Definition constructed (m : object) : Prop :=
  b_sys (m_body m) = fresh_system /\ watered D (b_st (m_body m)) /\ watered D (v_st (snd (m_saved m))).

Definition healthy (m : object) : Prop :=
  watered D (b_st (m_body m)) /\ reached D (b_sys (m_body m)) /\ watered D (v_st (snd (m_saved m))).

Hypothesis HD : sound D.
Hypothesis Hslv : solver (n_M N) slv.

Lemma pass_total i dt fi (m : object) : admissible D i dt -> healthy m ->
  exists m1 m2,
    setup_step' body saved inputs save_body (fun _ i dt v => setup_body D i dt (v_st v)) fi i dt m = Some m1 /\
    solve_step' body saved inputs (fun i dt _ => solve_body D slv i dt) i dt m1 = Some m2 /\
    healthy m2 /\ within_limits N (b_st (m_body m2)).
Proof.
  intros Ha (W & Rs & Ws). unfold setup_step'.
  set (m0 := if fi then save_state body saved save_body m else m).
  assert (B0 : m_body m0 = m_body m) by (unfold m0; destruct fi; reflexivity).
  assert (S0 : watered D (v_st (snd (m_saved m0)))) by (unfold m0; destruct fi; auto).
  rewrite B0. destruct (setup_body_total D HD i dt (v_st (snd (m_saved m0))) (m_body m) Ha W Rs) as (b1 & -> & E1 & R1 & Sv).
  cbn [bind]. destruct (solve_body_total D HD slv Hslv i dt b1 Sv R1) as (b2 & E2 & W2 & R2 & L2).
  eexists; eexists; split; [reflexivity|]. unfold solve_step'. cbn [m_saved m_body m_t m_ic]. rewrite E2. cbn [bind].
  split; [reflexivity|]. cbn [m_body m_saved]. split; auto. unfold healthy. auto.
Qed.

Lemma iterate_total n : forall i dt tol H (m : object), admissible D i dt -> healthy m -> within_limits N (b_st (m_body m)) ->
  exists r, iterate body saved inputs save_body (fun _ i dt v => setup_body D i dt (v_st v)) (fun i dt _ => solve_body D slv i dt)
       heads_of (n_M N) n i dt tol H m = Some r /\ healthy (fst r) /\ within_limits N (b_st (m_body (fst r))).
Proof.
  induction n as [|n IH]; intros i dt tol H m Ha Hm Lm; cbn [iterate]; [eexists; split; [reflexivity|auto]|].
  destruct (pass_total i dt false (mkModel (m_t m - dt) (m_ic m - 1)%Z (m_body m) (m_saved m)) Ha Hm) as (m1 & m2 & E1 & E2 & H2 & L2).
  cbv zeta. rewrite E1. cbn [bind]. rewrite E2. cbn [bind].
  destruct (all_below _ _ _ _); [eexists; split; [reflexivity|auto]|].
  destruct (IH i dt tol (heads_of (m_body m2)) m2 Ha H2 L2) as (r & -> & Hr & Lr). cbn [bind].
  eexists; split; [reflexivity|auto].
Qed.

Lemma object_step_total i dt n tol (m : object) : admissible D i dt -> healthy m ->
  exists r, object_step D slv i dt n tol m = Some r /\ healthy (fst r) /\ within_limits N (b_st (m_body (fst r))).
Proof.
  intros Ha Hm. unfold object_step, step. destruct (pass_total i dt true m Ha Hm) as (m1 & m2 & E1 & E2 & H2 & L2).
  rewrite E1. cbn [bind]. rewrite E2. cbn [bind].
  destruct (Nat.ltb 0 (n - 1)); [|eexists; split; [reflexivity|auto]].
  destruct (all_below _ _ _ _); [eexists; split; [reflexivity|auto]|].
  destruct (iterate_total (n - 1) i dt tol (heads_of (m_body m2)) m2 Ha H2 L2) as (r & -> & Hr & Lr). cbn [bind].
  eexists; split; [reflexivity|auto].
Qed.

Lemma object_load_total s (m : object) : watered D (v_st (snd s)) -> healthy m ->
  exists m', object_load D s m = Some m' /\ healthy m'.
Proof.
  intros W (Wm & Rm & Sm). unfold object_load, load_state, load_body.
  destruct (geometries_total D HD (restore D (snd s) (m_body m)) W) as (b & -> & _ & _ & Es & Er & _). cbn [bind].
  eexists; split; [reflexivity|]. unfold healthy. cbn [m_body m_saved]. rewrite Es, Er. auto.
Qed.

Lemma perform_total a (m : object) : allowed D a -> healthy m -> exists m', perform a m = Some m' /\ healthy m'.
Proof.
  destruct a as [i dt n tol| |t v|]; simpl; intros Ha Hm.
  - destruct (object_step_total i dt n tol m Ha Hm) as (r & -> & Hr & _). cbn [bind]. eauto.
  - exists (object_save m). split; auto. destruct Hm as (W & R & S). repeat split; auto.
  - now apply object_load_total.
  - apply object_load_total; auto. apply Hm.
Qed.

(** C58: for every sound design, every linear solver, every constructed object and every finite history of allowed
    actions (steps with any number of iterations and any tolerance, saves, loads of any saved or foreign state, in any
    order), every action succeeds: no division by zero, no singular system, no missing table entry.  A final step leaves
    all heads and depths within their limits. *)
Theorem C58_no_history_fails : forall (m : object) history,
  constructed m -> (forall a, In a history -> allowed D a) ->
  exists m', perform_all history m = Some m' /\
    (forall i dt n tol, admissible D i dt ->
       exists m'' passes, object_step D slv i dt n tol m' = Some (m'', passes) /\ within_limits N (b_st (m_body m''))).
Proof.
  intros m history (Es & W & Ws) Hall.
  assert (Hm : healthy m) by (split; [auto|split; [|auto]]; rewrite Es; constructor).
  clear Es W Ws. revert m Hm. induction history as [|a l IH]; intros m Hm; simpl.
  - exists m. split; auto. intros i dt n tol Ha. destruct (object_step_total i dt n tol m Ha Hm) as ([m'' p] & E & _ & L). eauto.
  - destruct (perform_total a m) as (m1 & -> & H1); auto; [apply Hall; now left|]. cbn [bind].
    apply IH; auto. intros; apply Hall; now right.
Qed.

(** ** Simulation on top of the object *)
Local Notation sim_step := (sim_step body saved inputs save_body (load_body D) (fun _ i dt v => setup_body D i dt (v_st v))
  (fun i dt _ => solve_body D slv i dt) heads_of (fun v => h_H (v_st v)) (n_M N)).

Lemma normed_error_some norm raw Hc Hp : (0 < n_M N)%nat -> In norm [0; 1; 2; -1]%Z ->
  exists e, normed_error norm (n_M N) raw Hc Hp = Some e.
Proof.
  intros HM Hn. unfold normed_error. destruct (Nat.eqb_spec (n_M N) 0); [lia|].
  destruct Hn as [<-|[<-|[<-|[<-|[]]]]]; cbn [Z.eqb Pos.eqb]; cbv zeta; eauto; destruct (existsb _ _); eauto.
Qed.

Lemma simulation_step_total : forall retries c dt subdivisions tol norm (s : sim body saved),
  (0 < n_M N)%nat -> In norm [0; 1; 2; -1]%Z -> 0 < dt -> (forall t dt, 0 < dt -> admissible D (c_inputs c t) dt) ->
  healthy (s_model s) ->
  exists s', sim_step retries c dt subdivisions tol norm s = Some s' /\ healthy (s_model s').
Proof.
  intros retries c dt sub tol norm s HM Hn Hdt Hc Hs. revert dt tol norm s Hn Hdt Hs.
  assert (MS : forall dt (m : object), 0 < dt -> healthy m ->
    exists m', model_step body saved inputs save_body (fun _ i dt v => setup_body D i dt (v_st v))
      (fun i dt _ => solve_body D slv i dt) heads_of (fun v => h_H (v_st v)) (n_M N) c dt m = Some m' /\ healthy m').
  { intros dt m Hdt Hm. unfold model_step.
    destruct (object_step_total (c_inputs c (m_t m + dt)) dt (c_num_iter c) (c_head_tol c) m (Hc _ _ Hdt) Hm) as (r & E & Hr & _).
    unfold object_step in E. rewrite E. cbn [bind]. eauto. }
  assert (FS : forall n dt (m : object), 0 < dt -> healthy m ->
    exists m', fine_steps body saved inputs save_body (fun _ i dt v => setup_body D i dt (v_st v))
      (fun i dt _ => solve_body D slv i dt) heads_of (fun v => h_H (v_st v)) (n_M N) c n dt m = Some m' /\ healthy m').
  { intros n dt m Hdt Hm. unfold fine_steps.
    destruct (for_opt_total (fun _ m => healthy m) n (fun _ m => model_step body saved inputs save_body (fun _ i dt v => setup_body D i dt (v_st v))
      (fun i dt _ => solve_body D slv i dt) heads_of (fun v => h_H (v_st v)) (n_M N) c dt m) m) as (m' & E & H'); eauto. }
  assert (AT : forall dt norm (m : object), In norm [0; 1; 2; -1]%Z -> 0 < dt -> healthy m ->
    exists m' init e, attempt body saved inputs save_body (load_body D) (fun _ i dt v => setup_body D i dt (v_st v))
      (fun i dt _ => solve_body D slv i dt) heads_of (fun v => h_H (v_st v)) (n_M N) c dt sub norm m = Some (m', init, e) /\
      healthy m' /\ watered D (v_st (snd init))).
  { intros dt norm m Hn Hdt Hm. unfold attempt. destruct (MS dt m Hdt Hm) as (m1 & -> & H1). cbn [bind]. cbv zeta.
    assert (W1 : watered D (v_st (snd (m_saved m1)))) by apply H1.
    destruct (Nat.ltb_spec 1 sub) as [L|L]; [|eexists; eexists; eexists; split; [reflexivity|auto]].
    destruct (object_load_total (m_saved m1) m1 W1 H1) as (m2 & E2 & H2). unfold object_load in E2. rewrite E2. cbn [bind].
    destruct (FS sub (dt / INR sub) m2) as (m3 & -> & H3); auto.
    { apply Rmult_lt_0_compat; auto. apply Rinv_0_lt_compat. apply lt_0_INR. lia. }
    cbn [bind].
    match goal with |- context [normed_error ?a ?b ?c ?d ?e] => destruct (normed_error_some a c d e HM Hn) as (er & ->) end.
    cbn [bind]. eexists; eexists; eexists; split; [reflexivity|auto]. }
  induction retries as [|r IH]; intros dt tol norm s Hn Hdt Hs; cbn [M_Simulation.sim_step];
    destruct (AT dt norm (s_model s) Hn Hdt Hs) as (m' & init & e & -> & Hm' & Wi); cbn [bind]; cbv zeta.
  - eexists; split; [reflexivity|]. auto.
  - destruct (too_large e tol && Rltb (c_min_dt c) (/ 2 * dt))%bool; [|eexists; split; [reflexivity|auto]].
    cbn [s_model]. destruct (object_load_total init m' Wi Hm') as (m2 & E2 & H2). unfold object_load in E2. rewrite E2. cbn [bind].
    match goal with |- context [M_Simulation.sim_step _ _ _ _ _ _ _ _ _ _ r c (/ 2 * dt) sub 1 2%Z ?s0] =>
      destruct (IH (/ 2 * dt) 1 2%Z s0) as (s' & -> & Hs') end; auto.
    + simpl; auto.
    + lra.
    + cbn [bind]. eexists; split; [reflexivity|]. auto.
Qed.

(** C58: the adaptive stepper never fails either, over any number of calls: any number of retries and subdivisions, any
    tolerance and minimum step, any of the four norms; with inputs that are admissible at every time. *)
Theorem C58_simulation_never_fails : forall (m m' : object) history dt0 (calls : list (call inputs)),
  (0 < n_M N)%nat -> constructed m -> (forall a, In a history -> allowed D a) -> perform_all history m = Some m' ->
  (forall r c dt sub tol norm, In (Call inputs r c dt sub tol norm) calls ->
     In norm [0; 1; 2; -1]%Z /\ 0 < dt /\ (forall t dt, 0 < dt -> admissible D (c_inputs c t) dt)) ->
  exists s', fold_left (fun o q => do s <- o; match q with Call _ r c dt sub tol norm => sim_step r c dt sub tol norm s end) calls
               (Some (new_sim body saved m' dt0)) = Some s'.
Proof.
  intros m m' history dt0 calls HM (Es & W & Ws) Hall Ep Hc.
  assert (Hm : healthy m) by (split; [auto|split; [|auto]]; rewrite Es; constructor).
  assert (Hm' : healthy m').
  { clear Es W Ws Hc. revert m Hm Ep. induction history as [|a l IH]; simpl; intros m Hm Ep; [injection Ep as <-; auto|].
    destruct (perform_total a m) as (m1 & E1 & H1); auto; [apply Hall; now left|]. rewrite E1 in Ep. cbn [bind] in Ep.
    apply (IH (fun x Hx => Hall x (or_intror Hx)) m1); auto. }
  assert (Hs : healthy (s_model (new_sim body saved m' dt0))) by exact Hm'. clear -HD Hslv HM Hs Hc.
  revert Hs. generalize (new_sim body saved m' dt0) as s.
  induction calls as [|[r c dt sub tol norm] l IH]; intros s Hs; cbn [fold_left]; [eauto|].
  destruct (Hc r c dt sub tol norm) as (Hn & Hdt & Hi); [now left|].
  destruct (simulation_step_total r c dt sub tol norm s HM Hn Hdt Hi Hs) as (s1 & E1 & H1). cbn [bind]. rewrite E1.
  apply IH; auto. intros; eapply Hc; right; eauto.
Qed.
End Runs.

(** ** Witness: two superlinks (a floodplain and a circular pipe among the sections), three junctions (constant area,
    sloping functional storage, table), a circular orifice, a weir and a pump. *)
Definition demo : design :=
  mkDesign rest_net (fun i => if Nat.leb i 2 then i else S i)
    (fun i => match i with
              | O => Regular {| shape := 10%nat; g1 := 5; g2 := 1; g3 := 1; g4 := 2; g5 := 1; g6 := 3; g7 := 1 |}
              | 1%nat => Regular {| shape := 1%nat; g1 := 1; g2 := 1/1000; g3 := 0; g4 := 0; g5 := 0; g6 := 0; g7 := 0 |}
              | 2%nat => Irregular [0; 1; 3] [0; 1; 4] [1; 1; 2] [1; 3; 8] [0; 1/3; 1/2]
              | _ => Regular {| shape := 6%nat; g1 := 2; g2 := 1; g3 := 0; g4 := 0; g5 := 0; g6 := 0; g7 := 0 |}
              end)
    (fun _ _ _ _ => 0)
    (fun j => match j with O => Functional 0 0 5 | 1%nat => Functional 2 (1/2) 0 | _ => Tabular [0; 1] [3; 4] end)
    (mkOrifices 1 (fun _ => 0%nat) (fun _ => 1%nat) zeros (fun _ => 1/2) (fun _ => 0) (fun _ => 1) (fun _ => 1) (fun _ => false))
    (fun _ => 1%nat) (fun _ => 1) zeros zeros
    (mkWeirs 1 (fun _ => 1%nat) (fun _ => 2%nat) (fun _ => 1) (fun _ => 1) (fun _ => 2) (fun _ => 1) (fun _ => 1) (fun _ => 1))
    (mkPumps 1 (fun _ => 2%nat) (fun _ => 0%nat) (fun _ => 0) (fun _ => 9) (fun _ => 0) (fun _ => 10) (fun _ => 1) (fun _ => 2)).
Definition demo_inputs : inputs := mkInputs (fun _ => 1) (fun _ => 1/10) zeros (fun _ => 1/2) (fun _ => 1/2) (fun _ => 1).
Definition geom0 : geom := {| gm_A := 0; gm_Pe := 0; gm_R := 0; gm_B := 0 |}.
Definition setup0 : setup :=
  mkSetup (mkMom zeros zeros zeros zeros) zeros zeros (mkFwd zeros zeros zeros zeros) (mkBwd zeros zeros zeros zeros)
          (fun _ => mkHead 0 0 0) (fun _ => mkHead 0 0 0).
(** Work arrays still empty; the submergence indicators start at 1 (superlink.py:701-702). *)
Definition body0 (st : hstate) : body :=
  mkBody st zeros zeros zeros (fun _ => geom0) (fun _ => geom0) (fun _ => geom0) zeros zeros zeros (fun _ => 1) (fun _ => 1) setup0
         fresh_system.
Definition demo_object : object :=
  mkModel 0 0%Z (body0 rest_state) (0, save_body (body0 rest_state)).

Lemma small_ascending2 a b : a < b -> ascending [a; b].
Proof.
  intros H i j x y Hij Hi Hj. destruct i as [|i]; [|destruct j as [|[|j]]; try lia; destruct j; discriminate].
  destruct j as [|[|j]]; [lia| |destruct j; discriminate]. simpl in *. injection Hi as <-. injection Hj as <-. auto.
Qed.
Lemma small_ascending3 a b c : a < b -> b < c -> ascending [a; b; c].
Proof.
  intros H H' i j x y Hij Hi Hj. destruct j as [|[|[|j]]]; [lia| | |destruct j; discriminate].
  - assert (i = 0%nat) by lia. subst i. simpl in *. injection Hi as <-. injection Hj as <-. auto.
  - destruct i as [|[|i]]; [| |lia]; simpl in *; injection Hi as <-; injection Hj as <-; lra.
Qed.

Lemma demo_sound : sound demo.
Proof.
  constructor.
  - exact (proj1 rest_net_ok).
  - reflexivity.
  - simpl. lra.
  - intros i Hi. simpl in Hi. split.
    + destruct i as [|[|[|i]]]; simpl; try lra; [].
      split; [|split; [simpl; lia|split; [reflexivity|split; [reflexivity|split; [reflexivity|split; [reflexivity|split; [reflexivity|]]]]]]].
        { exact (small_ascending3 0 1 3 ltac:(lra) ltac:(lra)). }
        split; [|split]; intros k v Hv; do 3 (destruct k as [|k]; [simpl in Hv; injection Hv as <-; split; [lra|intros; try lia; lra]|]);
          destruct k; discriminate.
    + simpl. repeat split; try lra. destruct (Nat.eqb i 1); lia.
  - simpl; intros; lra.
  - simpl; intros; lra.
  - intros j Hj. simpl in Hj. destruct j as [|[|j]]; simpl; try lra. split; [|split; [discriminate|split; [reflexivity|]]].
    + exact (small_ascending2 0 1 ltac:(lra)).
    + intros k v Hv. do 2 (destruct k as [|k]; [simpl in Hv; injection Hv as <-; lra|]). destruct k; discriminate.
  - split; [intros k Hk; simpl in *; lia|simpl; intros; lra].
  - intros k Hk; simpl in *; lia.
  - split; [intros k Hk; simpl in *; lia|simpl; intros; lra].
Qed.

(** The hypotheses of C58 are met, and the history contains iterated steps and a rollback. *)
Example C58_example :
  sound demo /\ solver 3 (gauss 3) /\ constructed demo demo_object /\
  (forall dt, 0 < dt -> admissible demo demo_inputs dt) /\
  exists m', perform_all demo (gauss 3) [Step demo_inputs 60 5 (1/1000); Save; Step demo_inputs 30 1 0; Restore; Step demo_inputs 10 8 0]
               demo_object = Some m'.
Proof.
  assert (W : watered demo rest_state).
  { intros i Hi. simpl in Hi. cbn [rest_state h_h demo d_Ik]. unfold rest_bed.
    do 5 (destruct i as [|i]; [simpl; lra|]). lia. }
  assert (C : constructed demo demo_object) by (split; [reflexivity|split; exact W]).
  assert (A : forall dt, 0 < dt -> admissible demo demo_inputs dt).
  { intros dt Hdt. split; auto. simpl. split; intros; lra. }
  split; [exact demo_sound|]. split; [apply gauss_solver|]. split; [exact C|]. split; [exact A|].
  destruct (C58_no_history_fails demo (gauss 3) demo_sound (gauss_solver 3) demo_object
    [Step demo_inputs 60 5 (1/1000); Save; Step demo_inputs 30 1 0; Restore; Step demo_inputs 10 8 0] C) as (m' & E & _); [|eauto].
  intros a [<-|[<-|[<-|[<-|[<-|[]]]]]]; simpl; auto; apply A; lra.
Qed.
