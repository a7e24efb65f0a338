(** Property C77: what is not connected to a part of a model has no influence on it, and neither has the numbering. *)
From Coq Require Import ZArith.
From Verif Require Import Prelude M_Numerics M_Coeffs M_Recurrence M_Assembly M_Step M_Geometry M_Storage M_Controls M_Simulation M_Model
  S_Numerics S_Geometry S_Superlink S_Network S_Step S_Simulation S_Model S_Replay S_Mirror S_Embed P_Assembly P_Superlink P_Step P_Limits P_Simulation
  L_Model L_Gauss P_Model P_Replay L_Relate P_Resume L_Embed L_EmbedObject.

Section Runs.
Variable F : place.
Variables D D' : design.
Variables slv slv' : mat -> arr -> option arr.
Local Notation N := (d_net D).
Local Notation N' := (d_net D').
Hypothesis HD : sound D.
Hypothesis HD' : sound D'.
Hypothesis HT : tabled D.
Hypothesis HM : embedded_design F D D'.
Hypothesis Hslv : solver (n_M N) slv.
Hypothesis Hslv' : solver (n_M N') slv'.
Let HN := ed_net _ _ _ HM.

Lemma body_embedded (m m' : object) : embedded_object F D D' m m' -> embedded_body F D D' (m_body m) (m_body m').
Proof. intros [(_ & S & C) T T' _ _]. constructor; auto. Qed.

Lemma pass_embed i i' dt fi (m m' : object) : admissible D i dt -> admissible D' i' dt -> embedded_inputs F D D' i i' -> healthy D m -> healthy D' m' ->
  m_t m' = m_t m -> embedded_body F D D' (m_body m) (m_body m') -> (fi = false -> embedded_object F D D' m m') ->
  exists m1 m2 m1' m2',
    setup_step' body saved inputs save_body (fun _ i dt v => setup_body D i dt (v_st v)) fi i dt m = Some m1 /\
    solve_step' body saved inputs (fun i dt _ => solve_body D slv i dt) i dt m1 = Some m2 /\
    setup_step' body saved inputs save_body (fun _ i dt v => setup_body D' i dt (v_st v)) fi i' dt m' = Some m1' /\
    solve_step' body saved inputs (fun i dt _ => solve_body D' slv' i dt) i' dt m1' = Some m2' /\
    healthy D m2 /\ healthy D' m2' /\ embedded_object F D D' m2 m2'.
Proof.
  intros Ha Ha' Hi (W & Rc & Ws) (W' & Rc' & Ws') Et Al Hf. unfold setup_step'.
  set (m0 := if fi then save_state body saved save_body m else m). set (m0' := if fi then save_state body saved save_body m' else m').
  assert (B0 : m_body m0 = m_body m) by (unfold m0; destruct fi; reflexivity).
  assert (B0' : m_body m0' = m_body m') by (unfold m0'; destruct fi; reflexivity).
  assert (T0 : embedded_object F D D' m0 m0').
  { unfold m0, m0'. destruct fi; [|auto]. destruct Al as [S C U U']. constructor; cbn [save_state m_t m_body m_saved fst snd]; auto.
    - split; [exact Et|]. auto.
    - split; auto. }
  assert (S0 : watered D (v_st (snd (m_saved m0)))) by (unfold m0; destruct fi; auto).
  assert (S0' : watered D' (v_st (snd (m_saved m0')))) by (unfold m0'; destruct fi; auto).
  destruct (setup_body_total D HD i dt (v_st (snd (m_saved m0))) (m_body m) Ha W Rc) as (b1 & E1 & _ & R1 & Sv).
  destruct (setup_body_total D' HD' i' dt (v_st (snd (m_saved m0'))) (m_body m') Ha' W' Rc') as (b1' & E1' & _ & R1' & Sv').
  destruct (solve_body_total D HD slv Hslv i dt b1 Sv R1) as (b2 & E2 & W2 & R2 & _).
  destruct (solve_body_total D' HD' slv' Hslv' i' dt b1' Sv' R1') as (b2' & E2' & W2' & R2' & _).
  pose proof (setup_body_embed F D D' HD HD' HT HM i i' dt _ _ _ _ b1 b1' (proj1 Ha) Hi Al (proj1 (eo_saved _ _ _ _ _ T0)) Rc Rc' E1 E1') as Pr.
  pose proof (solve_body_embed F D D' HD HD' HM slv slv' i i' dt b1 b1' b2 b2' Hslv Hslv' Hi Pr Sv Sv' E2 E2') as [S C U U'].
  rewrite B0, B0', E1, E1'. cbn [bind].
  eexists. eexists. eexists. eexists. split; [reflexivity|].
  split; [unfold solve_step'; cbn [m_saved m_body m_t m_ic]; rewrite E2; reflexivity|]. split; [reflexivity|].
  split; [unfold solve_step'; cbn [m_saved m_body m_t m_ic]; rewrite E2'; reflexivity|].
  unfold healthy. cbn [m_body m_saved]. split; [auto|]. split; [auto|].
  destruct T0 as [(T & _) _ _ Tm Ts]. constructor; cbn [m_t m_body m_saved]; auto. split; [cbn [m_t]; congruence|]. auto.
Qed.

(** The test that ends the iteration, in the two models. *)
Definition same_end (tol : R) : Prop :=
  (tol <= 0 /\ (1 <= n_M N)%nat) \/ (forall j', (j' < n_M N')%nat -> exists j, (j < n_M N)%nat /\ pj F j = j').
Lemma below_embed tol (H K H' K' : arr) : same_end tol ->
  (forall j, (j < n_M N)%nat -> H' (pj F j) = H j + pz F) -> (forall j, (j < n_M N)%nat -> K' (pj F j) = K j + pz F) ->
  all_below (n_M N') tol H' K' = all_below (n_M N) tol H K.
Proof.
  intros Hs EH EK. unfold all_below. apply Bool.eq_iff_eq_true. rewrite !forallb_forall. destruct Hs as [[Ht HM1]|Hs].
  - pose proof (proj1 (en_j _ _ _ HN) 0%nat ltac:(lia)) as H0. split; intros X; exfalso.
    + specialize (X (pj F 0%nat) ltac:(apply in_seq; lia)). destruct (Rltb_spec (Rabs (H' (pj F 0%nat) - K' (pj F 0%nat))) tol) as [Y|Y]; [|discriminate].
      pose proof (Rabs_pos (H' (pj F 0%nat) - K' (pj F 0%nat))). lra.
    + specialize (X 0%nat ltac:(apply in_seq; lia)). destruct (Rltb_spec (Rabs (H 0%nat - K 0%nat)) tol) as [Y|Y]; [|discriminate].
      pose proof (Rabs_pos (H 0%nat - K 0%nat)). lra.
  - assert (E : forall j, (j < n_M N)%nat -> H' (pj F j) - K' (pj F j) = H j - K j) by (intros j Hj; rewrite EH, EK by auto; ring).
    split; intros X.
    + intros j Hj. apply in_seq in Hj. rewrite <- E by lia. apply X. apply in_seq. pose proof (proj1 (en_j _ _ _ HN) j ltac:(lia)). lia.
    + intros j' Hj'. apply in_seq in Hj'. destruct (Hs j' ltac:(lia)) as (j & Hj & <-). rewrite E by lia. apply X. apply in_seq. lia.
Qed.

Lemma iterate_embed n : forall i i' dt tol (H H' : arr) (m m' : object), admissible D i dt -> admissible D' i' dt -> embedded_inputs F D D' i i' -> same_end tol ->
  healthy D m -> healthy D' m' -> embedded_object F D D' m m' -> (forall j, (j < n_M N)%nat -> H' (pj F j) = H j + pz F) ->
  exists r r' p,
    iterate body saved inputs save_body (fun _ i dt v => setup_body D i dt (v_st v)) (fun i dt _ => solve_body D slv i dt)
       heads_of (n_M N) n i dt tol H m = Some (r, p) /\
    iterate body saved inputs save_body (fun _ i dt v => setup_body D' i dt (v_st v)) (fun i dt _ => solve_body D' slv' i dt)
       heads_of (n_M N') n i' dt tol H' m' = Some (r', p) /\
    healthy D r /\ healthy D' r' /\ embedded_object F D D' r r'.
Proof.
  induction n as [|n IH]; intros i i' dt tol H H' m m' Ha Ha' Hi Hs Hm Hm' Tw EH; cbn [iterate].
  { exists m, m', 0%nat. auto. }
  set (n0 := mkModel (m_t m - dt) (m_ic m - 1)%Z (m_body m) (m_saved m)). set (n0' := mkModel (m_t m' - dt) (m_ic m' - 1)%Z (m_body m') (m_saved m')).
  assert (T0 : embedded_object F D D' n0 n0').
  { destruct Tw as [(T & V) U U' S S']. constructor; cbn; auto. split; [cbn; congruence|exact V]. }
  destruct (pass_embed i i' dt false n0 n0' Ha Ha' Hi Hm Hm' (proj1 (eo_view _ _ _ _ _ T0)) (body_embedded _ _ T0) (fun _ => T0))
    as (m1 & m2 & m1' & m2' & E1 & E2 & E1' & E2' & H2 & H2' & T2).
  cbv zeta. rewrite E1, E1'. cbn [bind]. rewrite E2, E2'. cbn [bind].
  assert (EK : forall j, (j < n_M N)%nat -> heads_of (m_body m2') (pj F j) = heads_of (m_body m2) j + pz F)
    by apply (es_H _ _ _ _ _ (proj1 (proj2 (eo_view _ _ _ _ _ T2)))).
  rewrite (below_embed tol H (heads_of (m_body m2)) H' (heads_of (m_body m2')) Hs EH EK).
  destruct (all_below (n_M N) tol H (heads_of (m_body m2))).
  { exists m2, m2', 1%nat. auto. }
  destruct (IH i i' dt tol _ _ m2 m2' Ha Ha' Hi Hs H2 H2' T2 EK) as (r & r' & p & -> & -> & Hr & Hr' & Tr).
  cbn [bind fst snd]. exists r, r', (S p). auto.
Qed.

Lemma step_embed i i' dt n tol (m m' : object) : admissible D i dt -> admissible D' i' dt -> embedded_inputs F D D' i i' -> own_passes F D D' n tol ->
  healthy D m -> healthy D' m' -> m_t m' = m_t m -> embedded_body F D D' (m_body m) (m_body m') ->
  exists r r' p, object_step D slv i dt n tol m = Some (r, p) /\ object_step D' slv' i' dt n tol m' = Some (r', p) /\
    healthy D r /\ healthy D' r' /\ embedded_object F D D' r r'.
Proof.
  intros Ha Ha' Hi Ho Hm Hm' Et Al. unfold object_step, step in *.
  destruct (pass_embed i i' dt true m m' Ha Ha' Hi Hm Hm' Et Al) as (m1 & m2 & m1' & m2' & E1 & E2 & E1' & E2' & H2 & H2' & T2); [discriminate|].
  rewrite E1, E1'. cbn [bind]. rewrite E2, E2'. cbn [bind].
  destruct (Nat.ltb_spec 0 (n - 1)) as [Ln|]; [|exists m2, m2', 1%nat; auto].
  assert (Hs : same_end tol) by (destruct Ho as [Ho|Ho]; [lia|exact Ho]).
  assert (EK : forall j, (j < n_M N)%nat -> heads_of (m_body m2') (pj F j) = heads_of (m_body m2) j + pz F)
    by apply (es_H _ _ _ _ _ (proj1 (proj2 (eo_view _ _ _ _ _ T2)))).
  rewrite (below_embed tol (heads_of (m_body m2)) (h_H (v_st (snd (m_saved m2)))) _ _ Hs EK (es_H _ _ _ _ _ (proj1 (eo_saved _ _ _ _ _ T2)))).
  destruct (all_below (n_M N) tol (heads_of (m_body m2)) (h_H (v_st (snd (m_saved m2))))); [exists m2, m2', 1%nat; auto|].
  destruct (iterate_embed (n - 1) i i' dt tol _ _ m2 m2' Ha Ha' Hi Hs H2 H2' T2 EK) as (r & r' & p & -> & -> & Hr & Hr' & Tr).
  cbn [bind fst snd]. exists r, r', (S p). auto.
Qed.

Lemma load_embed s s' (m m' : object) : fst s' = fst s -> embedded_saved F D D' (snd s) (snd s') ->
  watered D (v_st (snd s)) -> watered D' (v_st (snd s')) -> healthy D m -> healthy D' m' -> embedded_object F D D' m m' ->
  exists r r', object_load D s m = Some r /\ object_load D' s' m' = Some r' /\ healthy D r /\ healthy D' r' /\ embedded_object F D D' r r'.
Proof.
  intros Et (Vs & [Vo Vw Vp]) W W' Hm Hm' [_ Tu Td Tm Ts].
  destruct (object_load_total D HD s m W Hm) as (r & E & Hr). destruct (object_load_total D' HD' s' m' W' Hm') as (r' & E' & Hr').
  exists r, r'. split; auto. split; auto. split; auto. split; auto.
  unfold object_load, load_state, load_body in E, E'.
  destruct (geometries D (restore D (snd s) (m_body m))) as [b|] eqn:G; [|discriminate].
  destruct (geometries D' (restore D' (snd s') (m_body m'))) as [b'|] eqn:G'; [|discriminate].
  cbn [bind] in E, E'. injection E as <-. injection E' as <-. cbn [m_t m_body m_saved].
  destruct (geometries_inv D _ _ G) as (_ & _ & _ & _ & G1 & G2 & G3 & G4 & _ & _ & G5 & G6 & _).
  destruct (geometries_inv D' _ _ G') as (_ & _ & _ & _ & G1' & G2' & G3' & G4' & _ & _ & G5' & G6' & _).
  constructor; cbn [m_t m_body m_saved]; auto; [| rewrite G5, G5' | rewrite G6, G6']; cbn [restore b_thu b_thd]; auto.
  split; [exact Et|]. cbn [m_body]. rewrite G1, G1', G2, G2', G3, G3', G4, G4'. cbn [restore b_st b_Qo b_Qw b_Qp].
  split; [exact Vs|]. destruct (ed_or _ _ _ HM) as ((Of & _) & _). destruct (ed_we _ _ _ HM) as ((Wf & _) & _). destruct (ed_pu _ _ _ HM) as ((Pf & _) & _).
  constructor.
  - intros o Ho. pose proof (Of o Ho). destruct (Nat.eqb_spec (o_n (d_or D)) 0); [lia|]. destruct (Nat.eqb_spec (o_n (d_or D')) 0); [lia|auto].
  - intros o Ho. pose proof (Wf o Ho). destruct (Nat.eqb_spec (w_n (d_we D)) 0); [lia|]. destruct (Nat.eqb_spec (w_n (d_we D')) 0); [lia|auto].
  - intros o Ho. pose proof (Pf o Ho). destruct (Nat.eqb_spec (p_n (d_pu D)) 0); [lia|]. destruct (Nat.eqb_spec (p_n (d_pu D')) 0); [lia|auto].
Qed.

Lemma perform_embed a a' (m m' : object) : allowed D a -> allowed D' a' -> embedded_action F D D' a a' -> healthy D m -> healthy D' m' ->
  embedded_object F D D' m m' ->
  exists r r', perform D slv a m = Some r /\ perform D' slv' a' m' = Some r' /\ healthy D r /\ healthy D' r' /\ embedded_object F D D' r r'.
Proof.
  intros Ha Ha' Hx Hm Hm' Tw. destruct Hx as [i i' dt n tol Hi Ho| |t v v' Hv|]; cbn [perform allowed] in *.
  - destruct (step_embed i i' dt n tol m m' Ha Ha' Hi Ho Hm Hm' (proj1 (eo_view _ _ _ _ _ Tw)) (body_embedded _ _ Tw)) as (r & r' & p & -> & -> & X).
    cbn [bind fst]. eauto.
  - exists (object_save m), (object_save m'). split; auto. split; auto.
    destruct Hm as (? & ? & ?). destruct Hm' as (? & ? & ?). destruct Tw as [(T & S & C) U U' _ _].
    split; [split; [|split]; auto|]. split; [split; [|split]; auto|].
    constructor; cbn [object_save save_state m_t m_body m_saved fst snd]; auto; split; auto.
  - apply (load_embed (t, v) (t, v') m m'); auto.
  - apply (load_embed (m_saved m) (m_saved m') m m'); auto; try apply Tw; [apply Hm|apply Hm'].
Qed.

(** C77: let a model D be found inside a larger one D', under any numbering of superjunctions, superlinks, orifices, weirs and
    pumps, so that nothing else of D' ends at those of its superjunctions that have no prescribed head.  Then every history of
    steps, saves and loads that gives the part the same inputs gives it the same clock, heads, depths, flows and control
    flows, whatever the rest of D' contains and whatever inputs it gets (heads are shifted when D' is measured from another
    datum). *)
Theorem C77_only_what_is_connected_matters : forall (m m' : object) l l',
  healthy D m -> healthy D' m' -> embedded_object F D D' m m' ->
  Forall2 (embedded_action F D D') l l' -> (forall a, In a l -> allowed D a) -> (forall a, In a l' -> allowed D' a) ->
  exists r r', perform_all D slv l m = Some r /\ perform_all D' slv' l' m' = Some r' /\ embedded_view F D D' r r'.
Proof.
  intros m m' l l' Hm Hm' Tw HF. revert m m' Hm Hm' Tw. induction HF as [|a a' l l' Hx HF IH]; intros m m' Hm Hm' Tw Hl Hl'; cbn [perform_all].
  { exists m, m'. split; auto. split; auto. apply Tw. }
  destruct (perform_embed a a' m m') as (r & r' & -> & -> & Hr & Hr' & Tr); auto; [apply Hl; now left|apply Hl'; now left|]. cbn [bind].
  apply IH; auto; intros; [apply Hl|apply Hl']; now right.
Qed.
End Runs.
