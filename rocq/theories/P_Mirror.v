(** Property C74: the direction in which a superlink is entered is only a naming convention. *)
From Coq Require Import ZArith.
From Verif Require Import Prelude M_Numerics M_Coeffs M_Recurrence M_Assembly M_Step M_Geometry M_Storage M_Controls M_Simulation M_Model
  S_Numerics S_Geometry S_Superlink S_Network S_Step S_Simulation S_Model S_Replay S_Mirror P_Assembly P_Superlink P_Step P_Limits P_Simulation
  L_Model L_Gauss P_Model P_Replay L_Relate P_Resume L_Mirror L_MirrorStep L_MirrorObject.

Section Runs.
Variable rv : nat -> bool.
Variables D D' : design.
Variables slv slv' : mat -> arr -> option arr.
Local Notation N := (d_net D).
Local Notation N' := (d_net D').

(** No pass of the step leaves an internal depth of a turned superlink on a limit where the order of reconstruction would
    matter ([object_step] with at most p iterations stops after the first p passes). *)
Definition calm_step (i : inputs) (dt : R) (n : nat) (tol : R) (m : object) : Prop :=
  forall p r q, (p <= n)%nat -> object_step D slv i dt p tol m = Some (r, q) -> order_free rv N (b_st (m_body r)).
Fixpoint calm (l : list action) (m : object) : Prop :=
  match l with
  | [] => True
  | a :: l =>
      match a with Step i dt n tol => calm_step i dt n tol m | _ => True end /\
      (forall r, perform D slv a m = Some r -> calm l r)
  end.

Hypothesis HD : sound D.
Hypothesis HD' : sound D'.
Hypothesis HT : tabled D.
Hypothesis HM : mirrored_design rv D D'.
Hypothesis Hslv : solver (n_M N) slv.
Hypothesis Hslv' : solver (n_M N') slv'.
Let HN := md_net _ _ _ HM.

Lemma body_of (m m' : object) : mirrored_object rv D m m' -> mirrored_body rv D (m_body m) (m_body m').
Proof. intros [(_ & S & C) T T' _ _]. constructor; auto. Qed.

(** One pass; the state after it must be free of limits. *)
Lemma pass_mirror i i' dt fi (m m' : object) : admissible D i dt -> admissible D' i' dt -> mirrored_inputs rv D i i' -> healthy D m -> healthy D' m' ->
  m_t m' = m_t m -> mirrored_body rv D (m_body m) (m_body m') -> (fi = false -> mirrored_object rv D m m') ->
  exists m1 m2 m1' m2',
    setup_step' body saved inputs save_body (fun _ i dt v => setup_body D i dt (v_st v)) fi i dt m = Some m1 /\
    solve_step' body saved inputs (fun i dt _ => solve_body D slv i dt) i dt m1 = Some m2 /\
    setup_step' body saved inputs save_body (fun _ i dt v => setup_body D' i dt (v_st v)) fi i' dt m' = Some m1' /\
    solve_step' body saved inputs (fun i dt _ => solve_body D' slv' i dt) i' dt m1' = Some m2' /\
    healthy D m2 /\ healthy D' m2' /\ (order_free rv N (b_st (m_body m2)) -> mirrored_object rv D m2 m2').
Proof.
  intros Ha Ha' Hi (W & Rc & Ws) (W' & Rc' & Ws') Et Al Hf. unfold setup_step'.
  set (m0 := if fi then save_state body saved save_body m else m). set (m0' := if fi then save_state body saved save_body m' else m').
  assert (B0 : m_body m0 = m_body m) by (unfold m0; destruct fi; reflexivity).
  assert (B0' : m_body m0' = m_body m') by (unfold m0'; destruct fi; reflexivity).
  assert (T0 : mirrored_object rv D m0 m0').
  { unfold m0, m0'. destruct fi; [|auto]. destruct Al as [S C U U']. constructor; cbn [save_state m_t m_body m_saved fst snd]; auto.
    - split; [exact Et|]. auto.
    - split; auto. }
  assert (S0 : watered D (v_st (snd (m_saved m0)))) by (unfold m0; destruct fi; auto).
  assert (S0' : watered D' (v_st (snd (m_saved m0')))) by (unfold m0'; destruct fi; auto).
  destruct (setup_body_total D HD i dt (v_st (snd (m_saved m0))) (m_body m) Ha W Rc) as (b1 & E1 & _ & R1 & Sv).
  destruct (setup_body_total D' HD' i' dt (v_st (snd (m_saved m0'))) (m_body m') Ha' W' Rc') as (b1' & E1' & _ & R1' & Sv').
  destruct (solve_body_total D HD slv Hslv i dt b1 Sv R1) as (b2 & E2 & W2 & R2 & _).
  destruct (solve_body_total D' HD' slv' Hslv' i' dt b1' Sv' R1') as (b2' & E2' & W2' & R2' & _).
  destruct (setup_body_mirror rv D D' HD HD' HT HM i i' dt _ _ _ _ b1 b1' (proj1 Ha) Hi Al (proj1 (mo_saved _ _ _ _ T0)) W W' Rc Rc' E1 E1') as (G & G' & Pr).
  assert (Hs2 : solver (n_M N) slv') by (rewrite <- (mn_M _ _ _ HN); exact Hslv').
  pose proof (solve_body_mirror rv D D' HD HM slv slv' i i' dt b1 b1' G G' b2 b2' Hslv Hs2 Hi Pr Sv Sv' E2 E2') as Al2.
  rewrite B0, B0', E1, E1'. cbn [bind].
  eexists. eexists. eexists. eexists. split; [reflexivity|].
  split; [unfold solve_step'; cbn [m_saved m_body m_t m_ic]; rewrite E2; reflexivity|]. split; [reflexivity|].
  split; [unfold solve_step'; cbn [m_saved m_body m_t m_ic]; rewrite E2'; reflexivity|].
  unfold healthy. cbn [m_body m_saved]. split; [auto|]. split; [auto|]. intros OF. destruct (Al2 OF) as [S C U U'].
  destruct T0 as [(T & _) _ _ Tm Ts]. constructor; cbn [m_t m_body m_saved]; auto. split; [cbn [m_t]; congruence|]. auto.
Qed.

Lemma iterate_mirror n : forall i i' dt tol (H H' : arr) (m m' : object), admissible D i dt -> admissible D' i' dt -> mirrored_inputs rv D i i' ->
  healthy D m -> healthy D' m' -> mirrored_object rv D m m' -> (forall j, (j < n_M N)%nat -> H' j = H j) ->
  (forall p r q, (p <= n)%nat -> iterate body saved inputs save_body (fun _ i dt v => setup_body D i dt (v_st v)) (fun i dt _ => solve_body D slv i dt)
       heads_of (n_M N) p i dt tol H m = Some (r, q) -> order_free rv N (b_st (m_body r))) ->
  exists r r' p,
    iterate body saved inputs save_body (fun _ i dt v => setup_body D i dt (v_st v)) (fun i dt _ => solve_body D slv i dt)
       heads_of (n_M N) n i dt tol H m = Some (r, p) /\
    iterate body saved inputs save_body (fun _ i dt v => setup_body D' i dt (v_st v)) (fun i dt _ => solve_body D' slv' i dt)
       heads_of (n_M N') n i' dt tol H' m' = Some (r', p) /\
    healthy D r /\ healthy D' r' /\ mirrored_object rv D r r'.
Proof.
  induction n as [|n IH]; intros i i' dt tol H H' m m' Ha Ha' Hi Hm Hm' Tw EH Cl; cbn [iterate].
  { exists m, m', 0%nat. auto. }
  set (n0 := mkModel (m_t m - dt) (m_ic m - 1)%Z (m_body m) (m_saved m)). set (n0' := mkModel (m_t m' - dt) (m_ic m' - 1)%Z (m_body m') (m_saved m')).
  assert (T0 : mirrored_object rv D n0 n0').
  { destruct Tw as [(T & V) U U' S S']. constructor; cbn; auto. split; [cbn; congruence|exact V]. }
  destruct (pass_mirror i i' dt false n0 n0' Ha Ha' Hi Hm Hm' (proj1 (mo_view _ _ _ _ T0)) (body_of _ _ T0) (fun _ => T0))
    as (m1 & m2 & m1' & m2' & E1 & E2 & E1' & E2' & H2 & H2' & T2).
  cbv zeta. rewrite E1, E1'. cbn [bind]. rewrite E2, E2'. cbn [bind].
  assert (OF : order_free rv N (b_st (m_body m2))).
  { pose proof (Cl 1%nat) as C1. cbn [iterate] in C1. cbv zeta in C1. fold n0 in C1. rewrite E1 in C1. cbn [bind] in C1. rewrite E2 in C1. cbn [bind] in C1.
    destruct (all_below _ _ _ _); eapply C1; try reflexivity; lia. }
  specialize (T2 OF).
  assert (EK : forall j, (j < n_M N)%nat -> heads_of (m_body m2') j = heads_of (m_body m2) j) by apply (ms_H _ _ _ _ (proj1 (proj2 (mo_view _ _ _ _ T2)))).
  rewrite (mn_M _ _ _ HN). rewrite (all_below_alike D tol H' H _ _ EH EK).
  destruct (all_below (n_M N) tol H (heads_of (m_body m2))) eqn:AB.
  { exists m2, m2', 1%nat. auto. }
  destruct (IH i i' dt tol _ _ m2 m2' Ha Ha' Hi H2 H2' T2 EK) as (r & r' & p & -> & E' & Hr & Hr' & Tr).
  { intros p r q Hp Ep. refine (Cl (S p) r (S q) _ _); [lia|]. cbn [iterate]. cbv zeta. fold n0. rewrite E1. cbn [bind]. rewrite E2. cbn [bind].
    rewrite AB, Ep. reflexivity. }
  rewrite (mn_M _ _ _ HN) in E'. rewrite E'. cbn [bind fst snd].
  exists r, r', (S p). auto.
Qed.

Lemma step_mirror i i' dt n tol (m m' : object) : admissible D i dt -> admissible D' i' dt -> mirrored_inputs rv D i i' -> healthy D m -> healthy D' m' ->
  m_t m' = m_t m -> mirrored_body rv D (m_body m) (m_body m') -> calm_step i dt n tol m ->
  exists r r' p, object_step D slv i dt n tol m = Some (r, p) /\ object_step D' slv' i' dt n tol m' = Some (r', p) /\
    healthy D r /\ healthy D' r' /\ mirrored_object rv D r r'.
Proof.
  intros Ha Ha' Hi Hm Hm' Et Al Cl. unfold calm_step, object_step, step in *.
  destruct (pass_mirror i i' dt true m m' Ha Ha' Hi Hm Hm' Et Al) as (m1 & m2 & m1' & m2' & E1 & E2 & E1' & E2' & H2 & H2' & T2); [discriminate|].
  rewrite E1, E1'. cbn [bind]. rewrite E2, E2'. cbn [bind]. rewrite E1 in Cl. cbn [bind] in Cl. rewrite E2 in Cl. cbn [bind] in Cl.
  specialize (T2 (Cl 0%nat m2 1%nat (Nat.le_0_l n) eq_refl)).
  destruct (Nat.ltb 0 (n - 1)) eqn:Ln; [|exists m2, m2', 1%nat; auto].
  assert (EK : forall j, (j < n_M N)%nat -> heads_of (m_body m2') j = heads_of (m_body m2) j) by apply (ms_H _ _ _ _ (proj1 (proj2 (mo_view _ _ _ _ T2)))).
  rewrite (mn_M _ _ _ HN). rewrite (all_below_alike D tol _ _ _ _ EK (ms_H _ _ _ _ (proj1 (mo_saved _ _ _ _ T2)))).
  destruct (all_below (n_M N) tol (heads_of (m_body m2)) (h_H (v_st (snd (m_saved m2))))) eqn:AB; [exists m2, m2', 1%nat; auto|].
  destruct (iterate_mirror (n - 1) i i' dt tol _ _ m2 m2' Ha Ha' Hi H2 H2' T2 EK) as (r & r' & p & -> & E' & Hr & Hr' & Tr).
  { intros p r q Hp Ep. destruct p as [|p].
    - cbn [iterate] in Ep. injection Ep as <- <-. exact (Cl 0%nat m2 1%nat (Nat.le_0_l n) eq_refl).
    - refine (Cl (S (S p)) r (S q) _ _); [apply Nat.ltb_lt in Ln; lia|]. change (S (S p) - 1)%nat with (S p). change (Nat.ltb 0 (S p)) with true. cbv iota beta.
      rewrite Ep. reflexivity. }
  rewrite (mn_M _ _ _ HN) in E'. rewrite E'. cbn [bind fst snd].
  exists r, r', (S p). auto.
Qed.

Lemma load_mirror s s' (m m' : object) : fst s' = fst s -> mirrored_saved rv D (snd s) (snd s') ->
  watered D (v_st (snd s)) -> watered D' (v_st (snd s')) -> healthy D m -> healthy D' m' -> mirrored_object rv D m m' ->
  exists r r', object_load D s m = Some r /\ object_load D' s' m' = Some r' /\ healthy D r /\ healthy D' r' /\ mirrored_object rv D r r'.
Proof.
  intros Et (Vs & [Vo Vw Vp]) W W' Hm Hm' [_ Tu Td Tm Ts].
  destruct (object_load_total D HD s m W Hm) as (r & E & Hr). destruct (object_load_total D' HD' s' m' W' Hm') as (r' & E' & Hr').
  exists r, r'. split; auto. split; auto. split; auto. split; auto.
  unfold object_load, load_state, load_body in E, E'.
  destruct (geometries D (restore D (snd s) (m_body m))) as [b|] eqn:G; [|discriminate].
  destruct (geometries D' (restore D' (snd s') (m_body m'))) as [b'|] eqn:G'; [|discriminate].
  cbn [bind] in E, E'. injection E as <-. injection E' as <-. cbn [m_t m_body m_saved].
  destruct (geometries_inv D _ _ G) as (_ & _ & _ & _ & G1 & G2 & G3 & G4 & _ & _ & G5 & G6 & _).
  destruct (geometries_inv D' _ _ G') as (_ & _ & _ & _ & G1' & G2' & G3' & G4' & _ & _ & G5' & G6' & _).
  constructor; cbn [m_t m_body m_saved]; auto; [| rewrite G5, G5', G6 | rewrite G5, G6, G6']; cbn [restore b_thu b_thd]; auto.
  split; [exact Et|]. cbn [m_body]. rewrite G1, G1', G2, G2', G3, G3', G4, G4'. cbn [restore b_st b_Qo b_Qw b_Qp].
  split; [exact Vs|]. rewrite (md_or _ _ _ HM), (md_we _ _ _ HM), (md_pu _ _ _ HM). constructor.
  - intros o Ho. destruct (Nat.eqb_spec (o_n (d_or D)) 0); [lia|auto].
  - intros o Ho. destruct (Nat.eqb_spec (w_n (d_we D)) 0); [lia|auto].
  - intros o Ho. destruct (Nat.eqb_spec (p_n (d_pu D)) 0); [lia|auto].
Qed.

Lemma perform_mirror a a' (m m' : object) : allowed D a -> allowed D' a' -> mirrored_action rv D a a' -> healthy D m -> healthy D' m' ->
  mirrored_object rv D m m' -> match a with Step i dt n tol => calm_step i dt n tol m | _ => True end ->
  exists r r', perform D slv a m = Some r /\ perform D' slv' a' m' = Some r' /\ healthy D r /\ healthy D' r' /\ mirrored_object rv D r r'.
Proof.
  intros Ha Ha' Hx Hm Hm' Tw Cl. destruct Hx as [i i' dt n tol Hi| |t v v' Hv|]; cbn [perform allowed] in *.
  - destruct (step_mirror i i' dt n tol m m' Ha Ha' Hi Hm Hm' (proj1 (mo_view _ _ _ _ Tw)) (body_of _ _ Tw) Cl) as (r & r' & p & -> & -> & X).
    cbn [bind fst]. eauto.
  - exists (object_save m), (object_save m'). split; auto. split; auto.
    destruct Hm as (? & ? & ?). destruct Hm' as (? & ? & ?). destruct Tw as [(T & S & C) U U' _ _].
    split; [split; [|split]; auto|]. split; [split; [|split]; auto|].
    constructor; cbn [object_save save_state m_t m_body m_saved fst snd]; auto; split; auto.
  - apply (load_mirror (t, v) (t, v') m m'); auto.
  - apply (load_mirror (m_saved m) (m_saved m') m m'); auto; try apply Tw; [apply Hm|apply Hm'].
Qed.

(** C74: enter a network with some superlinks the other way round (ends, end losses and end lengths exchanged, links and
    internal junctions numbered backwards, slopes negated).  Then every history of steps (with iterations), saves and loads
    gives the same clock, heads, depths and control flows, and the same flows with the sign turned in the turned superlinks,
    as long as no internal depth of a turned superlink with three or more links is set to a limit. *)
Theorem C74_direction_is_a_convention : forall (m m' : object) l l',
  healthy D m -> healthy D' m' -> mirrored_object rv D m m' ->
  Forall2 (mirrored_action rv D) l l' -> (forall a, In a l -> allowed D a) -> (forall a, In a l' -> allowed D' a) -> calm l m ->
  exists r r', perform_all D slv l m = Some r /\ perform_all D' slv' l' m' = Some r' /\ mirrored_view rv D r r'.
Proof.
  intros m m' l l' Hm Hm' Tw HF. revert m m' Hm Hm' Tw. induction HF as [|a a' l l' Hx HF IH]; intros m m' Hm Hm' Tw Hl Hl' Cl; cbn [perform_all].
  { exists m, m'. split; auto. split; auto. apply Tw. }
  destruct Cl as [C1 C2].
  destruct (perform_mirror a a' m m') as (r & r' & E & -> & Hr & Hr' & Tr); auto; [apply Hl; now left|apply Hl'; now left|]. rewrite E. cbn [bind].
  apply IH; auto; intros; [apply Hl|apply Hl']; now right.
Qed.

(** C74: when every turned superlink has at most two links (and internal depths are reconstructed in the default order), limits
    do not matter either: the two descriptions agree in every run. *)
Theorem C74_short_superlinks_always : forall (m m' : object) l l',
  (forall k, (k < n_K N)%nat -> rv k = true -> (n_nk N k <= 2)%nat) -> n_back N = true ->
  healthy D m -> healthy D' m' -> mirrored_object rv D m m' ->
  Forall2 (mirrored_action rv D) l l' -> (forall a, In a l -> allowed D a) -> (forall a, In a l' -> allowed D' a) ->
  exists r r', perform_all D slv l m = Some r /\ perform_all D' slv' l' m' = Some r' /\ mirrored_view rv D r r'.
Proof.
  intros m m' l l' Hn Hb Hm Hm' Tw HF Hl Hl'. apply C74_direction_is_a_convention; auto.
  clear -Hn Hb. revert m. induction l as [|a l IH]; intros m; cbn [calm]; auto. split; [|intros; apply IH].
  destruct a; auto. intros p r q _ _ k Hk Hr. left. auto.
Qed.
End Runs.
