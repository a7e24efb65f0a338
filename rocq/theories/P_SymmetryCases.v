(** Property C82: witnesses. *)
From Coq Require Import ZArith.
From Verif Require Import Prelude M_Numerics M_Coeffs M_Recurrence M_Assembly M_Step M_Geometry M_Storage M_Controls M_Simulation M_Model
  S_Numerics S_Geometry S_Superlink S_Network S_Step S_Simulation S_Model S_Object S_Replay S_Mirror S_Embed L_Forward L_Backward L_Internals L_Coeffs L_Step
  P_Assembly P_Superlink P_Wellposed P_Step P_Limits P_Simulation
  L_Model L_Gauss P_Model P_Replay L_Relate P_Resume P_Object P_MirrorCases L_Embed L_EmbedObject P_Embed P_EmbedCases.
From Verif Require Import P_Symmetry.

(** Two superlinks of two links each (a circular and a trapezoidal one) from the superjunctions (e 0) and (e 1) down to
    superjunction 0, which has a prescribed head; beside each an orifice, a weir and a pump. *)
Definition two_net (M : nat) (e : nat -> nat) : network :=
  mkNetwork 2 (fun _ => 2%nat) (fun k => 2 * k)%nat (fun k => 3 * k)%nat e (fun _ => 0%nat) 4 6
    (fun I => if Nat.leb I 2 then 0%nat else 1%nat) (fun I => if Nat.leb I 2 then I else (I - 1)%nat) (fun I => if Nat.leb I 2 then (I - 1)%nat else (I - 2)%nat)
    (fun I => Nat.eqb I 0 || Nat.eqb I 3) (fun I => Nat.eqb I 2 || Nat.eqb I 5)
    (fun i => Nat.eqb i 0 || Nat.eqb i 2) (fun i => Nat.eqb i 1 || Nat.eqb i 3)
    (fun _ => 10) (fun _ => 1/100) (fun _ => 0%nat) (fun _ => 1/10) (fun _ => 1) (fun _ => 1/2)
    (fun _ => false) (fun _ => 0) (fun _ => 1) (fun _ => 1) (fun _ => 1/2) (fun _ => 1)
    (fun _ => 2) (fun _ => 0) (fun _ => 1/100) (fun _ => 1/100) (fun _ => 0%nat) (fun _ => 0%nat)
    (fun _ => 0) (fun _ => 0) M (fun j => Nat.eqb j 0) (fun _ => 0) (fun _ => 100) (1/1000) (fun _ => 50) false BCz true true.
Definition two (M : nat) (e : nat -> nat) : design :=
  mkDesign (two_net M e) (fun i => if Nat.leb i 1 then i else S i)
    (fun i => if Nat.even i then Regular {| shape := 1%nat; g1 := 1; g2 := 1/1000; g3 := 0; g4 := 0; g5 := 0; g6 := 0; g7 := 0 |}
              else Regular {| shape := 6%nat; g1 := 2; g2 := 1; g3 := 0; g4 := 0; g5 := 0; g6 := 0; g7 := 0 |})
    (fun _ _ _ _ => 0) (fun _ => Functional 2 (1/2) 0)
    (mkOrifices 2 e (fun _ => 0%nat) zeros (fun _ => 1/2) (fun _ => 0) (fun _ => 1) (fun _ => 1) (fun _ => false))
    (fun _ => 1%nat) (fun _ => 1) zeros zeros
    (mkWeirs 2 e (fun _ => 0%nat) (fun _ => 1) (fun _ => 1) (fun _ => 2) (fun _ => 1) (fun _ => 1) (fun _ => 1))
    (mkPumps 2 (fun _ => 0%nat) e (fun _ => 0) (fun _ => 9) (fun _ => 0) (fun _ => 10) (fun _ => 1) (fun _ => 2)).
Lemma two_sound M e : (1 <= M)%nat -> (forall x, (e x < M)%nat \/ (2 <= x)%nat) -> sound (two M e).
Proof.
  intros HM He.
  assert (E : forall x, (x < 2)%nat -> (e x < M)%nat) by (intros x Hx; destruct (He x); lia).
  constructor.
  - constructor.
    + split; [intros; cbn; lia|]. intros k k' H H'. cbn in *. destruct k as [|[|k]], k' as [|[|k']]; cbn; lia.
    + intros [|[|k]] j Hk Hj; cbn in Hk; [| |lia]; cbn in Hj; do 3 (destruct j as [|j]; [cbn; repeat split; auto; lia|]); lia.
    + intros k Hk. cbn in *. lia.
    + intros k Hk. cbn in *. split; [auto|lia].
  - reflexivity.
  - simpl. lra.
  - intros i Hi. cbn in Hi. split; [|cbn; repeat split; try lra; try lia].
    do 4 (destruct i as [|i]; [simpl; lra|]). lia.
  - simpl; intros; lra.
  - simpl; intros; lra.
  - intros j Hj. simpl. lra.
  - split; [|simpl; intros; lra]. intros k Hk. cbn in *. split; [auto|lia].
  - intros k Hk. cbn in *. split; [auto|lia].
  - split; [|simpl; intros; lra]. intros k Hk. cbn in *. split; [lia|auto].
Qed.
Lemma two_tabled M e : tabled (two M e).
Proof.
  constructor; cbn; intros; try lia; do 4 (destruct i as [|i]; [cbn; try lia; auto|]); lia.
Qed.
Lemma two_chained M e : chained (two M e).
Proof. intros [|[|k]] j Hk Hj; cbn in *; [| |lia]; destruct j as [|[|j]]; try reflexivity; lia. Qed.
Lemma two_marks M e : link_marks (two_net M e).
Proof. intros [|[|k]] j Hk Hj; cbn in *; [| |lia]; destruct j as [|[|j]]; try (split; reflexivity); lia. Qed.

(** Water flowing down to superjunction 0, and a lateral inflow half way down each superlink. *)
Definition two_state : hstate :=
  mkHState (fun j => if Nat.eqb j 0 then 1 else 3) (fun _ => 1/10) (fun _ => 3/10) (fun I => if Nat.eqb I 2 || Nat.eqb I 5 then 1 else 1/2)
    (fun i => if Nat.even i then 1/5 else 1/4).
Definition two_inputs : inputs :=
  mkInputs (fun _ => 1) (fun _ => 1/10) (fun I => if Nat.eqb I 1 || Nat.eqb I 4 then 1/20 else 0) (fun _ => 1/2) (fun _ => 1/2) (fun _ => 1).
Definition two_tour : list action := [Step two_inputs 60 5 (1/1000); Save; Step two_inputs 30 1 0; Restore; Step two_inputs 10 8 0].
Lemma two_healthy M e : healthy (two M e) (starting two_state).
Proof.
  assert (W : watered (two M e) two_state).
  { intros i Hi. cbn in Hi. do 4 (destruct i as [|i]; [cbn; lra|]). lia. }
  split; [exact W|]. split; [constructor|exact W].
Qed.
Lemma two_allowed M e a : In a two_tour -> allowed (two M e) a.
Proof. intros Ha. simpl in Ha. destruct Ha as [<-|[<-|[<-|[<-|[<-|[]]]]]]; simpl; auto; (split; [lra|split; simpl; intros; lra]). Qed.

(** ** Two tanks that drain to a common outlet: left and right stay equal. *)
Definition left_right : place := mkPlace (swap 1 2) (swap 0 1) (swap 0 1) (swap 0 1) (swap 0 1) 0.
Lemma fork_symmetric : embedded_design left_right (two 3 S) (two 3 S).
Proof.
  assert (P : found (swap 0 1) 2 2) by (apply swap_found; lia).
  assert (PJ : found (swap 1 2) 3 3) by (apply swap_found; lia).
  assert (C : forall f fj n M bc J, found f n n -> closed_at f fj n n M bc J) by (intros; now apply closed_onto).
  constructor; try apply two_chained.
  - constructor; try reflexivity; try apply two_marks; auto; cbn.
    + intros [|[|[|j]]] Hj; cbn; repeat split; auto; try lra; lia.
    + intros [|[|k]] Hk; cbn; repeat split; auto; try lra; lia.
    + auto 15.
  - intros [|[|k]] j Hk Hj; cbn in *; [| |lia]; destruct j as [|[|j]]; try reflexivity; lia.
  - intros; reflexivity.
  - split; [exact P|]. split; [apply C, P|]. split; [apply C, P|]. intros [|[|x]] Hx; cbn in *; repeat split; auto; lia.
  - split; [exact P|]. split; [apply C, P|]. split; [apply C, P|]. intros [|[|x]] Hx; cbn in *; repeat split; auto; lia.
  - split; [exact P|]. split; [apply C, P|]. split; [apply C, P|]. intros [|[|x]] Hx; cbn in *; repeat split; auto; lia.
Qed.
Lemma fork_state : embedded_state left_right (two_net 3 S) (two_net 3 S) two_state two_state.
Proof.
  constructor; cbn; auto.
  - intros [|[|[|j]]] Hj; cbn; try lra; lia.
  - intros [|[|k]] j Hk Hj; cbn in *; [| |lia]; do 3 (destruct j as [|j]; [reflexivity|]); lia.
  - intros [|[|k]] j Hk Hj; cbn in *; [| |lia]; do 2 (destruct j as [|j]; [reflexivity|]); lia.
Qed.
Example C82_example :
  sound (two 3 S) /\ tabled (two 3 S) /\ embedded_design left_right (two 3 S) (two 3 S) /\ healthy (two 3 S) (starting two_state) /\
  embedded_object left_right (two 3 S) (two 3 S) (starting two_state) (starting two_state) /\
  (forall a, In a two_tour -> allowed (two 3 S) a /\ symmetric_action left_right (two 3 S) a) /\
  exists r, perform_all (two 3 S) (gauss 3) two_tour (starting two_state) = Some r /\
    h_H (b_st (m_body r)) 2%nat = h_H (b_st (m_body r)) 1%nat /\ h_Q (b_st (m_body r)) 3%nat = h_Q (b_st (m_body r)) 1%nat /\
    b_Qp (m_body r) 1%nat = b_Qp (m_body r) 0%nat.
Proof.
  assert (So : sound (two 3 S)) by (apply two_sound; [lia|intros; cbn; lia]).
  assert (Ob : embedded_object left_right (two 3 S) (two 3 S) (starting two_state) (starting two_state)).
  { constructor; try reflexivity.
    - split; [reflexivity|]. split; [exact fork_state|]. constructor; reflexivity.
    - split; [exact fork_state|]. constructor; reflexivity. }
  assert (A : forall a, In a two_tour -> allowed (two 3 S) a /\ symmetric_action left_right (two 3 S) a).
  { intros a Ha. split; [now apply two_allowed|].
    assert (I : embedded_inputs left_right (two 3 S) (two 3 S) two_inputs two_inputs).
    { constructor; try reflexivity; cbn.
      - intros [|[|k]] j Hk Hj; cbn in *; [| |lia]; do 3 (destruct j as [|j]; [reflexivity|]); lia.
      - intros; lra. }
    simpl in Ha. destruct Ha as [<-|[<-|[<-|[<-|[<-|[]]]]]]; simpl; auto. }
  split; [exact So|]. split; [apply two_tabled|]. split; [exact fork_symmetric|]. split; [apply two_healthy|]. split; [exact Ob|]. split; [exact A|].
  destruct (C82_symmetric_models_stay_symmetric left_right (two 3 S) (gauss 3) So (two_tabled 3 S) fork_symmetric eq_refl (gauss_solver 3)
    (starting two_state) two_tour (two_healthy 3 S) Ob A) as (r & E & S1 & _ & _ & S4 & _ & _ & S7).
  exists r. split; [exact E|]. split; [exact (S1 1%nat ltac:(cbn; lia))|].
  split; [exact (S4 0%nat 1%nat ltac:(cbn; lia) ltac:(cbn; lia))|exact (S7 0%nat ltac:(cbn; lia))].
Qed.

(** ** One tank drained by two identical superlinks, orifices and weirs, and filled by two identical pumps *)
Definition side_by_side : design := two 2 (fun _ => 1%nat).
Example C82_twins_example :
  sound side_by_side /\ tabled side_by_side /\ chained side_by_side /\ link_marks (d_net side_by_side) /\
  same_superlinks side_by_side 0 1 /\ same_orifices side_by_side 0 1 /\ same_weirs side_by_side 0 1 /\ same_pumps side_by_side 0 1 /\
  same_water (d_net side_by_side) 0 1 two_state /\
  exists r, perform_all side_by_side (gauss 2) two_tour (starting two_state) = Some r /\
    same_water (d_net side_by_side) 0 1 (b_st (m_body r)) /\
    b_Qo (m_body r) 1%nat = b_Qo (m_body r) 0%nat /\ b_Qw (m_body r) 1%nat = b_Qw (m_body r) 0%nat /\ b_Qp (m_body r) 1%nat = b_Qp (m_body r) 0%nat.
Proof.
  assert (So : sound side_by_side) by (apply two_sound; [lia|intros; cbn; lia]).
  assert (T := two_tabled 2 (fun _ => 1%nat)). assert (C := two_chained 2 (fun _ => 1%nat)). assert (Mk := two_marks 2 (fun _ => 1%nat)).
  assert (H := two_healthy 2 (fun _ => 1%nat)). assert (G := gauss_solver 2).
  assert (L : same_superlinks side_by_side 0 1).
  { constructor; cbn; try lia; auto 15. }
  assert (O : same_orifices side_by_side 0 1) by (repeat split; cbn; auto).
  assert (W : same_weirs side_by_side 0 1) by (repeat split; cbn; auto).
  assert (P : same_pumps side_by_side 0 1) by (repeat split; cbn; auto).
  assert (St : same_water (d_net side_by_side) 0 1 two_state).
  { split; [reflexivity|]. split; [reflexivity|]. cbn. split; intros j Hj; do 3 (destruct j as [|j]; [first [reflexivity|lia]|]); lia. }
  assert (Tr : forall x, In x two_tour -> allowed side_by_side x /\ same_treatment (d_net side_by_side) 0 1 x).
  { intros x Hx. split; [now apply two_allowed|].
    assert (Q : forall j, (j <= 2)%nat -> i_Q0 two_inputs (3 + j)%nat = i_Q0 two_inputs (0 + j)%nat).
    { intros j Hj. do 3 (destruct j as [|j]; [reflexivity|]). lia. }
    simpl in Hx. destruct Hx as [<-|[<-|[<-|[<-|[<-|[]]]]]]; cbn [same_treatment]; auto. }
  assert (Ts : forall (u : inputs -> arr) q, u two_inputs 1%nat = u two_inputs 0%nat ->
    forall x, In x two_tour -> allowed side_by_side x /\ same_setting u q 0 1 x).
  { intros u q E x Hx. split; [now apply two_allowed|].
    simpl in Hx. destruct Hx as [<-|[<-|[<-|[<-|[<-|[]]]]]]; cbn [same_setting]; auto. }
  split; [exact So|]. split; [exact T|]. split; [exact C|]. split; [exact Mk|]. split; [exact L|]. split; [exact O|]. split; [exact W|]. split; [exact P|].
  split; [exact St|].
  destruct (C82_identical_superlinks_share side_by_side (gauss 2) So T C Mk G 0 1 (starting two_state) two_tour L H St St eq_refl eq_refl Tr) as (r & E & R1).
  destruct (C82_identical_orifices_share side_by_side (gauss 2) So T C Mk G 0 1 (starting two_state) two_tour O H eq_refl eq_refl (Ts i_uo v_Qo eq_refl)) as (r2 & E2 & R2).
  destruct (C82_identical_weirs_share side_by_side (gauss 2) So T C Mk G 0 1 (starting two_state) two_tour W H eq_refl eq_refl (Ts i_uw v_Qw eq_refl)) as (r3 & E3 & R3).
  destruct (C82_identical_pumps_share side_by_side (gauss 2) So T C Mk G 0 1 (starting two_state) two_tour P H eq_refl eq_refl (Ts i_up v_Qp eq_refl)) as (r4 & E4 & R4).
  rewrite E in E2, E3, E4. injection E2 as <-. injection E3 as <-. injection E4 as <-. exists r. auto.
Qed.
