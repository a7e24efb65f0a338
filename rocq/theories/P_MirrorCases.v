(** Property C74: witnesses, and the case in which the direction of a superlink matters. *)
From Coq Require Import ZArith.
From Verif Require Import Prelude M_Numerics M_Coeffs M_Recurrence M_Assembly M_Step M_Geometry M_Storage M_Controls M_Simulation M_Model
  S_Numerics S_Geometry S_Superlink S_Network S_Step S_Simulation S_Model S_Object S_Replay S_Mirror L_Forward L_Backward L_Internals L_Coeffs L_Step
  P_Assembly P_Superlink P_Wellposed P_Step P_Limits P_Simulation
  L_Model L_Gauss P_Model P_Replay L_Relate P_Resume P_Object L_Mirror L_MirrorStep L_MirrorObject P_Mirror.

(** ** Witness: the network of C58 (orifice, weir, pump, four kinds of sections) with its second superlink turned round *)
Definition second (k : nat) : bool := Nat.eqb k 1.
Definition turned_net : network :=
  let n := rest_net in
  mkNetwork (n_K n) (n_nk n) (n_i1 n) (n_I1 n) (fun k => if second k then 2%nat else k) (fun k => if second k then 1%nat else S k)
    (n_L n) (n_J n) (n_kI n) (n_fwdi n) (n_bwdi n) (n_isS n) (n_isE n)
    (n_lstart n) (n_lend n) (n_dx n) (n_n n) (n_sf n) (fun i => if Nat.leb i 2 then 1/10 else - (1/10)) (n_Ac n) (n_C n) (n_ctrl n) (n_ASI n)
    (n_dxu n) (n_dxd n) (fun k => if second k then 1 else 1/2) (fun k => if second k then 1/2 else 1)
    (fun k => if second k then 0 else 3) (fun k => if second k then 2 else 0)
    (n_nu n) (n_nd n) (n_sfu n) (n_sfd n) (n_Su n) (n_Sd n) (n_M n) (n_bc n) (n_zj n) (n_maxj n) (n_min n) (n_maxk n)
    (n_end_o n) (n_bcm n) (n_damp n) (n_back n).
(** In the original the last link is wider than the one before. *)
Definition wide_sec (i : nat) : xsection :=
  if Nat.eqb i 4 then Regular {| shape := 3%nat; g1 := 9; g2 := 4; g3 := 0; g4 := 0; g5 := 0; g6 := 0; g7 := 0 |} else d_sec demo i.
Definition with_net (n : network) (sec : nat -> xsection) : design :=
  mkDesign n (d_Ik demo) sec (d_ell demo) (d_store demo) (d_or demo) (d_ocode demo) (d_o1 demo) (d_o2 demo) (d_o3 demo) (d_we demo) (d_pu demo).
Definition straight : design := with_net rest_net wide_sec.
Definition turned : design := with_net turned_net (fun i => if Nat.leb i 2 then wide_sec i else wide_sec (7 - i)).
(** Water flowing from left to right. *)
Definition flow_state : hstate :=
  mkHState (fun _ => 10) (fun _ => 1/10) (fun _ => 3/10) (fun I => 10 - rest_bed I) (fun i => 1/5 + INR i / 100).
Definition turned_state : hstate :=
  mkHState (fun _ => 10) (fun k => if second k then - (3/10) else 1/10) (fun k => if second k then - (1/10) else 3/10)
    (fun I => if Nat.leb I 3 then 10 - rest_bed I else 10 - rest_bed (10 - I)%nat)
    (fun i => if Nat.leb i 2 then 1/5 + INR i / 100 else - (1/5 + INR (7 - i)%nat / 100)).
Definition starting (st : hstate) : object := mkModel 0 0%Z (body0 st) (0, save_body (body0 st)).
Definition lateral (I0 : nat) : inputs :=
  mkInputs (fun _ => 1) (fun _ => 1/10) (fun I => if Nat.eqb I I0 then 1/20 else 0) (fun _ => 1/2) (fun _ => 1/2) (fun _ => 1).
Definition tour (I0 : nat) : list action := [Step (lateral I0) 60 5 (1/1000); Save; Step (lateral I0) 30 1 0; Restore; Step (lateral I0) 10 8 0].

Lemma wide_sound n : well_formed n -> n_bcm n = BCz -> 0 < n_min n -> n_L n = 5%nat ->
  n_dx n = n_dx rest_net -> n_n n = n_n rest_net -> n_sf n = n_sf rest_net -> n_C n = n_C rest_net -> n_Ac n = n_Ac rest_net ->
  n_ASI n = n_ASI rest_net -> n_M n = 3%nat ->
  (forall k, (k < n_K n)%nat -> 0 <= n_dxu n k /\ 0 <= n_dxd n k /\ 0 <= n_Cu n k /\ 0 <= n_Cd n k) ->
  forall sec, (forall i, (i < 5)%nat -> conveying (sec i)) -> sound (with_net n sec).
Proof.
  intros Wf Z Mn EL E1 E2 E3 E4 E5 E6 E7 En sec Hs. destruct demo_sound as [_ _ _ Ln Nd _ St Or We Pu]. constructor; cbn [with_net d_net d_sec d_store d_or d_we d_pu d_ocode d_o1]; auto.
  - intros i Hi. rewrite EL in Hi. split; [auto|]. destruct (Ln i Hi) as (_ & L1 & L2 & L3 & L4). cbn [demo d_net] in *.
    rewrite E1, E2, E3, E4, E5. split; auto. split; auto. split; auto. intros _. cbn. lra.
  - intros I HI. rewrite E6. cbn. lra.
  - rewrite E7. exact St.
  - rewrite E7. exact Or.
  - rewrite E7. exact We.
  - rewrite E7. exact Pu.
Qed.

Lemma wide_conveying i : (i < 5)%nat -> conveying (wide_sec i).
Proof.
  intros Hi. unfold wide_sec. destruct (Nat.eqb_spec i 4); [simpl; lra|]. apply (sd_links _ demo_sound i Hi).
Qed.
Lemma straight_sound : sound straight.
Proof.
  apply wide_sound; try reflexivity; try apply wide_conveying; [apply rest_net_ok|simpl; lra|]. simpl; intros; lra.
Qed.
Lemma turned_sound : sound turned.
Proof.
  apply wide_sound; try reflexivity; [|simpl; lra|simpl; intros k Hk; destruct (second k); lra|].
  - destruct rest_net_ok as [[W1 W2 W3 W4] _]. constructor; auto. intros k Hk. simpl in *. unfold second.
    destruct k as [|[|k]]; simpl; lia.
  - intros i Hi. destruct (Nat.leb_spec i 2); apply wide_conveying; lia.
Qed.

Lemma turned_mirrors : mirrored_design second straight turned.
Proof.
  constructor; try reflexivity.
  - constructor; try reflexivity.
    + intros [|[|k]] j Hk Hj; simpl in Hk; [| |lia]; cbn in Hj; do 3 (destruct j as [|j]; [first [lia|split; reflexivity]|]); lia.
    + intros [|[|k]] j Hk Hj; simpl in Hk; [| |lia]; cbn in Hj; do 3 (destruct j as [|j]; [first [lia|split; reflexivity]|]); lia.
    + intros [|[|k]] Hk; simpl in Hk; [| |lia]; cbn; repeat split; reflexivity.
    + intros [|[|k]] j Hk Hj; simpl in Hk; [| |lia]; cbn in Hj; do 3 (destruct j as [|j]; [first [lia|cbn; repeat split; reflexivity]|]); lia.
  - intros [|[|k]] j Hk Hj; simpl in Hk; [| |lia]; cbn in Hj; do 3 (destruct j as [|j]; [first [lia|split; reflexivity]|]); lia.
  - intros [|[|k]] j Hk Hj; simpl in Hk; [| |lia]; cbn in Hj; do 3 (destruct j as [|j]; [first [lia|reflexivity]|]); lia.
Qed.

Lemma turned_states : mirrored_state second rest_net flow_state turned_state.
Proof.
  constructor.
  - reflexivity.
  - intros [|[|k]] Hk; simpl in Hk; [| |lia]; split; reflexivity.
  - intros [|[|k]] j Hk Hj; simpl in Hk; [| |lia]; cbn in Hj; do 4 (destruct j as [|j]; [first [lia|reflexivity]|]); lia.
  - intros [|[|k]] j Hk Hj; simpl in Hk; [| |lia]; cbn in Hj; do 3 (destruct j as [|j]; [first [lia|reflexivity]|]); lia.
Qed.

Lemma starting_mirrors : mirrored_object second straight (starting flow_state) (starting turned_state).
Proof.
  pose proof turned_states as S.
  constructor; try reflexivity.
  - split; [reflexivity|]. split; [exact S|]. constructor; reflexivity.
  - intros k Hk. unfold pick. cbn. now destruct (second k).
  - intros k Hk. unfold pick. cbn. now destruct (second k).
  - split; [exact S|]. constructor; reflexivity.
Qed.

(** Hypotheses of both theorems are met, with lateral inflow at the first junction of the second superlink (the last one
    after turning), iterations, a save and a rollback; then the flow in the second superlink comes out with the other sign. *)
Example C74_example :
  sound straight /\ sound turned /\ tabled straight /\ mirrored_design second straight turned /\
  healthy straight (starting flow_state) /\ healthy turned (starting turned_state) /\
  mirrored_object second straight (starting flow_state) (starting turned_state) /\
  Forall2 (mirrored_action second straight) (tour 4) (tour 6) /\
  exists r r', perform_all straight (gauss 3) (tour 4) (starting flow_state) = Some r /\
    perform_all turned (gauss 3) (tour 6) (starting turned_state) = Some r' /\
    h_Qu (b_st (m_body r')) 1%nat = - h_Qd (b_st (m_body r)) 1%nat /\
    h_Q (b_st (m_body r')) 3%nat = - h_Q (b_st (m_body r)) 4%nat /\
    h_h (b_st (m_body r')) 6%nat = h_h (b_st (m_body r)) 4%nat /\
    b_Qp (m_body r') 0%nat = b_Qp (m_body r) 0%nat.
Proof.
  assert (T : tabled straight).
  { destruct flat_tabled as [T1 T2 T3]. constructor; auto. }
  assert (W : watered straight flow_state).
  { intros i Hi. simpl in Hi. cbn [flow_state h_h straight with_net demo d_Ik]. unfold rest_bed. do 5 (destruct i as [|i]; [simpl; lra|]). lia. }
  assert (W' : watered turned turned_state).
  { intros i Hi. simpl in Hi. cbn [turned_state h_h turned with_net demo d_Ik]. unfold rest_bed. do 5 (destruct i as [|i]; [simpl; lra|]). lia. }
  assert (H : healthy straight (starting flow_state)) by (split; [exact W|split; [constructor|exact W]]).
  assert (H' : healthy turned (starting turned_state)) by (split; [exact W'|split; [constructor|exact W']]).
  assert (I : mirrored_inputs second straight (lateral 4) (lateral 6)).
  { split; [|repeat split]. intros [|[|k]] j Hk Hj; simpl in Hk; [| |lia]; cbn in Hj; do 4 (destruct j as [|j]; [first [lia|reflexivity]|]); lia. }
  assert (F : Forall2 (mirrored_action second straight) (tour 4) (tour 6)) by (repeat apply Forall2_cons; try apply Forall2_nil; try (apply ma_step; exact I); constructor).
  split; [exact straight_sound|]. split; [exact turned_sound|]. split; [exact T|]. split; [exact turned_mirrors|]. split; auto. split; auto.
  split; [exact starting_mirrors|]. split; [exact F|].
  assert (A : forall I0 D, In D [straight; turned] -> forall a, In a (tour I0) -> allowed D a).
  { intros I0 D HD a Ha. simpl in Ha. destruct HD as [<-|[<-|[]]]; destruct Ha as [<-|[<-|[<-|[<-|[<-|[]]]]]]; simpl; auto; (split; [lra|split; simpl; intros; lra]). }
  destruct (C74_short_superlinks_always second straight turned (gauss 3) (gauss 3) straight_sound turned_sound T turned_mirrors
    (gauss_solver 3) (gauss_solver 3) (starting flow_state) (starting turned_state) (tour 4) (tour 6)) as (r & r' & E & E' & _ & [_ SQ Sh SI] & [_ _ Cp]);
    auto; try reflexivity.
  - intros [|[|k]] Hk Hr; [discriminate|cbn; lia|discriminate].
  - exact starting_mirrors.
  - apply A. simpl; auto.
  - apply A. simpl; auto.
  - exists r, r'. split; [exact E|]. split; [exact E'|]. split; [exact (proj1 (SQ 1%nat ltac:(simpl; lia)))|].
    split; [exact (SI 1%nat 0%nat ltac:(simpl; lia) ltac:(cbn; lia))|].
    split; [exact (Sh 1%nat 2%nat ltac:(simpl; lia) ltac:(cbn; lia))|]. apply Cp. simpl. lia.
Qed.

(** ** With three links and a depth on its limit the direction matters *)

(** Three equal open rectangular links between two junctions with prescribed heads, largest depth 2 m. *)
Definition surge_net (a b : nat) : network :=
  mkNetwork 1 (fun _ => 3%nat) (fun _ => 0%nat) (fun _ => 0%nat) (fun _ => a) (fun _ => b) 3 4 (fun _ => 0%nat) (fun I => I) (fun I => (I - 1)%nat)
    (fun I => Nat.eqb I 0) (fun I => Nat.eqb I 3) (fun i => Nat.eqb i 0) (fun i => Nat.eqb i 2)
    (fun _ => 10) (fun _ => 1/100) (fun _ => 0%nat) (fun _ => 0) (fun _ => 1) (fun _ => 0) (fun _ => false) (fun _ => 0)
    (fun _ => 0) (fun _ => 0) (fun _ => 0) (fun _ => 0) (fun _ => 0) (fun _ => 0) (fun _ => 1/100) (fun _ => 1/100)
    (fun _ => 0%nat) (fun _ => 0%nat) (fun _ => 0) (fun _ => 0) 2 (fun _ => true) (fun _ => 0) (fun _ => 100) (1/1000) (fun _ => 2)
    false BCz false true.
Definition surge (a b : nat) : design :=
  mkDesign (surge_net a b) (fun i => i) (fun _ => Regular {| shape := 3%nat; g1 := 10; g2 := 1; g3 := 0; g4 := 0; g5 := 0; g6 := 0; g7 := 0 |})
    (fun _ _ _ _ => 0) (fun _ => Functional 0 0 5) (d_or drop) (d_ocode drop) (d_o1 drop) (d_o2 drop) (d_o3 drop) (d_we drop) (d_pu drop).
Definition surge_state : hstate := mkHState (fun _ => 2) (fun _ => 0) (fun _ => 0) (fun _ => 2) (fun _ => 0).
Definition surge_inputs : inputs := mkInputs (fun _ => 3) zeros zeros zeros zeros zeros.

Lemma surge_wf a b : (a < 2)%nat -> (b < 2)%nat -> well_formed (surge_net a b).
Proof.
  intros Ha Hb. constructor.
  - split; simpl; intros; lia.
  - intros k j Hk Hj. simpl in *. destruct k; [|lia]. do 4 (destruct j as [|j]; [simpl; repeat split; auto; lia|]). lia.
  - intros k Hk; simpl; lia.
  - intros k Hk; simpl; lia.
Qed.
Lemma surge_sound a b : (a < 2)%nat -> (b < 2)%nat -> sound (surge a b).
Proof.
  intros Ha Hb. constructor.
  - now apply surge_wf.
  - reflexivity.
  - simpl. lra.
  - simpl. intros i Hi. repeat split; try lra; try lia; discriminate.
  - simpl; intros; lra.
  - simpl; intros; lra.
  - simpl; intros; lra.
  - split; intros k Hk; simpl in Hk; lia.
  - intros k Hk; simpl in Hk; lia.
  - split; intros k Hk; simpl in Hk; lia.
Qed.

(** After one step from rest the depth next to the downstream end is set to its limit, and a flow appears in the middle
    link, whichever junction is called upstream: all of U, b and A below are the same for both. *)
Lemma surge_flow a b (m : object) p : (a < 2)%nat -> (b < 2)%nat ->
  object_step (surge a b) (gauss 2) surge_inputs 60 1 0 (starting surge_state) = Some (m, p) -> h_Q (b_st (m_body m)) 1%nat > 0.
Proof.
  intros Ha Hb E. pose proof (surge_sound a b Ha Hb) as HD. pose proof (surge_wf a b Ha Hb) as Wf. pose proof (gauss_solver 2) as Hs.
  assert (W : watered (surge a b) surge_state) by (intros i Hi; simpl; lra).
  assert (Hm : healthy (surge a b) (starting surge_state)) by (split; [exact W|split; [constructor|exact W]]).
  assert (A : admissible (surge a b) surge_inputs 60) by (split; [lra|split; simpl; intros; lia]).
  destruct (one_pass (surge a b) (gauss 2) _ _ _ _ _ _ E) as (b1 & E1 & E2 & _).
  destruct (pass_inv (surge a b) (gauss 2) _ _ _ _ _ HD Hs A (proj1 Hm) (proj1 (proj2 Hm)) E1 E2) as (bg & H & Eg & Eu & Es & EH & _).
  destruct (geometries_total _ HD (m_body (starting surge_state)) (proj1 Hm)) as (bw & Ew & Wet & _). rewrite Eg in Ew. injection Ew as <-.
  set (u := b_cf b1) in *. change (b_st (m_body (starting surge_state))) with surge_state in *. change (d_net (surge a b)) with (surge_net a b) in *.
  set (G := geometry_of bg) in *. rewrite Es. clear Es E1 E2 E.
  assert (BH : forall j, (j < 2)%nat -> limit_head 0 100 (H j) = 3).
  { intros j Hj. rewrite EH by (simpl; auto). simpl. apply limit_head_id. lra. }
  assert (GA : forall i, (i < 3)%nat -> g_A G i = 2 /\ g_B G i = 1).
  { intros i Hi. destruct (geometries_at _ _ _ Eg) as [GL _ _ _]. destruct (GL i Hi) as (o & gm & X & Y & _ & Z). fold G in Y, Z. rewrite Y, Z.
    cbn in X. injection X as <-. unfold Rect_Open_A_ik, Rect_Open_B_ik, mid, cap, floor0. cbn. split; [|reflexivity].
    replace ((2 + 2) / 2) with 2 by lra. destruct (Rltb_spec 2 0); [lra|]. destruct (Rltb_spec 10 2); lra. }
  pose proof (setup_facts_ok _ _ _ _ _ _ _ _ Eu) as [Fm Fn Ff Fb Fhu Fhd].
  assert (P60 : 0 < 60) by lra. destruct (setup_signs _ _ _ _ _ _ _ Wf Wet P60 u Eu) as [HW HP].
  pose proof (forward_recurrence_ok _ _ _ _ _ _ _ _ _ _ _ _ _ (wf_layout _ Wf) Ff 0%nat ltac:(simpl; lia)) as FE.
  pose proof (backward_recurrence_ok _ _ _ _ _ _ _ _ _ _ _ _ _ _ _ (wf_layout _ Wf) (fun k _ => conj eq_refl eq_refl) Fb 0%nat ltac:(simpl; lia)) as BE.
  specialize (HP 0%nat). specialize (HW 0%nat ltac:(simpl; lia)). cbn [surge_net n_i1 n_I1 n_nk n_K] in FE, BE, HP, HW.
  destruct (link_coeffs_entries _ _ _ _ _ _ Fm) as (Ea & Ec & EP & Eb). cbv zeta in Ea, Ec, EP, Eb.
  pose proof (node_coeffs_entries _ _ _ _ _ _ _ _ _ _ _ _ _ _ _ _ _ _ _ _ Fn) as En.
  assert (U0 : forall i, (i < 3)%nat -> u_ik (h_Q surge_state i) (g_A G i) = 0).
  { intros i Hi. unfold u_ik. cbn [surge_state h_Q]. destruct (Reqb_spec (g_A G i) 0); [reflexivity|]. unfold Rdiv. ring. }
  assert (Cf : forall i, (i < 3)%nat -> ma (u_m u) i = 0 /\ mc (u_m u) i = 0 /\ mP (u_m u) i = 0 /\ mb (u_m u) i = 1 / 6).
  { intros i Hi.
    assert (A0 : ma (u_m u) i = 0).
    { rewrite Ea. unfold a_ik, damping, u_Ik. cbn [links_of l_start l_dx l_Q l_A surge_net n_lstart n_dx n_damp].
      destruct (Nat.eqb_spec i 0); [rewrite U0 by auto; rewrite Rmax_left by lra; ring|]. rewrite !U0 by lia.
      destruct (Reqb_spec (10 + 10) 0); [lra|]. replace ((10 * 0 + 10 * 0) / (10 + 10)) with 0 by lra. rewrite Rmax_left by lra. ring. }
    assert (C0 : mc (u_m u) i = 0).
    { rewrite Ec. unfold c_ik, damping, u_Ip1k. cbn [links_of l_end l_dx l_Q l_A surge_net n_lend n_dx n_damp].
      destruct (Nat.eqb_spec i 2); [rewrite U0 by auto; rewrite Ropp_0, Rmax_left by lra; ring|]. rewrite !U0 by lia.
      destruct (Reqb_spec (10 + 10) 0); [lra|]. replace ((10 * 0 + 10 * 0) / (10 + 10)) with 0 by lra. rewrite Ropp_0, Rmax_left by lra. ring. }
    split; auto. split; auto. split; [rewrite EP; unfold P_ik; cbn; field|].
    specialize (Eb i Hi). rewrite A0, C0 in Eb. unfold b_ik, friction_slope in Eb.
    cbn [links_of l_dx l_n l_Q l_A l_R l_Ac l_C l_ctrl l_sf l_B surge_net n_dx n_n n_sf n_Ac n_C n_ctrl n_damp surge_state h_Q damping] in Eb.
    rewrite (proj1 (GA i Hi)) in Eb. destruct (Rltb_spec 0 2); [|lra]. rewrite Rabs_R0 in Eb. unfold div in Eb.
    destruct (Reqb_spec 2 0); [lra|]. cbn [bind] in Eb.
    destruct (Reqb_spec (fpow (g_R G i) (4 / 3)) 0); [discriminate|]. cbn [bind] in Eb. injection Eb as <-. unfold Rdiv. lra. }
  assert (En' : forall I, (I <= 3)%nat -> u_E u I = (if Nat.eqb I 0 || Nat.eqb I 3 then 5 else 10) / 60 /\
                     u_D u I = (if Nat.eqb I 0 || Nat.eqb I 3 then 5 else 10) * (2 / 60)).
  { intros I HI. destruct (En I ltac:(simpl; lia)) as [-> ->]. unfold node_width.
    cbn [surge_net n_isS n_isE n_fwdi n_bwdi n_dx n_dxu n_dxd n_kI n_ASI i_Q0 surge_inputs surge_state h_h]. unfold zeros.
    destruct I as [|[|[|[|I]]]]; [| | | |lia]; cbn [Nat.eqb orb Nat.sub]; rewrite ?(proj2 (GA 0%nat ltac:(lia))), ?(proj2 (GA 1%nat ltac:(lia))), ?(proj2 (GA 2%nat ltac:(lia))); lra. }
  set (x := (353.16 + 1 / 3) / (117.72 + 1 / 6)).
  assert (Hx : x * (117.72 + 1 / 6) = 353.16 + 1 / 3) by (unfold x; field; lra).
  assert (Hx2 : 2 < x) by nra.
  set (q := 117.72 * (3 - x)).
  set (QQ := fun j => match j with O => q + 1 / 12 | 1%nat => q | 2%nat => 0 | 3%nat => - q | _ => - q - 1 / 12 end).
  set (hh := fun j => match j with O => 3 | 3%nat => 3 | _ => x end).
  assert (HS : superlink_solution (ma (u_m u)) (mb (u_m u)) (mc (u_m u)) (mP (u_m u)) (g_A G) (u_E u) (u_D u) 0 0 3 QQ hh).
  { split.
    - intros j Hj. cbn [Nat.add]. destruct (Cf j Hj) as (-> & -> & -> & ->). rewrite (proj1 (GA j Hj)).
      destruct j as [|[|[|j]]]; [| | |lia]; cbn [Nat.add QQ hh]; unfold q; lra.
    - intros j Hj. cbn [Nat.add]. destruct (En' j Hj) as [-> ->].
      destruct j as [|[|[|[|j]]]]; [| | | |lia]; cbn [Nat.add Nat.eqb orb QQ hh]; unfold q; lra. }
  pose proof (forward_exact _ _ _ _ _ _ _ 0 0 3 (u_f u) QQ hh FE (fun j Hj => proj1 (HP j ltac:(lia) Hj)) HS) as XF.
  pose proof (backward_exact _ _ _ _ _ _ _ 0 0 3 (u_b u) QQ hh ltac:(lia) BE (fun j Hj => proj1 (proj2 (HP j ltac:(lia) Hj))) HS) as XB.
  assert (UU : fU (u_f u) 1%nat < 0).
  { pose proof (fe_T0 _ _ _ _ _ _ _ _ _ _ _ FE) as T0. pose proof (fe_U0 _ _ _ _ _ _ _ _ _ _ _ FE) as V0.
    pose proof (fe_T _ _ _ _ _ _ _ _ _ _ _ FE 0%nat ltac:(lia)) as T1. pose proof (fe_U _ _ _ _ _ _ _ _ _ _ _ FE 0%nat ltac:(lia)) as V1.
    cbn [Nat.add] in *. destruct (Cf 0%nat ltac:(lia)) as (a0 & c0 & _ & b0). destruct (Cf 1%nat ltac:(lia)) as (a1 & c1 & _ & b2).
    destruct (En' 1%nat ltac:(lia)) as [e1 _]. cbn in e1. unfold T_1k in T0. unfold U_1k in V0. unfold T_ik in T1. unfold U_Ik in V1.
    rewrite a0, b0, c0 in T0. rewrite c0, T0, (proj1 (GA 0%nat ltac:(lia))) in V0. rewrite a1, b2, c1, e1, (proj1 (GA 1%nat ltac:(lia))), V0 in T1.
    rewrite c1, (proj1 (GA 1%nat ltac:(lia))) in V1. rewrite Rmult_0_r in V1, V0. rewrite Rmult_0_r in T1. unfold g in *.
    rewrite (safe_divide_nz _ (0 + 1 / 6 + 0)) in T1 by lra.
    rewrite safe_divide_nz in T1 by lra.
    set (t := fT (u_f u) 1%nat) in *.
    assert (Ht : 0 < t).
    { rewrite T1. replace ((u_E u 1%nat * 0 - 9.81 * 2) / (0 + 1 / 6 + 0) - 10 / 60) with (- (117.72 + 1 / 6)) by lra.
      assert (0 < / (117.72 + 1 / 6)) by (apply Rinv_0_lt_compat; lra).
      match goal with |- 0 < _ - ?n / - ?d => replace (n / - d) with (- (n * / d)) by (field; lra) end. nra. }
    rewrite V1, safe_divide_nz by lra. assert (0 < / t) by now apply Rinv_0_lt_compat. unfold Rdiv. nra. }
  assert (HK : hk (u_hu u 0%nat) = 0 /\ hk (u_hd u 0%nat) = 0).
  { pose proof (Fhu 0%nat (le_n 1)) as Z1. pose proof (Fhd 0%nat (le_n 1)) as Z2. injection Z1 as <-. injection Z2 as <-. simpl.
    unfold gamma_uk, gamma_dk. rewrite Rabs_R0. unfold safe_divide.
    split; match goal with |- context [Reqb ?x ?y] => destruct (Reqb_spec x y) end; try lra; unfold Rdiv; ring. }
  destruct HK as [K1 K2].
  destruct (setup_theta (surge_net a b) G _ surge_state surge_state zeros 60 u Eu 0%nat ltac:(simpl; lia)) as (T1 & T2 & T3 & T4).
  unfold above in T1, T2, T3, T4. simpl in T1, T2, T3, T4. destruct (Rleb_spec 0 2); [|lra].
  set (L := fun j => limit_head 0 100 (H j)).
  set (Qf := fun k => solve_superlink_flows (flow_coeffs (surge_net a b) u k) (L a) (L b)).
  set (hf := fun k => solve_superlink_depths (u_hu u k) (u_hd u k) (fst (Qf k)) (snd (Qf k)) (L a) (L b)).
  assert (Eh : hf 0%nat = (3, 3)).
  { unfold hf, solve_superlink_depths. rewrite K1, K2, T1, T2, T3, T4. unfold L. rewrite !BH by auto. apply f_equal2; lra. }
  destruct (numba_solve_internals (h_h surge_state, h_Q surge_state) (fun k => fst (hf k)) (fun k => snd (hf k)) (u_f u) (u_b u)
              (fun _ => 0%nat) (fun _ => 0%nat) (fun _ => 3%nat) 1 (1 / 1000) (fun _ => 2) true) as [y z] eqn:EI.
  assert (Ez : h_Q (M_Step.solve_step (surge_net a b) u surge_state H) = z).
  { unfold M_Step.solve_step, solve_internals. cbv zeta.
    change (numba_solve_internals (h_h surge_state, h_Q surge_state) _ _ _ _ _ _ _ _ _ _ _) with
      (numba_solve_internals (h_h surge_state, h_Q surge_state) (fun k => fst (hf k)) (fun k => snd (hf k)) (u_f u) (u_b u)
              (fun _ => 0%nat) (fun _ => 0%nat) (fun _ => 3%nat) 1 (1 / 1000) (fun _ => 2) true). rewrite EI. reflexivity. }
  change (h_Q (M_Step.solve_step (surge_net a b) u surge_state H) 1%nat > 0). rewrite Ez.
  destruct (numba_solve_internals_eqs _ _ _ _ _ _ _ _ _ _ _ _ _ _ (wf_layout _ Wf) EI 0%nat (le_n 1)) as [J1 J2 J3 J4 J5].
  rewrite Eh in J1, J2, J3, J4, J5. cbn [fst snd Nat.add surge_net n_nk n_i1 n_I1 n_K] in J1, J2, J3, J4, J5.
  pose proof (J3 2%nat ltac:(lia) ltac:(lia)) as q2. pose proof (J4 2%nat ltac:(lia) ltac:(lia)) as h2. pose proof (J3 1%nat ltac:(lia) ltac:(lia)) as q1.
  cbn [Nat.add] in q2, h2, q1. pose proof (XF 2%nat ltac:(lia)) as X2. pose proof (XB 2%nat ltac:(lia)) as Y2. pose proof (XF 1%nat ltac:(lia)) as X1.
  cbn [Nat.add QQ hh] in X2, Y2, X1. unfold Q_i_f in q1, q2. rewrite J2 in q2. rewrite <- X2 in q2.
  unfold h_i_b in h2. rewrite safe_divide_nz in h2 by (apply (HP 2%nat); lia). rewrite q2, Y2 in h2.
  match type of h2 with _ = limit_depth _ _ ?e => replace e with x in h2 by (field; apply (HP 2%nat); lia) end.
  unfold limit_depth in h2. destruct (Rltb_spec x (1 / 1000)); [lra|]. destruct (Rltb_spec 2 x); [|lra].
  rewrite h2 in q1. rewrite q1. nra.
Qed.

Lemma surge_mirrors : mirrored_design (fun _ => true) (surge 0 1) (surge 1 0).
Proof.
  constructor; try reflexivity.
  - constructor; try reflexivity.
    + intros k j Hk Hj. simpl in Hj. do 3 (destruct j as [|j]; [split; reflexivity|]). lia.
    + intros k j Hk Hj. simpl in Hj. do 3 (destruct j as [|j]; [split; reflexivity|]). lia.
    + intros k Hk. cbn. repeat split; reflexivity.
    + intros k j Hk Hj. cbn. repeat split; try reflexivity. lra.
  - intros k j Hk Hj. split; reflexivity.
Qed.

(** C74, refuted for three or more links with a depth on its limit: from rest the prescribed heads rise by the same amount
    at both ends of a symmetric channel.  With the channel entered from junction 0 to junction 1, and entered from 1 to 0, the
    object reports a positive flow in the middle link both times, so the water is said to move in opposite directions
    (by symmetry it cannot move at all). *)
Theorem C74_limited_depth_depends_on_direction_refuted :
  exists rv D D' m m' i,
    sound D /\ sound D' /\ tabled D /\ mirrored_design rv D D' /\ healthy D m /\ healthy D' m' /\ mirrored_object rv D m m' /\
    mirrored_inputs rv D i i /\ admissible D i 60 /\ admissible D' i 60 /\
    exists r r', perform_all D (gauss 2) [Step i 60 1 0] m = Some r /\ perform_all D' (gauss 2) [Step i 60 1 0] m' = Some r' /\
      h_Q (b_st (m_body r)) 1%nat > 0 /\ h_Q (b_st (m_body r')) 1%nat > 0 /\ ~ mirrored_view rv D r r'.
Proof.
  pose proof (surge_sound 0 1 ltac:(lia) ltac:(lia)) as S1. pose proof (surge_sound 1 0 ltac:(lia) ltac:(lia)) as S2.
  assert (W1 : watered (surge 0 1) surge_state) by (intros i Hi; simpl; lra).
  assert (W2 : watered (surge 1 0) surge_state) by (intros i Hi; simpl; lra).
  assert (H1 : healthy (surge 0 1) (starting surge_state)) by (split; [exact W1|split; [constructor|exact W1]]).
  assert (H2 : healthy (surge 1 0) (starting surge_state)) by (split; [exact W2|split; [constructor|exact W2]]).
  assert (A1 : admissible (surge 0 1) surge_inputs 60) by (split; [lra|split; simpl; intros; lia]).
  assert (A2 : admissible (surge 1 0) surge_inputs 60) by (split; [lra|split; simpl; intros; lia]).
  exists (fun _ => true), (surge 0 1), (surge 1 0), (starting surge_state), (starting surge_state), surge_inputs.
  split; [exact S1|]. split; [exact S2|]. split.
  { constructor; simpl; intros; try lia. do 3 (destruct i as [|i]; [simpl; auto; right; lia|]). lia. }
  split; [exact surge_mirrors|]. split; [exact H1|]. split; [exact H2|].
  assert (MS : mirrored_state (fun _ => true) (surge_net 0 1) surge_state surge_state).
  { constructor; try reflexivity; intros; cbn; try (split; lra); lra. }
  split.
  { constructor; try reflexivity; [|split; [exact MS|constructor; reflexivity]].
    split; [reflexivity|]. split; [exact MS|]. constructor; reflexivity. }
  split; [split; [intros k j Hk Hj; reflexivity|repeat split]|]. split; [exact A1|]. split; [exact A2|].
  destruct (object_step_total (surge 0 1) (gauss 2) S1 (gauss_solver 2) surge_inputs 60 1 0 (starting surge_state) A1 H1) as ((r & p) & E & _).
  destruct (object_step_total (surge 1 0) (gauss 2) S2 (gauss_solver 2) surge_inputs 60 1 0 (starting surge_state) A2 H2) as ((r' & p') & E' & _).
  exists r, r'. cbn [perform_all perform]. rewrite E, E'. cbn [bind fst]. split; [reflexivity|]. split; [reflexivity|].
  pose proof (surge_flow 0 1 r p ltac:(lia) ltac:(lia) E) as F1. pose proof (surge_flow 1 0 r' p' ltac:(lia) ltac:(lia) E') as F2.
  split; [exact F1|]. split; [exact F2|]. intros (_ & [_ _ _ SQ] & _).
  pose proof (SQ 0%nat 1%nat ltac:(simpl; lia) ltac:(simpl; lia)) as X. cbn [surge d_net surge_net n_i1 n_nk Nat.add flip_link turn Nat.sub] in X. lra.
Qed.

(** ** Witness with three links: the first superlink of [demo] turned round, water at rest *)
Definition first (k : nat) : bool := Nat.eqb k 0.
Definition first_net : network :=
  let n := rest_net in
  mkNetwork (n_K n) (n_nk n) (n_i1 n) (n_I1 n) (fun _ => 1%nat) (fun k => if first k then 0%nat else 2%nat)
    (n_L n) (n_J n) (n_kI n) (n_fwdi n) (n_bwdi n) (n_isS n) (n_isE n)
    (n_lstart n) (n_lend n) (n_dx n) (n_n n) (n_sf n) (fun i => if Nat.leb i 2 then - (1/10) else 1/10) (n_Ac n) (n_C n) (fun i => Nat.eqb i 0) (n_ASI n)
    (n_dxu n) (n_dxd n) (fun k => if first k then 1 else 1/2) (fun k => if first k then 1/2 else 1)
    (fun k => if first k then 0 else 2) (fun k => if first k then 3 else 0)
    (n_nu n) (n_nd n) (n_sfu n) (n_sfd n) (n_Su n) (n_Sd n) (n_M n) (n_bc n) (n_zj n) (n_maxj n) (n_min n) (n_maxk n)
    (n_end_o n) (n_bcm n) (n_damp n) (n_back n).
Definition turned3 : design := with_net first_net (fun i => if Nat.leb i 2 then d_sec demo (2 - i) else d_sec demo i).
Definition turned3_state : hstate :=
  mkHState (fun _ => 10) (fun _ => 0) (fun _ => 0) (fun I => if Nat.leb I 3 then 10 - rest_bed (3 - I)%nat else 10 - rest_bed I) (fun _ => 0).

Example C74_three_links_example :
  sound demo /\ sound turned3 /\ tabled demo /\ mirrored_design first demo turned3 /\ (n_nk rest_net 0 = 3)%nat /\
  healthy demo demo_object /\ healthy turned3 (starting turned3_state) /\ mirrored_object first demo demo_object (starting turned3_state) /\
  calm first demo (gauss 3) [Step quiet_inputs 60 5 0] demo_object /\
  exists r r', perform_all demo (gauss 3) [Step quiet_inputs 60 5 0] demo_object = Some r /\
    perform_all turned3 (gauss 3) [Step quiet_inputs 60 5 0] (starting turned3_state) = Some r' /\ mirrored_view first demo r r'.
Proof.
  destruct C28_example as (B & L & Rs & _). destruct C58_example as (_ & _ & C & _).
  assert (S1 : still demo rest_bed 10 (m_body demo_object)) by (constructor; [exact Rs|reflexivity|reflexivity|reflexivity]).
  assert (S2 : still_saved demo rest_bed 10 (snd (m_saved demo_object))) by (split; [exact Rs|split; [reflexivity|split; reflexivity]]).
  assert (Q : quiet demo 10 quiet_inputs).
  { constructor; try reflexivity. intros o Ho. simpl in *. split; [lra|right; lra]. }
  assert (A : admissible demo quiet_inputs 60) by (split; [lra|split]; simpl; intros; unfold zeros; lra).
  assert (A' : admissible turned3 quiet_inputs 60) by (split; [lra|split]; simpl; intros; unfold zeros; lra).
  assert (T : tabled demo) by (destruct flat_tabled as [T1 T2 T3]; constructor; auto).
  assert (SD : sound turned3).
  { apply wide_sound; try reflexivity; [|simpl; lra|simpl; intros k Hk; destruct k; simpl; lra|].
    - destruct rest_net_ok as [[W1 W2 W3 W4] _]. constructor; auto. intros k Hk. simpl in *. unfold first. destruct k as [|[|k]]; simpl; lia.
    - intros i Hi. destruct (Nat.leb_spec i 2); apply (sd_links _ demo_sound); change (n_L (d_net demo)) with 5%nat; lia. }
  assert (MD : mirrored_design first demo turned3).
  { constructor; try reflexivity.
    - constructor; try reflexivity.
      + intros [|[|k]] j Hk Hj; simpl in Hk; [| |lia]; cbn in Hj; do 3 (destruct j as [|j]; [first [lia|split; reflexivity]|]); lia.
      + intros [|[|k]] j Hk Hj; simpl in Hk; [| |lia]; cbn in Hj; do 3 (destruct j as [|j]; [first [lia|split; reflexivity]|]); lia.
      + intros [|[|k]] Hk; simpl in Hk; [| |lia]; cbn; repeat split; reflexivity.
      + intros [|[|k]] j Hk Hj; simpl in Hk; [| |lia]; cbn in Hj; do 3 (destruct j as [|j]; [first [lia|cbn; repeat split; reflexivity]|]); lia.
    - intros [|[|k]] j Hk Hj; simpl in Hk; [| |lia]; cbn in Hj; do 3 (destruct j as [|j]; [first [lia|split; reflexivity]|]); lia.
    - intros [|[|k]] j Hk Hj; simpl in Hk; [| |lia]; cbn in Hj; do 3 (destruct j as [|j]; [first [lia|reflexivity]|]); lia. }
  assert (W : watered demo rest_state).
  { intros i Hi. simpl in Hi. cbn [rest_state h_h demo d_Ik]. unfold rest_bed. do 5 (destruct i as [|i]; [simpl; lra|]). lia. }
  assert (W' : watered turned3 turned3_state).
  { intros i Hi. simpl in Hi. cbn [turned3_state h_h turned3 with_net demo d_Ik]. unfold rest_bed. do 5 (destruct i as [|i]; [simpl; lra|]). lia. }
  assert (H : healthy demo demo_object) by (split; [exact W|split; [constructor|exact W]]).
  assert (H' : healthy turned3 (starting turned3_state)) by (split; [exact W'|split; [constructor|exact W']]).
  assert (MS : mirrored_state first rest_net rest_state turned3_state).
  { constructor.
    - reflexivity.
    - intros [|[|k]] Hk; simpl in Hk; [| |lia]; split; cbn; lra.
    - intros [|[|k]] j Hk Hj; simpl in Hk; [| |lia]; cbn in Hj; do 4 (destruct j as [|j]; [first [lia|reflexivity]|]); lia.
    - intros [|[|k]] j Hk Hj; simpl in Hk; [| |lia]; cbn in Hj; do 3 (destruct j as [|j]; [first [lia|cbn; lra]|]); lia. }
  assert (MO : mirrored_object first demo demo_object (starting turned3_state)).
  { constructor; try reflexivity.
    - split; [reflexivity|]. split; [exact MS|]. constructor; reflexivity.
    - intros k Hk. unfold pick. cbn. now destruct (first k).
    - intros k Hk. unfold pick. cbn. now destruct (first k).
    - split; [exact MS|]. constructor; reflexivity. }
  assert (Cm : calm first demo (gauss 3) [Step quiet_inputs 60 5 0] demo_object).
  { split; [|intros; exact I]. intros p r q _ E k Hk Hr. right. intros j H1 H2.
    destruct (C28_rest_lasts_for_every_history demo (gauss 3) demo_sound (gauss_solver 3) rest_bed 10 B L demo_object [Step quiet_inputs 60 p 0] C S1 S2) as (m' & E' & St).
    - intros a [<-|[]]. split; auto.
    - cbn [perform_all perform] in E'. rewrite E in E'. cbn [bind fst] in E'. injection E' as <-.
      rewrite (ar_depths _ _ _ _ (sl_rest _ _ _ _ St) k j Hk ltac:(lia)). destruct k as [|k]; [|discriminate]. cbn in H2.
      unfold rest_bed. destruct j as [|[|[|j]]]; [lia| | |lia]; simpl; lra. }
  split; [exact demo_sound|]. split; [exact SD|]. split; [exact T|]. split; [exact MD|]. split; [reflexivity|]. split; [exact H|]. split; [exact H'|].
  split; [exact MO|]. split; [exact Cm|].
  apply (C74_direction_is_a_convention first demo turned3 (gauss 3) (gauss 3) demo_sound SD T MD (gauss_solver 3) (gauss_solver 3)); auto.
  - constructor; [|constructor]. apply ma_step. split; [|repeat split]. intros k j Hk Hj. reflexivity.
  - intros a [<-|[]]. exact A.
  - intros a [<-|[]]. exact A'.
Qed.
