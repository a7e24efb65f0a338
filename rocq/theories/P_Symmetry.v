(** Property C82: a symmetric model stays symmetric; identical parts in parallel carry identical flows. *)
From Coq Require Import ZArith FinFun.
From Verif Require Import Prelude M_Numerics M_Coeffs M_Recurrence M_Assembly M_Step M_Geometry M_Storage M_Controls M_Simulation M_Model
  S_Numerics S_Geometry S_Superlink S_Network S_Step S_Simulation S_Model S_Object S_Replay S_Mirror S_Embed L_Forward L_Backward L_Internals L_Coeffs L_Step
  P_Assembly P_Superlink P_Wellposed P_Step P_Limits P_Simulation
  L_Model L_Gauss P_Model P_Replay L_Relate P_Resume P_Object P_MirrorCases L_Embed L_EmbedObject P_Embed P_EmbedCases.

(** ** Vocabulary *)
(** The same inputs, and the same loaded states, at places that the symmetry exchanges. *)
Definition symmetric_action (F : place) (D : design) (a : action) : Prop :=
  match a with
  | Step i _ _ _ => embedded_inputs F D D i i
  | Load _ v => embedded_saved F D D v v
  | Save | Restore => True
  end.

(** Two superlinks with the same ends and the same dimensions. *)
Record same_superlinks (D : design) (a b : nat) : Prop := mkSame {
  sm_a : (a < n_K (d_net D))%nat; sm_b : (b < n_K (d_net D))%nat;
  sm_ends : let N := d_net D in
    n_nk N b = n_nk N a /\ n_maxk N b = n_maxk N a /\ n_Ju N b = n_Ju N a /\ n_Jd N b = n_Jd N a /\
    n_zu N b = n_zu N a /\ n_zd N b = n_zd N a /\ n_Cu N b = n_Cu N a /\ n_Cd N b = n_Cd N a /\ n_dxu N b = n_dxu N a /\ n_dxd N b = n_dxd N a;
  sm_links : forall j, (j < n_nk (d_net D) a)%nat -> let N := d_net D in
    let i' := (n_i1 N b + j)%nat in
    let i := (n_i1 N a + j)%nat in
    n_dx N i' = n_dx N i /\ n_n N i' = n_n N i /\ n_sf N i' = n_sf N i /\ n_Ac N i' = n_Ac N i /\
    n_C N i' = n_C N i /\ n_ctrl N i' = n_ctrl N i /\ n_So N i' = n_So N i /\ d_sec D i' = d_sec D i;
  sm_nodes : forall j, (j <= n_nk (d_net D) a)%nat ->
    n_ASI (d_net D) (n_I1 (d_net D) b + j)%nat = n_ASI (d_net D) (n_I1 (d_net D) a + j)%nat }.
(** The same water in both. *)
Definition same_water (N : network) (a b : nat) (st : hstate) : Prop :=
  h_Qu st b = h_Qu st a /\ h_Qd st b = h_Qd st a /\
  (forall j, (j <= n_nk N a)%nat -> h_h st (n_I1 N b + j)%nat = h_h st (n_I1 N a + j)%nat) /\
  (forall j, (j < n_nk N a)%nat -> h_Q st (n_i1 N b + j)%nat = h_Q st (n_i1 N a + j)%nat).
Definition same_treatment (N : network) (a b : nat) (x : action) : Prop :=
  match x with
  | Step i _ _ _ => forall j, (j <= n_nk N a)%nat -> i_Q0 i (n_I1 N b + j)%nat = i_Q0 i (n_I1 N a + j)%nat
  | Load _ v => same_water N a b (v_st v)
  | Save | Restore => True
  end.

(** Two orifices, two weirs, two pumps with the same ends and the same dimensions. *)
Definition same_orifices (D : design) (a b : nat) : Prop :=
  let O := d_or D in
  (a < o_n O)%nat /\ (b < o_n O)%nat /\ o_Ju O b = o_Ju O a /\ o_Jd O b = o_Jd O a /\ o_C O b = o_C O a /\ o_z O b = o_z O a /\
  o_tau O b = o_tau O a /\ o_ymax O b = o_ymax O a /\ o_oneway O b = o_oneway O a /\
  d_ocode D b = d_ocode D a /\ d_o1 D b = d_o1 D a /\ d_o2 D b = d_o2 D a /\ d_o3 D b = d_o3 D a.
Definition same_weirs (D : design) (a b : nat) : Prop :=
  let W := d_we D in
  (a < w_n W)%nat /\ (b < w_n W)%nat /\ w_Ju W b = w_Ju W a /\ w_Jd W b = w_Jd W a /\ w_z W b = w_z W a /\ w_ymax W b = w_ymax W a /\
  w_L W b = w_L W a /\ w_s W b = w_s W a /\ w_Cr W b = w_Cr W a /\ w_Ct W b = w_Ct W a.
Definition same_pumps (D : design) (a b : nat) : Prop :=
  let P := d_pu D in
  (a < p_n P)%nat /\ (b < p_n P)%nat /\ p_Ju P b = p_Ju P a /\ p_Jd P b = p_Jd P a /\ p_z P b = p_z P a /\ p_max P b = p_max P a /\
  p_min P b = p_min P a /\ p_a P b = p_a P a /\ p_b P b = p_b P a /\ p_c P b = p_c P a.
(** The two are opened alike, and loaded states contain the same flow in both. *)
Definition same_setting (u : inputs -> arr) (q : saved -> arr) (a b : nat) (x : action) : Prop :=
  match x with Step i _ _ _ => u i b = u i a | Load _ v => q v b = q v a | Save | Restore => True end.

(** ** Permutations of finitely many elements *)
Lemma found_onto f n : found f n n -> forall y, (y < n)%nat -> exists x, (x < n)%nat /\ f x = y.
Proof. intros [B I]. apply (proj1 (bInjective_bSurjective B)). exact I. Qed.
Lemma closed_onto f fj n M bc J : found f n n -> closed_at f fj n n M bc J.
Proof. intros H x' j Hx _ _ _. exact (found_onto f n H x' Hx). Qed.

Section Symmetric.
Variable F : place.
Variable D : design.
Variable slv : mat -> arr -> option arr.
Local Notation N := (d_net D).
Hypothesis HD : sound D.
Hypothesis HT : tabled D.
Hypothesis HF : embedded_design F D D.
Hypothesis Hz : pz F = 0.
Hypothesis Hslv : solver (n_M N) slv.

(** C82: let a renumbering of superjunctions, superlinks and controls leave a model as it is.  If an object starts with equal
    values wherever the renumbering leads, and gets inputs and loaded states with that symmetry, then after every history of
    steps (any number of iterations, any tolerance), saves and loads it still has equal values there. *)
Theorem C82_symmetric_models_stay_symmetric : forall (m : object) l,
  healthy D m -> embedded_object F D D m m -> (forall a, In a l -> allowed D a /\ symmetric_action F D a) ->
  exists r, perform_all D slv l m = Some r /\
    let st := b_st (m_body r) in
    (forall j, (j < n_M N)%nat -> h_H st (pj F j) = h_H st j) /\
    (forall k, (k < n_K N)%nat -> h_Qu st (pk F k) = h_Qu st k /\ h_Qd st (pk F k) = h_Qd st k) /\
    (forall k j, (k < n_K N)%nat -> (j <= n_nk N k)%nat -> h_h st (n_I1 N (pk F k) + j)%nat = h_h st (n_I1 N k + j)%nat) /\
    (forall k j, (k < n_K N)%nat -> (j < n_nk N k)%nat -> h_Q st (n_i1 N (pk F k) + j)%nat = h_Q st (n_i1 N k + j)%nat) /\
    (forall o, (o < o_n (d_or D))%nat -> b_Qo (m_body r) (po F o) = b_Qo (m_body r) o) /\
    (forall w, (w < w_n (d_we D))%nat -> b_Qw (m_body r) (pw F w) = b_Qw (m_body r) w) /\
    (forall p, (p < p_n (d_pu D))%nat -> b_Qp (m_body r) (pp F p) = b_Qp (m_body r) p).
Proof.
  intros m l Hm Sm Hl.
  destruct (C77_only_what_is_connected_matters F D D slv slv HD HD HT HF Hslv Hslv m m l l) as (r & r' & E & E' & _ & [S1 S2 S3 S4] & [C1 C2 C3]);
    auto; try (intros a Ha; apply (Hl a Ha)).
  - clear m Hm Sm. induction l as [|a l IH]; constructor; [|apply IH; intros; apply Hl; now right].
    destruct (Hl a (or_introl eq_refl)) as (_ & Sa). destruct a; constructor; auto.
    right. right. exact (found_onto _ _ (en_j _ _ _ (ed_net _ _ _ HF))).
  - rewrite E in E'. injection E' as <-. exists r. split; [exact E|]. cbv zeta.
    split; [intros j Hj; rewrite S1 by auto; lra|]. auto 15.
Qed.
End Symmetric.

(** ** Two elements exchanged *)
Definition swap (a b x : nat) : nat := if Nat.eqb x a then b else if Nat.eqb x b then a else x.
Lemma swap_cases a b x : (x = a /\ swap a b x = b) \/ (x = b /\ swap a b x = a) \/ swap a b x = x.
Proof. unfold swap. destruct (Nat.eqb_spec x a); [auto|]. destruct (Nat.eqb_spec x b); auto. Qed.
Lemma swap_left a b : swap a b a = b.
Proof. unfold swap. now rewrite Nat.eqb_refl. Qed.
Lemma swap_found a b n : (a < n)%nat -> (b < n)%nat -> found (swap a b) n n.
Proof.
  intros Ha Hb. split; intros x; intros.
  - destruct (swap_cases a b x) as [[-> ->]|[[-> ->]| ->]]; auto.
  - revert H1. unfold swap. destruct (Nat.eqb_spec x a), (Nat.eqb_spec y a), (Nat.eqb_spec x b), (Nat.eqb_spec y b); lia.
Qed.
(** What agrees at a and b is left as it is. *)
Lemma swap_same {A : Type} (f : nat -> A) a b x : f b = f a -> f (swap a b x) = f x.
Proof. intros E. destruct (swap_cases a b x) as [[-> ->]|[[-> ->]| ->]]; auto. Qed.

Section Twins.
Variable D : design.
Variable slv : mat -> arr -> option arr.
Local Notation N := (d_net D).
Hypothesis HD : sound D.
Hypothesis HT : tabled D.
Hypothesis Hch : chained D.
Hypothesis Hmk : link_marks N.
Hypothesis Hslv : solver (n_M N) slv.

Definition superlinks_swapped a b : place := mkPlace (fun x => x) (swap a b) (fun x => x) (fun x => x) (fun x => x) 0.
Definition orifices_swapped a b : place := mkPlace (fun x => x) (fun x => x) (swap a b) (fun x => x) (fun x => x) 0.
Definition weirs_swapped a b : place := mkPlace (fun x => x) (fun x => x) (fun x => x) (swap a b) (fun x => x) 0.
Definition pumps_swapped a b : place := mkPlace (fun x => x) (fun x => x) (fun x => x) (fun x => x) (swap a b) 0.

Lemma orifices_same F : pj F = (fun x => x) -> po F = (fun x => x) -> embedded_orifices F D D.
Proof. intros E1 E2. unfold embedded_orifices. rewrite E1, E2. split; [apply found_same|]. split; [apply closed_same|]. split; [apply closed_same|]. auto 15. Qed.
Lemma weirs_same F : pj F = (fun x => x) -> pw F = (fun x => x) -> embedded_weirs F D D.
Proof. intros E1 E2. unfold embedded_weirs. rewrite E1, E2. split; [apply found_same|]. split; [apply closed_same|]. split; [apply closed_same|]. auto 15. Qed.
Lemma pumps_same F : pj F = (fun x => x) -> pp F = (fun x => x) -> embedded_pumps F D D.
Proof. intros E1 E2. unfold embedded_pumps. rewrite E1, E2. split; [apply found_same|]. split; [apply closed_same|]. split; [apply closed_same|]. auto 15. Qed.
Lemma network_same F : pj F = (fun x => x) -> pk F = (fun x => x) -> pz F = 0 -> embedded_network F N N.
Proof.
  intros E1 E2 E3. constructor; rewrite ?E1, ?E2, ?E3; auto; try apply found_same; try apply closed_same; cbv zeta; intros;
    rewrite ?Rplus_0_r; auto 15.
Qed.
Lemma state_same F st : pj F = (fun x => x) -> pk F = (fun x => x) -> pz F = 0 -> embedded_state F N N st st.
Proof. intros E1 E2 E3. constructor; unfold embedded_nodes; rewrite ?E1, ?E2, ?E3; auto; intros; lra. Qed.

(** *** Superlinks *)
Lemma superlinks_design a b : same_superlinks D a b -> embedded_design (superlinks_swapped a b) D D.
Proof.
  intros [Ha Hb He Hl Hn]. cbv zeta in *. destruct He as (E1 & E2 & E3 & E4 & E5 & E6 & E7 & E8 & E9 & E10).
  constructor; auto; try (apply orifices_same; reflexivity); try (apply weirs_same; reflexivity); try (apply pumps_same; reflexivity).
  - constructor; auto; cbn [superlinks_swapped pj pk pz].
    + apply found_same.
    + apply swap_found; auto.
    + apply closed_onto, swap_found; auto.
    + apply closed_onto, swap_found; auto.
    + intros j _. rewrite Rplus_0_r. auto.
    + intros k _. cbv zeta. rewrite !Rplus_0_r.
      rewrite (swap_same (n_nk N)), (swap_same (n_maxk N)), (swap_same (n_Ju N)), (swap_same (n_Jd N)), (swap_same (n_zu N)), (swap_same (n_zd N)),
        (swap_same (n_Cu N)), (swap_same (n_Cd N)), (swap_same (n_dxu N)), (swap_same (n_dxd N)) by auto. auto 15.
    + intros k j _ Hj. cbv zeta. destruct (swap_cases a b k) as [[-> ->]|[[-> ->]| ->]]; [| |auto 15].
      * destruct (Hl j Hj) as (? & ? & ? & ? & ? & ? & ? & ?). auto 15.
      * rewrite E1 in Hj. destruct (Hl j Hj) as (? & ? & ? & ? & ? & ? & ? & ?). auto 15.
    + intros k j _ Hj. destruct (swap_cases a b k) as [[-> ->]|[[-> ->]| ->]]; auto. rewrite E1 in Hj. symmetry. auto.
  - intros k j _ Hj. cbn [superlinks_swapped pk]. destruct (swap_cases a b k) as [[-> ->]|[[-> ->]| ->]]; auto.
    + apply (Hl j Hj).
    + rewrite E1 in Hj. symmetry. apply (Hl j Hj).
Qed.

Lemma nodes_swapped a b (x : arr) : n_nk N b = n_nk N a -> (forall j, (j <= n_nk N a)%nat -> x (n_I1 N b + j)%nat = x (n_I1 N a + j)%nat) ->
  embedded_nodes (superlinks_swapped a b) N N x x.
Proof.
  intros E H k j _ Hj. cbn [superlinks_swapped pk]. destruct (swap_cases a b k) as [[-> ->]|[[-> ->]| ->]]; auto.
  rewrite E in Hj. symmetry. auto.
Qed.
Lemma water_swapped a b st : n_nk N b = n_nk N a -> same_water N a b st -> embedded_state (superlinks_swapped a b) N N st st.
Proof.
  intros E (W1 & W2 & W3 & W4). constructor; cbn [superlinks_swapped pj pk pz].
  - intros; lra.
  - intros k _. now rewrite (swap_same (h_Qu st)), (swap_same (h_Qd st)).
  - now apply nodes_swapped.
  - intros k j _ Hj. destruct (swap_cases a b k) as [[-> ->]|[[-> ->]| ->]]; auto. rewrite E in Hj. symmetry. auto.
Qed.

(** C82 for two identical superlinks between the same superjunctions: with equal lateral inflows they always carry the same
    flows at the same depths, whatever else the model contains. *)
Theorem C82_identical_superlinks_share : forall a b (m : object) l,
  same_superlinks D a b -> healthy D m ->
  same_water N a b (b_st (m_body m)) -> same_water N a b (v_st (snd (m_saved m))) ->
  b_thu (m_body m) b = b_thu (m_body m) a -> b_thd (m_body m) b = b_thd (m_body m) a ->
  (forall x, In x l -> allowed D x /\ same_treatment N a b x) ->
  exists r, perform_all D slv l m = Some r /\ same_water N a b (b_st (m_body r)).
Proof.
  intros a b m l Hs Hm Wm Ws Tu Td Hl. assert (E := proj1 (sm_ends _ _ _ Hs)). cbv zeta in E.
  destruct (C82_symmetric_models_stay_symmetric (superlinks_swapped a b) D slv HD HT (superlinks_design a b Hs) eq_refl Hslv m l)
    as (r & Er & _ & S2 & S3 & S4 & _); auto.
  - constructor; cbn [superlinks_swapped pk]; auto.
    + split; [reflexivity|]. split; [now apply water_swapped|constructor; auto].
    + intros k _. now rewrite (swap_same (b_thu (m_body m))).
    + intros k _. now rewrite (swap_same (b_thd (m_body m))).
    + split; [now apply water_swapped|constructor; auto].
  - intros x Hx. destruct (Hl x Hx) as (Ax & Tx). split; [exact Ax|]. destruct x; cbn [symmetric_action same_treatment] in *; auto.
    + constructor; auto; [now apply nodes_swapped|cbn; intros; lra].
    + split; [now apply water_swapped|constructor; auto].
  - exists r. split; [exact Er|]. cbn [superlinks_swapped pj pk pz] in *.
    destruct (S2 a (sm_a _ _ _ Hs)) as (Q1 & Q2). rewrite swap_left in Q1, Q2. split; [auto|]. split; [auto|].
    split; intros j Hj; [specialize (S3 a j (sm_a _ _ _ Hs) Hj)|specialize (S4 a j (sm_a _ _ _ Hs) Hj)]; now rewrite swap_left in *.
Qed.

(** *** Controls *)
(** C82 for two identical orifices between the same superjunctions: opened alike, they always pass the same flow. *)
Theorem C82_identical_orifices_share : forall a b (m : object) l,
  same_orifices D a b -> healthy D m ->
  b_Qo (m_body m) b = b_Qo (m_body m) a -> v_Qo (snd (m_saved m)) b = v_Qo (snd (m_saved m)) a ->
  (forall x, In x l -> allowed D x /\ same_setting i_uo v_Qo a b x) ->
  exists r, perform_all D slv l m = Some r /\ b_Qo (m_body r) b = b_Qo (m_body r) a.
Proof.
  intros a b m l (Ha & Hb & E1 & E2 & E3 & E4 & E5 & E6 & E7 & E8 & E9 & E10 & E11) Hm Wm Ws Hl.
  destruct (C82_symmetric_models_stay_symmetric (orifices_swapped a b) D slv HD HT) with (m := m) (l := l)
    as (r & Er & _ & _ & _ & _ & S5 & _); auto.
  - constructor; auto; try (apply weirs_same; reflexivity); try (apply pumps_same; reflexivity); [apply network_same; reflexivity|].
    split; [apply swap_found; auto|]. split; [apply closed_onto, swap_found; auto|]. split; [apply closed_onto, swap_found; auto|].
    intros x _. cbv zeta. cbn [orifices_swapped pj po].
    rewrite (swap_same (o_Ju (d_or D))), (swap_same (o_Jd (d_or D))), (swap_same (o_C (d_or D))), (swap_same (o_z (d_or D))), (swap_same (o_tau (d_or D))),
      (swap_same (o_ymax (d_or D))), (swap_same (o_oneway (d_or D))), (swap_same (d_ocode D)), (swap_same (d_o1 D)), (swap_same (d_o2 D)), (swap_same (d_o3 D)) by auto.
    auto 15.
  - constructor; auto.
    + split; [reflexivity|]. split; [apply state_same; reflexivity|]. constructor; auto. intros o _. cbn. now rewrite (swap_same (b_Qo (m_body m))).
    + split; [apply state_same; reflexivity|]. constructor; auto. intros o _. cbn. now rewrite (swap_same (v_Qo (snd (m_saved m)))).
  - intros x Hx. destruct (Hl x Hx) as (Ax & Tx). split; [exact Ax|]. destruct x; cbn [symmetric_action same_setting] in *; auto.
    + constructor; auto; [intros k j _ _; reflexivity|cbn; intros; lra|]. intros o _. cbn. now rewrite (swap_same (i_uo i)).
    + split; [apply state_same; reflexivity|]. constructor; auto. intros o _. cbn. now rewrite (swap_same (v_Qo v)).
  - exists r. split; [exact Er|]. specialize (S5 a Ha). cbn in S5. now rewrite swap_left in S5.
Qed.

(** The same for weirs. *)
Theorem C82_identical_weirs_share : forall a b (m : object) l,
  same_weirs D a b -> healthy D m ->
  b_Qw (m_body m) b = b_Qw (m_body m) a -> v_Qw (snd (m_saved m)) b = v_Qw (snd (m_saved m)) a ->
  (forall x, In x l -> allowed D x /\ same_setting i_uw v_Qw a b x) ->
  exists r, perform_all D slv l m = Some r /\ b_Qw (m_body r) b = b_Qw (m_body r) a.
Proof.
  intros a b m l (Ha & Hb & E1 & E2 & E3 & E4 & E5 & E6 & E7 & E8) Hm Wm Ws Hl.
  destruct (C82_symmetric_models_stay_symmetric (weirs_swapped a b) D slv HD HT) with (m := m) (l := l)
    as (r & Er & _ & _ & _ & _ & _ & S5 & _); auto.
  - constructor; auto; try (apply orifices_same; reflexivity); try (apply pumps_same; reflexivity); [apply network_same; reflexivity|].
    split; [apply swap_found; auto|]. split; [apply closed_onto, swap_found; auto|]. split; [apply closed_onto, swap_found; auto|].
    intros x _. cbv zeta. cbn [weirs_swapped pj pw].
    rewrite (swap_same (w_Ju (d_we D))), (swap_same (w_Jd (d_we D))), (swap_same (w_z (d_we D))), (swap_same (w_ymax (d_we D))), (swap_same (w_L (d_we D))),
      (swap_same (w_s (d_we D))), (swap_same (w_Cr (d_we D))), (swap_same (w_Ct (d_we D))) by auto.
    auto 15.
  - constructor; auto.
    + split; [reflexivity|]. split; [apply state_same; reflexivity|]. constructor; auto. intros o _. cbn. now rewrite (swap_same (b_Qw (m_body m))).
    + split; [apply state_same; reflexivity|]. constructor; auto. intros o _. cbn. now rewrite (swap_same (v_Qw (snd (m_saved m)))).
  - intros x Hx. destruct (Hl x Hx) as (Ax & Tx). split; [exact Ax|]. destruct x; cbn [symmetric_action same_setting] in *; auto.
    + constructor; auto; [intros k j _ _; reflexivity|cbn; intros; lra|]. intros o _. cbn. now rewrite (swap_same (i_uw i)).
    + split; [apply state_same; reflexivity|]. constructor; auto. intros o _. cbn. now rewrite (swap_same (v_Qw v)).
  - exists r. split; [exact Er|]. specialize (S5 a Ha). cbn in S5. now rewrite swap_left in S5.
Qed.

(** The same for pumps. *)
Theorem C82_identical_pumps_share : forall a b (m : object) l,
  same_pumps D a b -> healthy D m ->
  b_Qp (m_body m) b = b_Qp (m_body m) a -> v_Qp (snd (m_saved m)) b = v_Qp (snd (m_saved m)) a ->
  (forall x, In x l -> allowed D x /\ same_setting i_up v_Qp a b x) ->
  exists r, perform_all D slv l m = Some r /\ b_Qp (m_body r) b = b_Qp (m_body r) a.
Proof.
  intros a b m l (Ha & Hb & E1 & E2 & E3 & E4 & E5 & E6 & E7 & E8) Hm Wm Ws Hl.
  destruct (C82_symmetric_models_stay_symmetric (pumps_swapped a b) D slv HD HT) with (m := m) (l := l)
    as (r & Er & _ & _ & _ & _ & _ & _ & S5); auto.
  - constructor; auto; try (apply orifices_same; reflexivity); try (apply weirs_same; reflexivity); [apply network_same; reflexivity|].
    split; [apply swap_found; auto|]. split; [apply closed_onto, swap_found; auto|]. split; [apply closed_onto, swap_found; auto|].
    intros x _. cbv zeta. cbn [pumps_swapped pj pp].
    rewrite (swap_same (p_Ju (d_pu D))), (swap_same (p_Jd (d_pu D))), (swap_same (p_z (d_pu D))), (swap_same (p_max (d_pu D))), (swap_same (p_min (d_pu D))),
      (swap_same (p_a (d_pu D))), (swap_same (p_b (d_pu D))), (swap_same (p_c (d_pu D))) by auto.
    auto 15.
  - constructor; auto.
    + split; [reflexivity|]. split; [apply state_same; reflexivity|]. constructor; auto. intros o _. cbn. now rewrite (swap_same (b_Qp (m_body m))).
    + split; [apply state_same; reflexivity|]. constructor; auto. intros o _. cbn. now rewrite (swap_same (v_Qp (snd (m_saved m)))).
  - intros x Hx. destruct (Hl x Hx) as (Ax & Tx). split; [exact Ax|]. destruct x; cbn [symmetric_action same_setting] in *; auto.
    + constructor; auto; [intros k j _ _; reflexivity|cbn; intros; lra|]. intros o _. cbn. now rewrite (swap_same (i_up i)).
    + split; [apply state_same; reflexivity|]. constructor; auto. intros o _. cbn. now rewrite (swap_same (v_Qp v)).
  - exists r. split; [exact Er|]. specialize (S5 a Ha). cbn in S5. now rewrite swap_left in S5.
Qed.
End Twins.
