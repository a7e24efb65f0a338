(** Specification vocabulary for C74: the same network entered with some superlinks the other way round.  [rv k] says that
    superlink k is turned round: its ends change places, its links and internal junctions are numbered backwards, slopes
    and flows change sign. *)
From Verif Require Import Prelude M_Coeffs M_Recurrence M_Step M_Controls M_Simulation M_Model S_Superlink S_Network S_Step S_Model.

Definition pick {A : Type} (r : bool) (x y : A) : A := if r then y else x.
Definition turn (r : bool) (x : R) : R := if r then - x else x.
(** Position of link j, of internal junction j, of a superlink with n links. *)
Definition flip_link (r : bool) (n j : nat) : nat := if r then (n - 1 - j)%nat else j.
Definition flip_node (r : bool) (n j : nat) : nat := if r then (n - j)%nat else j.

(** The first and the last link of every superlink are marked as such. *)
Definition link_marks (N : network) : Prop :=
  forall k j, (k < n_K N)%nat -> (j < n_nk N k)%nat ->
    n_lstart N (n_i1 N k + j)%nat = Nat.eqb j 0 /\ n_lend N (n_i1 N k + j)%nat = Nat.eqb j (n_nk N k - 1).

Record mirrored_network (rv : nat -> bool) (N N' : network) : Prop := mkMN {
  mn_K : n_K N' = n_K N; mn_nk : n_nk N' = n_nk N; mn_i1 : n_i1 N' = n_i1 N; mn_I1 : n_I1 N' = n_I1 N;
  mn_L : n_L N' = n_L N; mn_J : n_J N' = n_J N;
  mn_M : n_M N' = n_M N; mn_bc : n_bc N' = n_bc N; mn_zj : n_zj N' = n_zj N; mn_maxj : n_maxj N' = n_maxj N;
  mn_min : n_min N' = n_min N; mn_maxk : n_maxk N' = n_maxk N;
  mn_end_o : n_end_o N' = n_end_o N; mn_bcm : n_bcm N' = n_bcm N; mn_damp : n_damp N' = n_damp N; mn_back : n_back N' = n_back N;
  mn_marks : link_marks N; mn_marks' : link_marks N';
  mn_ends : forall k, (k < n_K N)%nat ->
    n_Ju N' k = pick (rv k) (n_Ju N k) (n_Jd N k) /\ n_Jd N' k = pick (rv k) (n_Jd N k) (n_Ju N k) /\
    n_zu N' k = pick (rv k) (n_zu N k) (n_zd N k) /\ n_zd N' k = pick (rv k) (n_zd N k) (n_zu N k) /\
    n_Cu N' k = pick (rv k) (n_Cu N k) (n_Cd N k) /\ n_Cd N' k = pick (rv k) (n_Cd N k) (n_Cu N k) /\
    n_dxu N' k = pick (rv k) (n_dxu N k) (n_dxd N k) /\ n_dxd N' k = pick (rv k) (n_dxd N k) (n_dxu N k);
  mn_links : forall k j, (k < n_K N)%nat -> (j < n_nk N k)%nat ->
    let i' := (n_i1 N k + j)%nat in
    let i := (n_i1 N k + flip_link (rv k) (n_nk N k) j)%nat in
    n_dx N' i' = n_dx N i /\ n_n N' i' = n_n N i /\ n_sf N' i' = n_sf N i /\ n_Ac N' i' = n_Ac N i /\
    n_C N' i' = n_C N i /\ n_ctrl N' i' = n_ctrl N i /\ n_So N' i' = turn (rv k) (n_So N i);
  mn_nodes : forall k j, (k < n_K N)%nat -> (j <= n_nk N k)%nat ->
    n_ASI N' (n_I1 N k + j)%nat = n_ASI N (n_I1 N k + flip_node (rv k) (n_nk N k) j)%nat }.

(** Values at internal junctions (inflows, depths) in the two numberings. *)
Definition mirrored_nodes (rv : nat -> bool) (N : network) (x x' : arr) : Prop :=
  forall k j, (k < n_K N)%nat -> (j <= n_nk N k)%nat ->
    x' (n_I1 N k + j)%nat = x (n_I1 N k + flip_node (rv k) (n_nk N k) j)%nat.

(** The same water in the two descriptions: equal heads and depths, flows counted in the direction of the superlink. *)
Record mirrored_state (rv : nat -> bool) (N : network) (st st' : hstate) : Prop := mkMS {
  ms_H : forall j, (j < n_M N)%nat -> h_H st' j = h_H st j;
  ms_Qe : forall k, (k < n_K N)%nat ->
    h_Qu st' k = pick (rv k) (h_Qu st k) (- h_Qd st k) /\ h_Qd st' k = pick (rv k) (h_Qd st k) (- h_Qu st k);
  ms_h : mirrored_nodes rv N (h_h st) (h_h st');
  ms_Q : forall k j, (k < n_K N)%nat -> (j < n_nk N k)%nat ->
    h_Q st' (n_i1 N k + j)%nat = turn (rv k) (h_Q st (n_i1 N k + flip_link (rv k) (n_nk N k) j)%nat) }.

Record mirrored_geometry (rv : nat -> bool) (N : network) (G G' : geometry) : Prop := mkMG {
  mg_links : forall k j, (k < n_K N)%nat -> (j < n_nk N k)%nat ->
    let i' := (n_i1 N k + j)%nat in
    let i := (n_i1 N k + flip_link (rv k) (n_nk N k) j)%nat in
    g_A G' i' = g_A G i /\ g_R G' i' = g_R G i /\ g_B G' i' = g_B G i;
  mg_ends : forall k, (k < n_K N)%nat ->
    g_Au G' k = pick (rv k) (g_Au G k) (g_Ad G k) /\ g_Ad G' k = pick (rv k) (g_Ad G k) (g_Au G k) /\
    g_Bu G' k = pick (rv k) (g_Bu G k) (g_Bd G k) /\ g_Bd G' k = pick (rv k) (g_Bd G k) (g_Bu G k);
  mg_store : forall j, (j < n_M N)%nat -> g_Asj G' j = g_Asj G j }.

(** Superlinks whose internal depths cannot be affected by the order of reconstruction: not turned round, at most one
    internal junction (and the default order), or no internal depth on a limit. *)
Definition order_free (rv : nat -> bool) (N : network) (st : hstate) : Prop :=
  forall k, (k < n_K N)%nat -> rv k = true ->
    (n_nk N k <= 2)%nat /\ n_back N = true \/
    forall j, (1 <= j)%nat -> (j < n_nk N k)%nat -> n_min N < h_h st (n_I1 N k + j)%nat < n_maxk N k.

(** ** Whole objects *)

(** The same design entered with some superlinks the other way round. *)
Record mirrored_design (rv : nat -> bool) (D D' : design) : Prop := mkMD {
  md_net : mirrored_network rv (d_net D) (d_net D');
  md_Ik : forall k j, (k < n_K (d_net D))%nat -> (j < n_nk (d_net D) k)%nat ->
    d_Ik D (n_i1 (d_net D) k + j)%nat = (n_I1 (d_net D) k + j)%nat /\ d_Ik D' (n_i1 (d_net D) k + j)%nat = (n_I1 (d_net D) k + j)%nat;
  md_sec : forall k j, (k < n_K (d_net D))%nat -> (j < n_nk (d_net D) k)%nat ->
    d_sec D' (n_i1 (d_net D) k + j)%nat = d_sec D (n_i1 (d_net D) k + flip_link (rv k) (n_nk (d_net D) k) j)%nat;
  md_store : forall j, (j < n_M (d_net D))%nat -> d_store D' j = d_store D j;
  md_or : d_or D' = d_or D; md_ocode : d_ocode D' = d_ocode D;
  md_o1 : d_o1 D' = d_o1 D; md_o2 : d_o2 D' = d_o2 D; md_o3 : d_o3 D' = d_o3 D;
  md_we : d_we D' = d_we D; md_pu : d_pu D' = d_pu D }.

(** Flows in controls are the same. *)
Record same_controlled (D : design) (Qo Qw Qp Qo' Qw' Qp' : arr) : Prop := mkSCt {
  sct_o : forall o, (o < o_n (d_or D))%nat -> Qo' o = Qo o;
  sct_w : forall w, (w < w_n (d_we D))%nat -> Qw' w = Qw w;
  sct_p : forall p, (p < p_n (d_pu D))%nat -> Qp' p = Qp p }.

(** What a user reads. *)
Definition mirrored_view (rv : nat -> bool) (D : design) (m m' : object) : Prop :=
  m_t m' = m_t m /\ mirrored_state rv (d_net D) (b_st (m_body m)) (b_st (m_body m')) /\
  same_controlled D (b_Qo (m_body m)) (b_Qw (m_body m)) (b_Qp (m_body m)) (b_Qo (m_body m')) (b_Qw (m_body m')) (b_Qp (m_body m')).

Definition mirrored_saved (rv : nat -> bool) (D : design) (v v' : saved) : Prop :=
  mirrored_state rv (d_net D) (v_st v) (v_st v') /\ same_controlled D (v_Qo v) (v_Qw v) (v_Qp v) (v_Qo v') (v_Qw v') (v_Qp v').

(** Two objects at the same point: what they show, what they saved last, and the indicators of submerged ends. *)
Record mirrored_object (rv : nat -> bool) (D : design) (m m' : object) : Prop := mkMO {
  mo_view : mirrored_view rv D m m';
  mo_thu : forall k, (k < n_K (d_net D))%nat -> b_thu (m_body m') k = pick (rv k) (b_thu (m_body m) k) (b_thd (m_body m) k);
  mo_thd : forall k, (k < n_K (d_net D))%nat -> b_thd (m_body m') k = pick (rv k) (b_thd (m_body m) k) (b_thu (m_body m) k);
  mo_time : fst (m_saved m') = fst (m_saved m);
  mo_saved : mirrored_saved rv D (snd (m_saved m)) (snd (m_saved m')) }.

(** The same inputs: inflows at internal junctions are given in the numbering of the design. *)
Definition mirrored_inputs (rv : nat -> bool) (D : design) (i i' : inputs) : Prop :=
  mirrored_nodes rv (d_net D) (i_Q0 i) (i_Q0 i') /\ i_Hbc i' = i_Hbc i /\ i_Qin i' = i_Qin i /\
  i_uo i' = i_uo i /\ i_uw i' = i_uw i /\ i_up i' = i_up i.
Inductive mirrored_action (rv : nat -> bool) (D : design) : action -> action -> Prop :=
| ma_step i i' dt n tol : mirrored_inputs rv D i i' -> mirrored_action rv D (Step i dt n tol) (Step i' dt n tol)
| ma_save : mirrored_action rv D Save Save
| ma_load t v v' : mirrored_saved rv D v v' -> mirrored_action rv D (Load t v) (Load t v')
| ma_restore : mirrored_action rv D Restore Restore.
