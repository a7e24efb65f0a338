(** Specification of constituent transport, written as mass balances with face fluxes.  Nothing here mentions the
    solver's coefficients, recurrences or matrices. *)
From Verif Require Import Prelude S_Network M_Step M_Quality.

(** Mass flux through a face between concentrations [a] (upstream side) and [b] (downstream side): upwind advection
    with flow Q and diffusion over half the length dx of the element the face belongs to. *)
Definition face (Q a b D A dx : R) : R := (if Rltb 0 Q then Q * a else Q * b) + D * A * (a - b) / (dx / 2).

(** Rate of change of [volume * concentration], linearised as  V (c - c') + (V - V') c. *)
Definition storage (V Vp c cp dt : R) : R := (V * (c - cp) + (V - Vp) * c) / dt.

(** A superlink as a chain of n + 2 pieces (0: upstream end piece, 1 .. n: its links, n + 1: downstream end piece)
    with n + 1 junctions between them (junction j between pieces j and j + 1). *)
Record transport_chain : Type := mkChain {
  ch_n : nat;
  ch_Qup : arr; ch_Qdn : arr; ch_A : arr; ch_Ap : arr; ch_D : arr; ch_dx : arr; ch_K : arr; ch_cp : arr;
  ch_AS : arr; ch_h : arr; ch_hp : arr; ch_KI : arr; ch_Q0 : arr; ch_c0 : arr; ch_cIp : arr }.

(** Concentration on the two sides of piece j: the junctions next to it, or the superjunctions a and z. *)
Definition left_of (a : R) (Nd : arr) (j : nat) : R := match j with O => a | S j => Nd j end.
Definition right_of (n : nat) (z : R) (Nd : arr) (j : nat) : R := if Nat.leb j n then Nd j else z.

(** Mass balance of piece j and of junction j. *)
Definition piece_balance (C : transport_chain) (dt a z : R) (L Nd : arr) (j : nat) : Prop :=
  storage (ch_dx C j * ch_A C j) (ch_dx C j * ch_Ap C j) (L j) (ch_cp C j) dt + ch_K C j * (ch_dx C j * ch_A C j) * L j
  = face (ch_Qup C j) (left_of a Nd j) (L j) (ch_D C j) (ch_A C j) (ch_dx C j)
    - face (ch_Qdn C j) (L j) (right_of (ch_n C) z Nd j) (ch_D C j) (ch_A C j) (ch_dx C j).
Definition junction_balance (C : transport_chain) (dt : R) (L Nd : arr) (j : nat) : Prop :=
  storage (ch_AS C j * ch_h C j) (ch_AS C j * ch_hp C j) (Nd j) (ch_cIp C j) dt + ch_KI C j * (ch_AS C j * ch_h C j) * Nd j
  = ch_Q0 C j * ch_c0 C j
    + face (ch_Qdn C j) (L j) (Nd j) (ch_D C j) (ch_A C j) (ch_dx C j)
    - face (ch_Qup C (j + 1)%nat) (Nd j) (L (j + 1)%nat) (ch_D C (j + 1)%nat) (ch_A C (j + 1)%nat) (ch_dx C (j + 1)%nat).
Definition chain_transport (C : transport_chain) (dt a z : R) (L Nd : arr) : Prop :=
  (forall j, (j <= ch_n C + 1)%nat -> piece_balance C dt a z L Nd j) /\
  (forall j, (j <= ch_n C)%nat -> junction_balance C dt L Nd j).

(** The hydraulics conserve volume along the chain. *)
Definition chain_conserves (C : transport_chain) (dt : R) : Prop :=
  (forall j, (j <= ch_n C + 1)%nat ->
     (ch_dx C j * ch_A C j - ch_dx C j * ch_Ap C j) / dt = ch_Qup C j - ch_Qdn C j) /\
  (forall j, (j <= ch_n C)%nat ->
     (ch_AS C j * ch_h C j - ch_AS C j * ch_hp C j) / dt = ch_Q0 C j + ch_Qdn C j - ch_Qup C (j + 1)%nat).

(** A wet chain: positive lengths and areas, non-negative diffusion, reaction, storage and inflow; every junction
    exchanges mass with something. *)
Definition chain_wet (C : transport_chain) : Prop :=
  (forall j, (j <= ch_n C + 1)%nat -> 0 < ch_dx C j /\ 0 < ch_A C j /\ 0 <= ch_D C j /\ 0 <= ch_K C j) /\
  (forall j, (j <= ch_n C)%nat -> 0 <= ch_AS C j /\ 0 <= ch_h C j /\ 0 <= ch_KI C j /\ 0 <= ch_Q0 C j) /\
  (forall j, (j <= ch_n C)%nat ->
     0 < ch_D C j \/ 0 < ch_D C (j + 1)%nat \/ 0 < ch_Qdn C j \/ ch_Qup C (j + 1)%nat < 0 \/
     0 < ch_AS C j * ch_h C j \/ 0 < ch_Q0 C j).
Definition chain_diffuses (C : transport_chain) : Prop := forall j, (j <= ch_n C + 1)%nat -> 0 < ch_D C j.

(** Superlink k of a network as such a chain. *)
Definition along (n i1 : nat) (u x d : arr) (k j : nat) : R :=
  if Nat.eqb j 0 then u k else if Nat.leb j n then x (i1 + j - 1)%nat else d k.
Definition superlink_chain (N : network) (P : wq_par) (F : wq_flow) (c : wq_state) (c_0I Q_0I : arr) (k : nat) : transport_chain :=
  let n := n_nk N k in
  let i1 := n_i1 N k in
  let I1 := n_I1 N k in
  mkChain n
    (along n i1 (f_Quu F) (f_Qup F) (f_Qdu F) k) (along n i1 (f_Qud F) (f_Qdn F) (f_Qdd F) k)
    (along n i1 (f_Au F) (f_A F) (f_Ad F) k) (along n i1 (f_Aup F) (f_Ap F) (f_Adp F) k)
    (along n i1 (p_Du P) (p_D P) (p_Dd P) k) (along n i1 (n_dxu N) (n_dx N) (n_dxd N) k)
    (along n i1 (fun _ => 0) (p_Ki P) (fun _ => 0) k) (along n i1 (c_u c) (c_i c) (c_d c) k)
    (fun j => n_ASI N (I1 + j)%nat) (fun j => f_h F (I1 + j)%nat) (fun j => f_hp F (I1 + j)%nat)
    (fun j => p_KI P (I1 + j)%nat) (fun j => Q_0I (I1 + j)%nat) (fun j => c_0I (I1 + j)%nat) (fun j => c_I c (I1 + j)%nat).

(** Concentrations reported for superlink k, as local arrays. *)
Definition pieces_of (N : network) (c : wq_state) (k : nat) : arr := along (n_nk N k) (n_i1 N k) (c_u c) (c_i c) (c_d c) k.
Definition junctions_of (N : network) (c : wq_state) (k : nat) : arr := fun j => c_I c (n_I1 N k + j)%nat.

(** ** Superjunctions *)

(** Upwind flux through a control (orifice, weir, pump). *)
Definition control_flux (Q a b : R) : R := if Rleb 0 Q then Q * a else Q * b.
Definition controls_net (C : wq_ctl) (Q cj : arr) (j : nat) : R :=
  sum_if (fun m => Nat.eqb (t_Jd C m) j) (fun m => control_flux (Q m) (cj (t_Ju C m)) (cj (t_Jd C m))) (t_n C)
  - sum_if (fun m => Nat.eqb (t_Ju C m) j) (fun m => control_flux (Q m) (cj (t_Ju C m)) (cj (t_Jd C m))) (t_n C).
Definition controls_flow (C : wq_ctl) (Q : arr) (j : nat) : R :=
  sum_if (fun m => Nat.eqb (t_Jd C m) j) Q (t_n C) - sum_if (fun m => Nat.eqb (t_Ju C m) j) Q (t_n C).

(** Mass balance of superjunction j, given its neighbours' concentrations: cu and cd are those of the end pieces. *)
Definition superjunction_balance (N : network) (P : wq_par) (CO CW CP : wq_ctl) (F : wq_flow) (cp c_0j Q_0j : arr)
           (dt : R) (cj cu cd : arr) (j : nat) : Prop :=
  storage (f_V F j) (f_Vp F j) (cj j) (cp j) dt + p_Kj P j * f_V F j * cj j
  = Q_0j j * c_0j j
    + sum_if (fun k => Nat.eqb (n_Jd N k) j)
        (fun k => face (f_Qdd F k) (cd k) (cj (n_Jd N k)) (p_Dd P k) (f_Ad F k) (n_dxd N k)) (n_K N)
    - sum_if (fun k => Nat.eqb (n_Ju N k) j)
        (fun k => face (f_Quu F k) (cj (n_Ju N k)) (cu k) (p_Du P k) (f_Au F k) (n_dxu N k)) (n_K N)
    + controls_net CO (f_Qo F) cj j + controls_net CW (f_Qw F) cj j + controls_net CP (f_Qp F) cj j.
Definition superjunction_conserves (N : network) (CO CW CP : wq_ctl) (F : wq_flow) (Q_0j : arr) (dt : R) (j : nat) : Prop :=
  (f_V F j - f_Vp F j) / dt
  = Q_0j j + sum_if (fun k => Nat.eqb (n_Jd N k) j) (f_Qdd F) (n_K N) - sum_if (fun k => Nat.eqb (n_Ju N k) j) (f_Quu F) (n_K N)
    + controls_flow CO (f_Qo F) j + controls_flow CW (f_Qw F) j + controls_flow CP (f_Qp F) j.

(** All transport equations of the network: a state c' reached from c in one step. *)
Definition network_transport (N : network) (P : wq_par) (CO CW CP : wq_ctl) (F : wq_flow) (c : wq_state)
           (c_bc c_0j Q_0j c_0I Q_0I : arr) (dt : R) (c' : wq_state) : Prop :=
  (forall j, (j < n_M N)%nat ->
     if p_bc P j then c_j c' j = c_bc j
     else superjunction_balance N P CO CW CP F (c_j c) c_0j Q_0j dt (c_j c') (c_u c') (c_d c') j) /\
  (forall k, (k < n_K N)%nat ->
     chain_transport (superlink_chain N P F c c_0I Q_0I k) dt (c_j c' (n_Ju N k)) (c_j c' (n_Jd N k))
       (pieces_of N c' k) (junctions_of N c' k)).

(** The hydraulics conserve volume everywhere; the network is wet and diffuses. *)
Record network_conserves (N : network) (P : wq_par) (CO CW CP : wq_ctl) (F : wq_flow) (Q_0j Q_0I : arr) (dt : R) : Prop := mkConserves {
  nc_chain : forall k, (k < n_K N)%nat -> forall c c_0I, chain_conserves (superlink_chain N P F c c_0I Q_0I k) dt;
  nc_junction : forall j, (j < n_M N)%nat -> p_bc P j = false -> superjunction_conserves N CO CW CP F Q_0j dt j }.
Record network_wet (N : network) (P : wq_par) (F : wq_flow) (Q_0j Q_0I : arr) : Prop := mkNWet {
  nw_chain : forall k, (k < n_K N)%nat -> forall c c_0I,
    chain_wet (superlink_chain N P F c c_0I Q_0I k) /\ chain_diffuses (superlink_chain N P F c c_0I Q_0I k);
  nw_junction : forall j, (j < n_M N)%nat -> p_bc P j = false -> 0 < f_V F j /\ 0 <= p_Kj P j /\ 0 <= Q_0j j }.

(** Every concentration of a state lies in [lo, hi]. *)
Record within (N : network) (lo hi : R) (c : wq_state) : Prop := mkWithin {
  wi_j : forall j, (j < n_M N)%nat -> lo <= c_j c j <= hi;
  wi_I : forall k j, (k < n_K N)%nat -> (j <= n_nk N k)%nat -> lo <= c_I c (n_I1 N k + j)%nat <= hi;
  wi_i : forall k j, (k < n_K N)%nat -> (j < n_nk N k)%nat -> lo <= c_i c (n_i1 N k + j)%nat <= hi;
  wi_u : forall k, (k < n_K N)%nat -> lo <= c_u c k <= hi;
  wi_d : forall k, (k < n_K N)%nat -> lo <= c_d c k <= hi }.
(** Inflow and boundary concentrations in [lo, hi]. *)
Record inputs_within (N : network) (P : wq_par) (lo hi : R) (c_bc c_0j c_0I : arr) : Prop := mkInputs {
  in_bc : forall j, (j < n_M N)%nat -> p_bc P j = true -> lo <= c_bc j <= hi;
  in_j : forall j, (j < n_M N)%nat -> lo <= c_0j j <= hi;
  in_I : forall k j, (k < n_K N)%nat -> (j <= n_nk N k)%nat -> lo <= c_0I (n_I1 N k + j)%nat <= hi }.
(** No constituent reacts. *)
Record no_reaction (N : network) (P : wq_par) : Prop := mkNoReaction {
  nr_j : forall j, (j < n_M N)%nat -> p_Kj P j = 0;
  nr_I : forall k j, (k < n_K N)%nat -> (j <= n_nk N k)%nat -> p_KI P (n_I1 N k + j)%nat = 0;
  nr_i : forall k j, (k < n_K N)%nat -> (j < n_nk N k)%nat -> p_Ki P (n_i1 N k + j)%nat = 0 }.
