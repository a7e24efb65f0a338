(** Specification vocabulary for a whole step: well-formed networks, wet states, stored volume. *)
From Verif Require Import Prelude M_Coeffs M_Recurrence M_Step S_Superlink S_Network.

(** Index tables fit together (established for generated internals in C38). *)
Record well_formed (N : network) : Prop := mkWF {
  wf_layout : layout (n_K N) (n_nk N) (n_i1 N) (n_I1 N);
  wf_chain : chain_tables (n_K N) (n_nk N) (n_i1 N) (n_I1 N) (n_kI N) (n_fwdi N) (n_bwdi N) (n_isS N) (n_isE N);
  wf_range : forall k, (k < n_K N)%nat -> (n_i1 N k + n_nk N k <= n_L N)%nat /\ (n_I1 N k + n_nk N k < n_J N)%nat;
  wf_ends : ends_in (n_M N) (n_K N) (n_Ju N) (n_Jd N) }.

(** Every link holds water; lengths, roughness and widths are positive; friction is Manning or Hazen-Williams. *)
Record wet (N : network) (G : geometry) : Prop := mkWet {
  wet_links : forall i, (i < n_L N)%nat ->
    0 < g_A G i /\ 0 < g_R G i /\ 0 < n_dx N i /\ 0 < n_n N i /\ (n_sf N i <= 1)%nat /\
    (n_ctrl N i = true -> 0 <= n_C N i /\ n_Ac N i <> 0) /\ 0 < g_B G i;
  wet_nodes : forall I, (I < n_J N)%nat -> 0 <= n_ASI N I;
  wet_ends : forall k, (k < n_K N)%nat -> 0 <= g_Bu G k /\ 0 <= g_Bd G k /\ 0 <= n_dxu N k /\ 0 <= n_dxd N k;
  wet_loss : forall k, (k < n_K N)%nat -> 0 <= n_Cu N k /\ 0 <= n_Cd N k }.

(** Is the junction's head at or above the invert of the superlink end? *)
Definition above (H z : R) : R := if Rleb z H then 1 else 0.

(** Water surface attached to superjunction j (its storage and the half end pieces of superlinks whose end is under
    water) and to internal junction I. *)
Definition junction_surface (N : network) (G : geometry) (H : arr) (j : nat) : R :=
  attached_area (g_Asj G) (n_K N) (n_Ju N) (n_Jd N)
    (n_dxu N) (g_Bu G) (fun k => above (H (n_Ju N k)) (n_zu N k))
    (n_dxd N) (g_Bd G) (fun k => above (H (n_Jd N k)) (n_zd N k)) j.
Definition internal_surface (N : network) (G : geometry) (I : nat) : R :=
  node_width (g_B G) (n_dx N) (n_ASI N) (g_Bu G) (g_Bd G) (n_dxu N) (n_dxd N) (n_kI N) (n_fwdi N) (n_bwdi N)
             (n_isS N) (n_isE N) I.

(** Change of stored volume from state sv to state st. *)
Definition stored_volume_change (N : network) (G : geometry) (H : arr) (sv st : hstate) : R :=
  sum_n (fun j => junction_surface N G H j * (h_H st j - h_H sv j)) (n_M N)
  + sum_n (fun k => sum_n (fun j => internal_surface N G (n_I1 N k + j)%nat
                                    * (h_h st (n_I1 N k + j)%nat - h_h sv (n_I1 N k + j)%nat)) (n_nk N k + 1)) (n_K N).

(** Total external inflow per unit time. *)
Definition total_inflow (N : network) (Q_in Q0 : arr) : R :=
  sum_n Q_in (n_M N) + sum_n (fun k => sum_n (fun j => Q0 (n_I1 N k + j)%nat) (n_nk N k + 1)) (n_K N).

(** No limit is active in the new state: heads between invert and invert + max depth, end depths at least the
    minimum depth, interior depths strictly between their limits. *)
Definition heads_inside (N : network) (H : arr) : Prop :=
  forall j, (j < n_M N)%nat -> n_zj N j <= H j <= n_zj N j + n_maxj N j.
Definition depths_inside (N : network) (u : setup) (st : hstate) : Prop :=
  forall k, (k < n_K N)%nat ->
    n_min N <= fst (end_depths N u st k) /\ n_min N <= snd (end_depths N u st k) /\
    (forall j, (1 <= j)%nat -> (j < n_nk N k)%nat -> n_min N < h_h st (n_I1 N k + j)%nat < n_maxk N k).

(** Water at rest: one water level H0 everywhere (zI: bed elevation of the internal junctions), nothing flows. *)
Record at_rest (N : network) (zI : arr) (H0 : R) (st : hstate) : Prop := mkRest {
  ar_heads : forall j, (j < n_M N)%nat -> h_H st j = H0;
  ar_ends : forall k, (k < n_K N)%nat -> h_Qu st k = 0 /\ h_Qd st k = 0;
  ar_flows : forall k j, (k < n_K N)%nat -> (j < n_nk N k)%nat -> h_Q st (n_i1 N k + j)%nat = 0;
  ar_depths : forall k j, (k < n_K N)%nat -> (j <= n_nk N k)%nat -> h_h st (n_I1 N k + j)%nat = H0 - zI (n_I1 N k + j)%nat }.

(** The boundary method suits the state: the default one, or the momentum one with end pieces whose friction formula has
    a value and, at the upstream end, is small (the method takes it 9.81 A times too large and with the wrong sign). *)
Definition ends_mild (N : network) (G : geometry) (st : hstate) (dt : R) : Prop :=
  n_bcm N = BCz \/
  forall k, (k < n_K N)%nat ->
    (0 < g_Au G k /\ 0 < g_Ru G k /\ 0 < n_nu N k /\ friction_defined (n_sfu N k) (h_Qu st k) (g_Au G k) (g_Ru G k) (n_nu N k)) /\
    (0 < g_Ad G k /\ 0 < g_Rd G k /\ 0 < n_nd N k /\ friction_defined (n_sfd N k) (h_Qd st k) (g_Ad G k) (g_Rd G k) (n_nd N k)) /\
    9.81 * g_Au G k * friction_law (n_sfu N k) (h_Qu st k) (n_dxu N k) (g_Au G k) (g_Ru G k) (n_nu N k)
      <= n_dxu N k / dt + n_Cu N k * Rabs (h_Qu st k) / (2 * g_Au G k).

(** The bed: link slopes and end inverts agree with the bed elevations.  With the momentum boundary method the end pieces
    slope between the junction and the first or last internal junction. *)
Definition bed (N : network) (zI : arr) : Prop :=
  forall k, (k < n_K N)%nat ->
    zI (n_I1 N k) = n_zu N k - (match n_bcm N with BCz => 0 | BCb => n_dxu N k * n_Su N k end) /\
    zI (n_I1 N k + n_nk N k)%nat = n_zd N k + (match n_bcm N with BCz => 0 | BCb => n_dxd N k * n_Sd N k end) /\
    (forall j, (j < n_nk N k)%nat ->
       n_So N (n_i1 N k + j)%nat * n_dx N (n_i1 N k + j)%nat = zI (n_I1 N k + j)%nat - zI (n_I1 N k + j + 1)%nat).

(** The level H0 covers every superlink and violates no limit. *)
Definition level_inside (N : network) (zI : arr) (H0 : R) : Prop :=
  (forall j, (j < n_M N)%nat -> n_zj N j <= H0 <= n_zj N j + n_maxj N j) /\
  (forall k, (k < n_K N)%nat -> n_zu N k <= H0 /\ n_zd N k <= H0) /\
  (forall k j, (k < n_K N)%nat -> (j <= n_nk N k)%nat -> n_min N <= H0 - zI (n_I1 N k + j)%nat) /\
  (forall k j, (k < n_K N)%nat -> (1 <= j)%nat -> (j < n_nk N k)%nat -> H0 - zI (n_I1 N k + j)%nat <= n_maxk N k).
