(** Model of one hydraulic step: from the state and the hydraulic geometry to the new heads, depths and flows
    (pipedream_solver/superlink.py 4015-4083, nSuperLink versions of the methods called). *)
From Verif Require Import Prelude M_Coeffs M_Recurrence M_Assembly.

(** What does not change during a simulation: topology, pipe data, options. *)
Record network : Type := mkNetwork {
  n_K : nat;                               (* superlinks *)
  n_nk : nat -> nat; n_i1 : nat -> nat; n_I1 : nat -> nat;
  n_Ju : nat -> nat; n_Jd : nat -> nat;
  n_L : nat; n_J : nat;                    (* internal links and junctions *)
  n_kI : nat -> nat; n_fwdi : nat -> nat; n_bwdi : nat -> nat;
  n_isS : nat -> bool; n_isE : nat -> bool; n_lstart : nat -> bool; n_lend : nat -> bool;
  n_dx : arr; n_n : arr; n_sf : nat -> nat; n_So : arr; n_Ac : arr; n_C : arr; n_ctrl : nat -> bool;
  n_ASI : arr;
  n_dxu : arr; n_dxd : arr; n_Cu : arr; n_Cd : arr; n_zu : arr; n_zd : arr;
  n_nu : arr; n_nd : arr; n_sfu : nat -> nat; n_sfd : nat -> nat; n_Su : arr; n_Sd : arr;
  n_M : nat; n_bc : nat -> bool; n_zj : arr; n_maxj : arr;
  n_min : R; n_maxk : arr;
  n_end_o : bool; n_bcm : bc_method; n_damp : bool; n_back : bool }.

(** Hydraulic state visible to the user. *)
Record hstate : Type := mkHState {
  h_H : arr;                               (* superjunction heads *)
  h_Qu : arr; h_Qd : arr;                  (* superlink end flows *)
  h_h : arr; h_Q : arr }.                  (* internal depths and flows *)

(** Hydraulic geometry computed from the current state. *)
Record geometry : Type := mkGeom {
  g_A : arr; g_R : arr; g_B : arr;
  g_Au : arr; g_Ru : arr; g_Bu : arr; g_Ad : arr; g_Rd : arr; g_Bd : arr;
  g_Asj : arr }.

(** Link data as read by [link_coeffs]: current flows from [st], flows at the start of the step from [sv]. *)
Definition links_of (N : network) (G : geometry) (st sv : hstate) : links :=
  mkLinks (n_dx N) (n_n N) (n_sf N) (h_Q st) (h_Q sv) (g_A G) (g_R G) (g_B G)
          (n_So N) (n_Ac N) (n_C N) (n_ctrl N) (n_lstart N) (n_lend N).

(** Entrywise evaluation of an array expression that may raise. *)
Definition all_entries {A : Type} (n : nat) (d : nat -> A) (f : nat -> option A) : option (nat -> A) :=
  for_opt n (fun k a => do v <- f k; Some (upd a k v)) d.

(** Result of [_setup_step] up to the superlink flow coefficients. *)
Record setup : Type := mkSetup {
  u_m : momc; u_D : arr; u_E : arr; u_f : fwd; u_b : bwd;
  u_hu : nat -> headc; u_hd : nat -> headc }.

(** Contents of the work arrays before the step. *)
Record work : Type := mkWork {
  w_b : arr; w_D : arr; w_E : arr; w_f : fwd; w_w : bwd; w_hu : nat -> headc; w_hd : nat -> headc }.

(** superlink.py:4036-4041 [link_coeffs .. superlink_downstream_head_coefficients].
    [st]: current state, [sv]: state saved at the start of the step, [Q0]: inflow at internal junctions. *)
Definition setup_step (N : network) (G : geometry) (w : work) (st sv : hstate) (Q0 : arr) (dt : R) : option setup :=
  let L := links_of N G st sv in
  do m <- link_coeffs (n_damp N) L dt (n_L N) (w_b w);
  let '(D, E) := numba_node_coeffs (w_D w) (w_E w) Q0 (g_B G) (h_h sv) (n_dx N) (n_ASI N) (g_Bu G) (g_Bd G)
                                   (n_dxu N) (n_dxd N) (n_kI N) dt (n_fwdi N) (n_bwdi N) (n_isS N) (n_isE N) (n_J N) in
  do f <- numba_forward_recurrence (w_f w) (ma m) (mb m) (mc m) (mP m) (g_A G) E D (n_K N) (n_nk N) (n_I1 N) (n_i1 N);
  do b <- numba_backward_recurrence (w_w w) (ma m) (mb m) (mc m) (mP m) (g_A G) E D (n_K N) (n_nk N)
             (fun k => n_I1 N k + n_nk N k - 1)%nat (fun k => n_i1 N k + n_nk N k - 1)%nat;
  do hu <- all_entries (n_K N) (w_hu w) (fun k =>
       upstream_head_coefficients (n_bcm N) (h_H st (n_Ju N k)) (n_zu N k) (h_Qu st k) (h_Qu sv k) (n_dxu N k) (g_Au G k)
         (n_Cu N k) (g_Ru G k) (n_nu N k) (n_sfu N k) (n_Su N k) dt);
  do hd <- all_entries (n_K N) (w_hd w) (fun k =>
       downstream_head_coefficients (n_bcm N) (h_H st (n_Jd N k)) (n_zd N k) (h_Qd st k) (h_Qd sv k) (n_dxd N k) (g_Ad G k)
         (n_Cd N k) (g_Rd G k) (n_nd N k) (n_sfd N k) (n_Sd N k) dt);
  Some (mkSetup m D E f b hu hd).

(** superlink.py:4042 [superlink_flow_coefficients], superlink k. *)
Definition flow_coeffs (N : network) (u : setup) (k : nat) : flowc :=
  superlink_flow_coefficients
    (end_coeffs (n_end_o N) (u_f u) (u_b u) (u_E u) (u_D u) (n_I1 N k) (n_I1 N k + n_nk N k - 1) (n_I1 N k + n_nk N k))
    (u_hu u k) (u_hd u k).

(** The superlinks handed to the assembly (superlink.py:4049-4051). *)
Definition superlinks_of (N : network) (G : geometry) (u : setup) : superlinks :=
  mkSuperlinks (n_K N) (n_Ju N) (n_Jd N)
    (fun k => au (flow_coeffs N u k)) (fun k => bu (flow_coeffs N u k)) (fun k => cu (flow_coeffs N u k))
    (fun k => ad (flow_coeffs N u k)) (fun k => bd (flow_coeffs N u k)) (fun k => cd (flow_coeffs N u k))
    (n_dxu N) (g_Bu G) (fun k => hl (u_hu u k)) (n_dxd N) (g_Bd G) (fun k => hl (u_hd u k)).

(** superlink.py:4053-4083 [_solve_step] after the linear solve returned [H_sol]: limits on the heads, superlink flows
    and end depths, internal depths and flows.  Not modelled here: [exit_hydraulics] (off by default, M_ExitHydraulics), the
    'nnls' and 'lsq' reconstructions (M_LeastSquares), and the control flows (M_Controls), which nothing below reads. *)
Definition solve_step (N : network) (u : setup) (st : hstate) (H_sol : arr) : hstate :=
  let H := (fun j => limit_head (n_zj N j) (n_maxj N j) (H_sol j)) in
  let Q k := solve_superlink_flows (flow_coeffs N u k) (H (n_Ju N k)) (H (n_Jd N k)) in
  let Qu := (fun k => fst (Q k)) in
  let Qd := (fun k => snd (Q k)) in
  let h k := solve_superlink_depths (u_hu u k) (u_hd u k) (Qu k) (Qd k) (H (n_Ju N k)) (H (n_Jd N k)) in
  let r := solve_internals (n_back N) (h_h st, h_Q st) (fun k => fst (h k)) (fun k => snd (h k)) (u_f u) (u_b u)
                     (n_i1 N) (n_I1 N) (n_nk N) (n_K N) (n_min N) (n_maxk N) in
  mkHState H Qu Qd (fst r) (snd r).

(** End depths computed by the step (superlink.py:3138-3165). *)
Definition end_depths (N : network) (u : setup) (st : hstate) (k : nat) : R * R :=
  solve_superlink_depths (u_hu u k) (u_hd u k) (h_Qu st k) (h_Qd st k) (h_H st (n_Ju N k)) (h_H st (n_Jd N k)).
