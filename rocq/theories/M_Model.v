(** Model of the whole hydraulic object [nSuperLink] and of one call of [step]: cross-sections, storages, controls,
    coefficients, linear system, new state (pipedream_solver/superlink.py 3906-4152, pipedream_solver/nsuperlink.py
    482-697, 1534-1648, 1689-1950), put together from the models of the parts.

    Simplifications.  Arrays are total maps.  [exit_hydraulics] (off by default, M_ExitHydraulics) and the 'nnls' and 'lsq'
    reconstructions (M_LeastSquares) are not part of it.  The saved node positions [x_Ik] are left out: a step does not read them.
    [Q_in], [Q_0Ik], [H_bc] and the control signals are always given.  The perimeter of an ellipse
    (geometry.py, scipy's elliptic integral) is a given function. *)
From Verif Require Import Prelude M_Numerics M_Coeffs M_Recurrence M_Assembly M_Step M_Geometry M_Storage M_Controls M_Simulation.

(** Cross-section of a link: a regular shape, or a table of depths, areas, widths, perimeters and radii computed from
    a transect. *)
Inductive xsection : Type :=
| Regular (s : section)
| Irregular (zs As Bs Pes Rs : list R).

(** nsuperlink.py:1702-1850 (regular shapes) and 1888-1950 [numba_transect_geometry], [numba_boundary_transect], one entry. *)
Definition section_geometry (c : xsection) (h0 h1 : R) (old : geom) : option geom :=
  match c with
  | Regular s => hydraulic_geometry s h0 h1 old
  | Irregular zs As Bs Pes Rs =>
      let h := (h0 + h1) / 2 in
      do a <- interpolate_sample h zs As 1;
      do b <- interpolate_sample h zs Bs 1;
      do pe <- interpolate_sample h zs Pes 1;
      do r <- interpolate_sample h zs Rs 1;
      Some {| gm_A := a; gm_Pe := pe; gm_R := r; gm_B := b |}
  end.

(** nsuperlink.py:1689-1699 [handle_elliptical_perimeter]: writes the perimeter of elliptical links. *)
Definition with_perimeter (c : xsection) (ell : R -> R -> R -> R -> R) (h0 h1 : R) (old : geom) : geom :=
  match c with
  | Regular s => if Nat.eqb (shape s) 7
                 then {| gm_A := gm_A old; gm_Pe := ell h0 h1 (g1 s) (g2 s); gm_R := gm_R old; gm_B := gm_B old |}
                 else old
  | Irregular _ _ _ _ _ => old
  end.

(** Storage curve of a superjunction. *)
Inductive storage : Type :=
| Functional (a b c : R)
| Tabular (hs As : list R).
(** nsuperlink.py:666-697 [compute_storage_areas], one superjunction at depth h. *)
Definition storage_area (s : storage) (h : R) : option R :=
  match s with
  | Functional a b c => Some (functional_area h a b c)
  | Tabular hs As => tabular_area h hs As
  end.
(** nsuperlink.py:1615-1648 [compute_storage_volumes], one superjunction at depth h. *)
Definition storage_volume (s : storage) (h : R) : option R :=
  match s with
  | Functional a b c => functional_volume h a b c
  | Tabular hs As => tabular_volume h hs As (volume_table hs As)
  end.

(** What the user builds: the network and the shapes of its parts.  The area [o_A] of [d_or] is not used: the current
    area is part of the object's state. *)
Record design : Type := mkDesign {
  d_net : network;
  d_Ik : nat -> nat;                        (* upstream internal junction of a link *)
  d_sec : nat -> xsection;                  (* by link *)
  d_ell : R -> R -> R -> R -> R;
  d_store : nat -> storage;                 (* by superjunction *)
  d_or : orifices; d_ocode : nat -> nat; d_o1 : arr; d_o2 : arr; d_o3 : arr;
  d_we : weirs; d_pu : pumps }.

(** Inputs of one step (superlink.py:4085-4087). *)
Record inputs : Type := mkInputs { i_Hbc : arr; i_Qin : arr; i_Q0 : arr; i_uo : arr; i_uw : arr; i_up : arr }.

(** Attributes of the object, except clock, counter and saved state. *)
Record body : Type := mkBody {
  b_st : hstate; b_Qo : arr; b_Qw : arr; b_Qp : arr;
  b_gl : nat -> geom; b_gu : nat -> geom; b_gd : nat -> geom;  (* geometry of links, upstream and downstream ends *)
  b_As : arr; b_Vs : arr;                                      (* area and volume of superjunctions *)
  b_Ao : arr;                                                  (* open area of orifices *)
  b_thu : arr; b_thd : arr;                                    (* end indicators theta_uk, theta_dk *)
  b_cf : setup; b_sys : system }.

(** superlink.py:3906-3931: the saved fields (other than the time and the node positions). *)
Record saved : Type := mkSaved {
  v_st : hstate; v_Qo : arr; v_Qw : arr; v_Qp : arr; v_A : arr; v_Au : arr; v_Ad : arr; v_As : arr; v_V : arr }.
Definition save_body (b : body) : saved :=
  mkSaved (b_st b) (b_Qo b) (b_Qw b) (b_Qp b) (fun i => gm_A (b_gl b i)) (fun k => gm_A (b_gu b k)) (fun k => gm_A (b_gd b k))
          (b_As b) (b_Vs b).

Section Object.
Variable D : design.
Local Notation N := (d_net D).

(** nsuperlink.py:482-529 [link_hydraulic_geometry] *)
Definition link_geometry (st : hstate) (old : nat -> geom) : option (nat -> geom) :=
  all_entries (n_L N) old (fun i =>
    let h0 := h_h st (d_Ik D i) in
    let h1 := h_h st (d_Ik D i + 1)%nat in
    section_geometry (d_sec D i) h0 h1 (with_perimeter (d_sec D i) (d_ell D) h0 h1 (old i))).
(** nsuperlink.py:531-583 [upstream_hydraulic_geometry]; [theta]: the indicators of the last head coefficients. *)
Definition upstream_geometry (st : hstate) (theta : arr) (old : nat -> geom) : option (nat -> geom) :=
  all_entries (n_K N) old (fun k =>
    section_geometry (d_sec D (n_i1 N k)) (h_h st (n_I1 N k)) (theta k * (h_H st (n_Ju N k) - n_zu N k)) (old k)).
(** nsuperlink.py:585-636 [downstream_hydraulic_geometry] *)
Definition downstream_geometry (st : hstate) (theta : arr) (old : nat -> geom) : option (nat -> geom) :=
  all_entries (n_K N) old (fun k =>
    section_geometry (d_sec D (n_i1 N k + n_nk N k - 1)%nat) (h_h st (n_I1 N k + n_nk N k)%nat)
                     (theta k * (h_H st (n_Jd N k) - n_zd N k)) (old k)).
(** nsuperlink.py:666-697, 1615-1648 *)
Definition storage_areas (st : hstate) (old : arr) : option arr :=
  all_entries (n_M N) old (fun j => storage_area (d_store D j) (storage_depth (h_H st j) (n_zj N j) (n_min N))).
Definition storage_volumes (st : hstate) (old : arr) : option arr :=
  all_entries (n_M N) old (fun j => storage_volume (d_store D j) (storage_depth (h_H st j) (n_zj N j) (n_min N))).
(** nsuperlink.py:638-664 [orifice_hydraulic_geometry] *)
Definition orifice_areas (st : hstate) (u old : arr) : option arr :=
  all_entries (o_n (d_or D)) old (fun o =>
    let O := d_or D in
    orifice_geometry (d_ocode D o) (u o)
      (orifice_depth (h_H st (o_Ju O o)) (h_H st (o_Jd O o)) (n_zj N (o_Ju O o)) (o_z O o))
      (d_o1 D o) (d_o2 D o) (d_o3 D o) (old o)).
Definition with_areas (A : arr) : orifices :=
  let O := d_or D in mkOrifices (o_n O) (o_Ju O) (o_Jd O) A (o_C O) (o_z O) (o_tau O) (o_ymax O) (o_oneway O).

(** The four geometry computations shared by [_setup_step] (superlink.py:4016-4019) and [load_state] (3949-3952). *)
Definition geometries (b : body) : option body :=
  do gl <- link_geometry (b_st b) (b_gl b);
  do gu <- upstream_geometry (b_st b) (b_thu b) (b_gu b);
  do gd <- downstream_geometry (b_st b) (b_thd b) (b_gd b);
  do As <- storage_areas (b_st b) (b_As b);
  Some (mkBody (b_st b) (b_Qo b) (b_Qw b) (b_Qp b) gl gu gd As (b_Vs b) (b_Ao b) (b_thu b) (b_thd b) (b_cf b) (b_sys b)).

(** The geometry as read by the coefficient computations. *)
Definition geometry_of (b : body) : geometry :=
  mkGeom (fun i => gm_A (b_gl b i)) (fun i => gm_R (b_gl b i)) (fun i => gm_B (b_gl b i))
         (fun k => gm_A (b_gu b k)) (fun k => gm_R (b_gu b k)) (fun k => gm_B (b_gu b k))
         (fun k => gm_A (b_gd b k)) (fun k => gm_R (b_gd b k)) (fun k => gm_B (b_gd b k)) (b_As b).
Definition work_of (u : setup) : work := mkWork (mb (u_m u)) (u_D u) (u_E u) (u_f u) (u_b u) (u_hu u) (u_hd u).

(** superlink.py:3933-3954 [load_state]: restore the saved fields, recompute the geometry. *)
Definition with_area (a : R) (gm : geom) : geom := {| gm_A := a; gm_Pe := gm_Pe gm; gm_R := gm_R gm; gm_B := gm_B gm |}.
Definition restore (v : saved) (b : body) : body :=
  mkBody (v_st v) (if Nat.eqb (o_n (d_or D)) 0 then b_Qo b else v_Qo v) (if Nat.eqb (w_n (d_we D)) 0 then b_Qw b else v_Qw v)
         (if Nat.eqb (p_n (d_pu D)) 0 then b_Qp b else v_Qp v)
         (fun i => with_area (v_A v i) (b_gl b i)) (fun k => with_area (v_Au v k) (b_gu b k)) (fun k => with_area (v_Ad v k) (b_gd b k))
         (v_As v) (v_V v) (b_Ao b) (b_thu b) (b_thd b) (b_cf b) (b_sys b).
Definition load_body (v : saved) (b : body) : option body := geometries (restore v b).

(** Controls with their current coefficients (superlink.py:4043-4048). *)
Definition controls_of (i : inputs) (st : hstate) (Ao Qo Qw Qp : arr) : controls * controls * controls :=
  (orifice_controls (with_areas Ao) Qo (i_uo i) (h_H st) (n_zj N),
   weir_controls (d_we D) Qw (i_uw i) (h_H st) (n_zj N),
   pump_controls (d_pu D) Qp (i_up i) (h_H st) (n_zj N)).

(** superlink.py:4004-4051 [_setup_step] after saving.  [sv]: state saved at the start of the step. *)
Definition setup_body (i : inputs) (dt : R) (sv : hstate) (b : body) : option body :=
  do b <- geometries b;
  let st := b_st b in
  do Vs <- storage_volumes st (b_Vs b);
  do Ao <- orifice_areas st (i_uo i) (b_Ao b);
  let G := geometry_of b in
  do u <- setup_step N G (work_of (b_cf b)) st sv (i_Q0 i) dt;
  let '(CO, CW, CP) := controls_of i st Ao (b_Qo b) (b_Qw b) (b_Qp b) in
  let sys := sparse_matrix_equations (n_M N) (n_bc N) (superlinks_of N G u) CO CW CP (b_As b) (h_H sv) (i_Hbc i) (i_Qin i) dt
               (b_sys b) in
  Some (mkBody st (b_Qo b) (b_Qw b) (b_Qp b) (b_gl b) (b_gu b) (b_gd b) (b_As b) Vs Ao
               (fun k => theta_k (h_H st (n_Ju N k)) (n_zu N k)) (fun k => theta_k (h_H st (n_Jd N k)) (n_zd N k)) u sys).

(** The linear solver (scipy spsolve or solve_banded): [None] is an exception. *)
Variable slv : mat -> arr -> option arr.

(** superlink.py:4053-4083 [_solve_step] before the counters advance. *)
Definition solve_body (i : inputs) (dt : R) (b : body) : option body :=
  do H_sol <- slv (system_matrix (o_n (d_or D)) (w_n (d_we D)) (p_n (d_pu D)) (b_sys b)) (s_b (b_sys b));
  let st := M_Step.solve_step N (b_cf b) (b_st b) H_sol in
  let H := h_H st in
  let O := d_or D in
  let W := d_we D in
  let P := d_pu D in
  let Qo := if Nat.eqb (o_n O) 0 then b_Qo b else
    (fun k => solve_orifice_flows (b_Ao b k) (o_C O k) (H (o_Ju O k)) (H (o_Jd O k)) (i_uo i k) (n_zj N (o_Ju O k)) (o_z O k)
                (o_tau O k) (o_ymax O k) (o_oneway O k) (b_Vs b (o_Ju O k)) (b_Vs b (o_Jd O k)) dt) in
  let Qw := if Nat.eqb (w_n W) 0 then b_Qw b else
    (fun k => weir_discharge (H (w_Ju W k)) (H (w_Jd W k)) (i_uw i k) (n_zj N (w_Ju W k)) (w_z W k) (w_ymax W k) (w_L W k)
                (w_s W k) (w_Cr W k) (w_Ct W k)) in
  let Qp := if Nat.eqb (p_n P) 0 then b_Qp b else
    (fun k => pump_discharge (H (p_Ju P k)) (H (p_Jd P k)) (i_up i k) (n_zj N (p_Ju P k)) (p_z P k) (p_max P k) (p_min P k)
                (p_a P k) (p_b P k) (p_c P k)) in
  Some (mkBody st Qo Qw Qp (b_gl b) (b_gu b) (b_gd b) (b_As b) (b_Vs b) (b_Ao b) (b_thu b) (b_thd b) (b_cf b) (b_sys b)).

(** The object with its clock, counter and saved state, and its methods [step] (superlink.py:4085-4152) and [load_state]. *)
Definition object : Type := model body saved.
Definition heads_of (b : body) : arr := h_H (b_st b).
Definition object_step (i : inputs) (dt : R) (num_iter : nat) (head_tol : R) (m : object) : option (object * nat) :=
  step body saved inputs save_body (fun _ i dt v => setup_body i dt (v_st v)) (fun i dt _ => solve_body i dt)
       heads_of (fun v => h_H (v_st v)) (n_M N) i dt num_iter head_tol m.
Definition object_load (s : R * saved) (m : object) : option object := load_state body saved load_body s m.
(** [save_state] (superlink.py:3906-3931); the dictionary it fills can be kept and handed to [load_state]. *)
Definition object_save (m : object) : object := save_state body saved save_body m.

(** The attributes a user reads: heads, depths, flows, control flows, clock. *)
Definition visible (m : object) : R * hstate * arr * arr * arr :=
  (m_t m, b_st (m_body m), b_Qo (m_body m), b_Qw (m_body m), b_Qp (m_body m)).

End Object.
