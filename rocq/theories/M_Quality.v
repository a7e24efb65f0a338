(** Model of the water-quality solver: one step of [QualityBuilder] (pipedream_solver/nquality.py).

    Not modelled: [node_quantities] (lines 325-336: writes two arrays nothing reads), the forward variant of
    [solve_internals] (never called).  [link_concentrations_from_recurrence] is in M_Diagnostics. *)
From Verif Require Import Prelude M_Coeffs M_Recurrence M_Assembly M_Step.

(** ** Coefficients *)

(** nquality.py:378-379: [(Q > 0).astype(float)]; 682-683: [(Q >= 0)]. *)
Definition q_omega (Q : R) : R := if Rltb 0 Q then 1 else 0.
Definition q_omega_ge (Q : R) : R := if Rleb 0 Q then 1 else 0.

(** nquality.py:1104-1109 [alpha_ik] (array expression) *)
Definition q_alpha (Q_up omega_up dx D A : R) : R := - Q_up * omega_up + - 2 * D * A / dx.
(** nquality.py:1111-1119 [beta_ik] *)
Definition q_beta (dt D A A_prev dx K Q_up Q_dn omega_up omega_dn : R) : R :=
  Q_dn * omega_dn + - Q_up * (1 - omega_up) + 4 * D * A / dx + K * dx * A + dx * (2 * A - A_prev) / dt.
(** nquality.py:1121-1126 [chi_ik] *)
Definition q_chi (Q_dn omega_dn dx D A : R) : R := Q_dn * (1 - omega_dn) + - 2 * D * A / dx.
(** nquality.py:1128-1131 [gamma_ik] *)
Definition q_gamma (dt c_prev A dx : R) : R := c_prev * A * dx / dt.

(** nquality.py:1133-1137 [kappa_Ik] (scalar division: raises on 0) *)
Definition q_kappa (Q_im1_dn omega_dn D A dx_im1 : R) : option R :=
  do q <- div (- 2 * D * A) dx_im1; Some (- Q_im1_dn * omega_dn + q).
(** nquality.py:1139-1149 [lambda_Ik] *)
Definition q_lambda (A_S h_next h_prev Q_up Q_im1_dn omega_up omega_im1_dn dt K D_i D_im1 A_i A_im1 dx_i dx_im1 : R) : option R :=
  let t_0 := A_S * h_next * K in
  let t_1 := omega_up * Q_up in
  let t_2 := - (1 - omega_im1_dn) * Q_im1_dn in
  do t_3 <- div (2 * D_im1 * A_im1) dx_im1;
  do t_4 <- div (2 * D_i * A_i) dx_i;
  do t_5 <- div (A_S * (2 * h_next - h_prev)) dt;
  Some (t_0 + t_1 + t_2 + t_3 + t_4 + t_5).
(** nquality.py:1151-1155 [mu_Ik] *)
Definition q_mu (Q_up omega_up D A dx_i : R) : option R :=
  do q <- div (- 2 * D * A) dx_i; Some (Q_up * (1 - omega_up) + q).
(** nquality.py:1157-1161 [eta_Ik] *)
Definition q_eta (c_0 Q_0 A_S h_next c_prev dt : R) : option R :=
  do q <- div (A_S * h_next * c_prev) dt; Some (c_0 * Q_0 + q).

(** What the solver reads from the hydraulic model ([import_hydraulic_states], nquality.py:228-281). *)
Record wq_flow : Type := mkFlowIn {
  f_Qup : arr; f_Qdn : arr; f_A : arr; f_Ap : arr;            (* links: flow at both faces, area now and before *)
  f_Quu : arr; f_Qud : arr; f_Au : arr; f_Aup : arr;          (* upstream end pieces of superlinks *)
  f_Qdu : arr; f_Qdd : arr; f_Ad : arr; f_Adp : arr;          (* downstream end pieces *)
  f_h : arr; f_hp : arr;                                      (* junction depths now and before *)
  f_V : arr; f_Vp : arr;                                      (* superjunction volumes now and before *)
  f_Qo : arr; f_Qw : arr; f_Qp : arr }.                       (* flows through orifices, weirs, pumps *)

(** Parameters of the water-quality model. *)
Record wq_par : Type := mkPar {
  p_Kj : arr; p_KI : arr; p_Ki : arr; p_D : arr; p_Du : arr; p_Dd : arr;
  p_bc : nat -> bool; p_min : R; p_max : R }.

(** Concentrations. *)
Record wq_state : Type := mkWq { c_j : arr; c_I : arr; c_i : arr; c_u : arr; c_d : arr }.

(** nquality.py:338-407 [link_coeffs]: links and the two end pieces of every superlink. *)
Record wq_links : Type := mkWqLinks {
  l_al : arr; l_be : arr; l_ch : arr; l_ga : arr;
  l_alu : arr; l_beu : arr; l_chu : arr; l_gau : arr;
  l_ald : arr; l_bed : arr; l_chd : arr; l_gad : arr }.
Definition q_link_coeffs (N : network) (P : wq_par) (F : wq_flow) (c : wq_state) (dt : R) : wq_links :=
  mkWqLinks
    (fun i => q_alpha (f_Qup F i) (q_omega (f_Qup F i)) (n_dx N i) (p_D P i) (f_A F i))
    (fun i => q_beta dt (p_D P i) (f_A F i) (f_Ap F i) (n_dx N i) (p_Ki P i) (f_Qup F i) (f_Qdn F i)
                     (q_omega (f_Qup F i)) (q_omega (f_Qdn F i)))
    (fun i => q_chi (f_Qdn F i) (q_omega (f_Qdn F i)) (n_dx N i) (p_D P i) (f_A F i))
    (fun i => q_gamma dt (c_i c i) (f_A F i) (n_dx N i))
    (fun k => q_alpha (f_Quu F k) (q_omega (f_Quu F k)) (n_dxu N k) (p_Du P k) (f_Au F k))
    (fun k => q_beta dt (p_Du P k) (f_Au F k) (f_Aup F k) (n_dxu N k) 0 (f_Quu F k) (f_Qud F k)
                     (q_omega (f_Quu F k)) (q_omega (f_Qud F k)))
    (fun k => q_chi (f_Qud F k) (q_omega (f_Qud F k)) (n_dxu N k) (p_Du P k) (f_Au F k))
    (fun k => q_gamma dt (c_u c k) (f_Au F k) (n_dxu N k))
    (fun k => q_alpha (f_Qdu F k) (q_omega (f_Qdu F k)) (n_dxd N k) (p_Dd P k) (f_Ad F k))
    (fun k => q_beta dt (p_Dd P k) (f_Ad F k) (f_Adp F k) (n_dxd N k) 0 (f_Qdu F k) (f_Qdd F k)
                     (q_omega (f_Qdu F k)) (q_omega (f_Qdd F k)))
    (fun k => q_chi (f_Qdd F k) (q_omega (f_Qdd F k)) (n_dxd N k) (p_Dd P k) (f_Ad F k))
    (fun k => q_gamma dt (c_d c k) (f_Ad F k) (n_dxd N k)).

(** Coefficients of a junction. *)
Record wq_node : Type := mkWqNode { o_ka : R; o_la : R; o_mu : R; o_et : R }.

(** nquality.py:1377-1421 [numba_node_coeffs], junction I. *)
Definition q_node_coeff (N : network) (P : wq_par) (F : wq_flow) (c : wq_state) (c_0 Q_0 : arr) (dt : R) (I : nat) : option wq_node :=
  if n_isS N I then
    let i := n_fwdi N I in
    let k := n_kI N I in
    do ka <- q_kappa (f_Qud F k) (q_omega (f_Qud F k)) (p_Du P k) (f_Au F k) (n_dxu N k);
    do la <- q_lambda (n_ASI N I) (f_h F I) (f_hp F I) (f_Qup F i) (f_Qud F k) (q_omega (f_Qup F i)) (q_omega (f_Qud F k)) dt
                      (p_KI P I) (p_D P i) (p_Du P k) (f_A F i) (f_Au F k) (n_dx N i) (n_dxu N k);
    do mu <- q_mu (f_Qup F i) (q_omega (f_Qup F i)) (p_D P i) (f_A F i) (n_dx N i);
    do et <- q_eta (c_0 I) (Q_0 I) (n_ASI N I) (f_h F I) (c_I c I) dt;
    Some (mkWqNode ka la mu et)
  else if n_isE N I then
    let im1 := n_bwdi N I in
    let k := n_kI N I in
    do ka <- q_kappa (f_Qdn F im1) (q_omega (f_Qdn F im1)) (p_D P im1) (f_A F im1) (n_dx N im1);
    do la <- q_lambda (n_ASI N I) (f_h F I) (f_hp F I) (f_Qdu F k) (f_Qdn F im1) (q_omega (f_Qdu F k)) (q_omega (f_Qdn F im1)) dt
                      (p_KI P I) (p_Dd P k) (p_D P im1) (f_Ad F k) (f_A F im1) (n_dxd N k) (n_dx N im1);
    do mu <- q_mu (f_Qdu F k) (q_omega (f_Qdu F k)) (p_Dd P k) (f_Ad F k) (n_dxd N k);
    do et <- q_eta (c_0 I) (Q_0 I) (n_ASI N I) (f_h F I) (c_I c I) dt;
    Some (mkWqNode ka la mu et)
  else
    let i := n_fwdi N I in
    let im1 := (i - 1)%nat in
    do ka <- q_kappa (f_Qdn F im1) (q_omega (f_Qdn F im1)) (p_D P im1) (f_A F im1) (n_dx N im1);
    do la <- q_lambda (n_ASI N I) (f_h F I) (f_hp F I) (f_Qup F i) (f_Qdn F im1) (q_omega (f_Qup F i)) (q_omega (f_Qdn F im1)) dt
                      (p_KI P I) (p_D P i) (p_D P im1) (f_A F i) (f_A F im1) (n_dx N i) (n_dx N im1);
    do mu <- q_mu (f_Qup F i) (q_omega (f_Qup F i)) (p_D P i) (f_A F i) (n_dx N i);
    do et <- q_eta (c_0 I) (Q_0 I) (n_ASI N I) (f_h F I) (c_I c I) dt;
    Some (mkWqNode ka la mu et).
(** nquality.py:409-472 [node_coeffs]; [old] holds the arrays' previous contents. *)
Definition q_node_coeffs (N : network) (P : wq_par) (F : wq_flow) (c : wq_state) (c_0 Q_0 : arr) (dt : R)
           (old : nat -> wq_node) : option (nat -> wq_node) :=
  all_entries (n_J N) old (q_node_coeff N P F c c_0 Q_0 dt).

(** ** Recurrences *)

(** nquality.py:1163-1173 [U_1k], [V_1k], [W_1k]; 1175-1177 [U_Ik] *)
Definition q_U1 (chi beta : R) : R := safe_divide (- chi) beta.
Definition q_V1 (gamma beta : R) : R := safe_divide gamma beta.
Definition q_W1 (alpha beta : R) : R := safe_divide (- alpha) beta.
Definition q_U (chi T : R) : R := safe_divide (- chi) T.
(** nquality.py:1179-1185 [V_Ik] *)
Definition q_V (gamma T alpha eta kappa V_Im1 lambda U_Im1 : R) : R :=
  safe_divide gamma T + safe_divide (- alpha * (eta - kappa * V_Im1)) (T * (lambda + kappa * U_Im1)).
(** nquality.py:1187-1191 [W_Ik] *)
Definition q_W (alpha kappa W_Im1 T lambda U_Im1 : R) : R :=
  safe_divide (alpha * kappa * W_Im1) (T * (lambda + kappa * U_Im1)).
(** nquality.py:1193-1198 [T_ik] *)
Definition q_T (beta alpha mu lambda kappa U_Im1 : R) : R := beta + safe_divide (- alpha * mu) (lambda + kappa * U_Im1).
(** nquality.py:1200-1214 [X_Nk], [Y_Nk], [Z_Nk], [X_Ik] *)
Definition q_XN (alpha beta : R) : R := safe_divide (- alpha) beta.
Definition q_YN (gamma beta : R) : R := safe_divide gamma beta.
Definition q_ZN (chi beta : R) : R := safe_divide (- chi) beta.
Definition q_X (alpha O : R) : R := safe_divide (- alpha) O.
(** nquality.py:1216-1221 [Y_Ik] *)
Definition q_Y (gamma O chi eta_Ip1 mu_Ip1 Y_Ip1 lambda_Ip1 X_Ip1 : R) : R :=
  safe_divide gamma O + safe_divide (- chi * (eta_Ip1 - mu_Ip1 * Y_Ip1)) (O * (lambda_Ip1 + mu_Ip1 * X_Ip1)).
(** nquality.py:1223-1227 [Z_Ik] *)
Definition q_Z (chi mu_Ip1 Z_Ip1 O lambda_Ip1 X_Ip1 : R) : R :=
  safe_divide (chi * mu_Ip1 * Z_Ip1) (O * (lambda_Ip1 + mu_Ip1 * X_Ip1)).
(** nquality.py:1229-1235 [O_ik] *)
Definition q_O (beta chi kappa_Ip1 lambda_Ip1 mu_Ip1 X_Ip1 : R) : R :=
  beta + safe_divide (- chi * kappa_Ip1) (lambda_Ip1 + mu_Ip1 * X_Ip1).

(** nquality.py:1423-1453 [numba_forward_recurrence]: first link, inner loop, one superlink, all superlinks. *)
Definition q_forward_first (al be ch ga : arr) (i_1 I_1 : nat) (s : fwd) : fwd :=
  mkFwd (upd (fT s) i_1 1) (upd (fU s) I_1 (q_U1 (ch i_1) (be i_1)))
        (upd (fV s) I_1 (q_V1 (ga i_1) (be i_1))) (upd (fW s) I_1 (q_W1 (al i_1) (be i_1))).
Definition q_forward_next (al be ch ga : arr) (nd : nat -> wq_node) (i I : nat) (s : fwd) : fwd :=
  let Im1 := (I - 1)%nat in
  let T' := q_T (be i) (al i) (o_mu (nd I)) (o_la (nd I)) (o_ka (nd I)) (fU s Im1) in
  mkFwd (upd (fT s) i T') (upd (fU s) I (q_U (ch i) T'))
        (upd (fV s) I (q_V (ga i) T' (al i) (o_et (nd I)) (o_ka (nd I)) (fV s Im1) (o_la (nd I)) (fU s Im1)))
        (upd (fW s) I (q_W (al i) (o_ka (nd I)) (fW s Im1) T' (o_la (nd I)) (fU s Im1))).
Definition q_forward_superlink (al be ch ga : arr) (nd : nat -> wq_node) (i_1 I_1 nlinks : nat) (s : fwd) : fwd :=
  for_n (nlinks - 1) (fun i s => q_forward_next al be ch ga nd (i_1 + 1 + i) (I_1 + 1 + i) s)
    (q_forward_first al be ch ga i_1 I_1 s).
Definition q_forward_recurrence (s : fwd) (al be ch ga : arr) (nd : nat -> wq_node) (NK : nat) (nk I_1k i_1k : nat -> nat) : fwd :=
  for_n NK (fun k s => q_forward_superlink al be ch ga nd (i_1k k) (I_1k k) (nk k) s) s.

(** nquality.py:1455-1482 [numba_backward_recurrence]. *)
Definition q_backward_first (al be ch ga : arr) (i_n I_N : nat) (s : bwd) : bwd :=
  mkBwd (upd (bO s) i_n 1) (upd (bX s) I_N (q_XN (al i_n) (be i_n)))
        (upd (bY s) I_N (q_YN (ga i_n) (be i_n))) (upd (bZ s) I_N (q_ZN (ch i_n) (be i_n))).
Definition q_backward_next (al be ch ga : arr) (nd : nat -> wq_node) (i I : nat) (s : bwd) : bwd :=
  let Ip1 := (I + 1)%nat in
  let O' := q_O (be i) (ch i) (o_ka (nd Ip1)) (o_la (nd Ip1)) (o_mu (nd Ip1)) (bX s Ip1) in
  mkBwd (upd (bO s) i O') (upd (bX s) I (q_X (al i) O'))
        (upd (bY s) I (q_Y (ga i) O' (ch i) (o_et (nd Ip1)) (o_mu (nd Ip1)) (bY s Ip1) (o_la (nd Ip1)) (bX s Ip1)))
        (upd (bZ s) I (q_Z (ch i) (o_mu (nd Ip1)) (bZ s Ip1) O' (o_la (nd Ip1)) (bX s Ip1))).
Definition q_backward_superlink (al be ch ga : arr) (nd : nat -> wq_node) (i_n I_N nlinks : nat) (s : bwd) : bwd :=
  for_n (nlinks - 1) (fun i s => q_backward_next al be ch ga nd (i_n - 1 - i) (I_N - 1 - i) s)
    (q_backward_first al be ch ga i_n I_N s).
Definition q_backward_recurrence (s : bwd) (al be ch ga : arr) (nd : nat -> wq_node) (NK : nat) (nk I_Nk i_nk : nat -> nat) : bwd :=
  for_n NK (fun k s => q_backward_superlink al be ch ga nd (i_nk k) (I_Nk k) (nk k) s) s.

(** ** Superlink ends *)

(** nquality.py:1237-1271 [X_uk] .. [W_dk] (1484-1499 [numba_boundary_coefficients]). *)
Definition q_ends (nd : nat -> wq_node) (f : fwd) (b : bwd) (I_1 I_N : nat) : ends :=
  let n1 := nd I_1 in
  let n2 := nd (I_N + 1)%nat in
  mkEnds (safe_divide (- o_mu n1 * bX b I_1 - o_la n1) (o_ka n1))
         (safe_divide (o_et n1 - o_mu n1 * bY b I_1) (o_ka n1))
         (safe_divide (- o_mu n1 * bZ b I_1) (o_ka n1))
         (safe_divide (- o_ka n2 * fU f I_N - o_la n2) (o_mu n2))
         (safe_divide (o_et n2 - o_ka n2 * fV f I_N) (o_mu n2))
         (safe_divide (- o_ka n2 * fW f I_N) (o_mu n2)).

(** Transport coefficients theta, sigma, xi of both ends (nquality.py:1273-1295; [safe_divide_vec] entrywise). *)
Record q_end_coefs : Type := mkEndCoefs { e_thu : R; e_siu : R; e_xiu : R; e_thd : R; e_sid : R; e_xid : R }.
Definition q_end_coef (L : wq_links) (k : nat) : q_end_coefs :=
  mkEndCoefs (safe_divide (- l_beu L k) (l_chu L k)) (safe_divide (- l_alu L k) (l_chu L k)) (safe_divide (l_gau L k) (l_chu L k))
             (safe_divide (- l_bed L k) (l_ald L k)) (safe_divide (- l_chd L k) (l_ald L k)) (safe_divide (l_gad L k) (l_ald L k)).

(** nquality.py:1297-1305 [D_k_star] *)
Definition q_Dk (e : ends) (t : q_end_coefs) : R :=
  (1 - eX e * e_thu t) * (1 - eU e * e_thd t) - eW e * eZ e * e_thu t * e_thd t.
(** nquality.py:1307-1375: rho, tau, zeta of both ends. *)
Record q_bnd : Type := mkBnd { q_rhou : R; q_tauu : R; q_zetu : R; q_rhod : R; q_taud : R; q_zetd : R }.
Definition q_boundary (e : ends) (t : q_end_coefs) : q_bnd :=
  let Dk := q_Dk e t in
  mkBnd
    (safe_divide ((1 - eU e * e_thd t) * eX e * e_siu t + eZ e * e_thd t * eW e * e_siu t) Dk)
    (safe_divide (eZ e * e_sid t) Dk)
    (safe_divide ((1 - eU e * e_thd t) * (eY e + eX e * e_xiu t + eZ e * e_xid t)
                  + eZ e * e_thd t * (eV e + eU e * e_xid t + eW e * e_xiu t)) Dk)
    (safe_divide (eW e * e_siu t) Dk)
    (safe_divide (eW e * e_thu t * eZ e * e_sid t + (1 - eX e * e_thu t) * eU e * e_sid t) Dk)
    (safe_divide (eW e * e_thu t * (eY e + eX e * e_xiu t + eZ e * e_xid t)
                  + (1 - eX e * e_thu t) * (eV e + eU e * e_xid t + eW e * e_xiu t)) Dk).

(** ** The system for the superjunctions *)

(** nquality.py:1520-1550 [numba_create_A_matrix]; [A -= x] written [A += -x]. *)
Definition q_create_A_matrix (N : network) (P : wq_par) (F : wq_flow) (B : nat -> q_bnd) (dt : R) (A : mat) (F_jj : arr) : mat * arr :=
  let wu := (fun k => q_omega_ge (f_Quu F k)) in
  let wd := (fun k => q_omega_ge (f_Qdd F k)) in
  let kuj := (fun k => - f_Quu F k * (wu k + (1 - wu k) * q_rhou (B k))
                       + 2 * p_Du P k * f_Au F k * (q_rhou (B k) - 1) / n_dxu N k) in
  let kdj := (fun k => f_Qdd F k * (q_taud (B k) * wd k + (1 - wd k))
                       + 2 * p_Dd P k * f_Ad F k * (q_taud (B k) - 1) / n_dxd N k) in
  let D := numba_add_at F_jj (n_K N) (n_Ju N) (fun k => - kuj k) in
  let D := numba_add_at D (n_K N) (n_Jd N) (fun k => - kdj k) in
  let D := (fun j => D j + ((2 * f_V F j - f_Vp F j) / dt + p_Kj P j * f_V F j)) in
  let A := set_diagonal A (p_bc P) 1 D (n_M N) in
  (add_off_diagonals A (p_bc P) (n_Ju N) (n_Jd N)
     (fun k => q_rhod (B k) * (f_Qdd F k * wd k + 2 * p_Dd P k * f_Ad F k / n_dxd N k))
     (fun k => - (q_tauu (B k) * (- f_Quu F k * (1 - wu k) + 2 * p_Du P k * f_Au F k / n_dxu N k))) (n_K N), D).

(** nquality.py:1552-1571 [numba_create_OWP_matrix]. *)
Definition q_create_OWP_matrix (X : mat) (diag : arr) (bc : nat -> bool) (J_uc J_dc : nat -> nat) (Q : arr) (M NC : nat) : mat * arr :=
  let w := (fun c => q_omega_ge (Q c)) in
  let diag := numba_add_at diag NC J_uc (fun c => Q c * w c) in
  let diag := numba_add_at diag NC J_dc (fun c => - Q c * (1 - w c)) in
  let X := set_diagonal X bc 0 diag M in
  (add_off_diagonals X bc J_uc J_dc (fun c => Q c * w c) (fun c => Q c * (1 - w c)) NC, diag).

(** A family of controls: end junctions. *)
Record wq_ctl : Type := mkCtl { t_n : nat; t_Ju : nat -> nat; t_Jd : nat -> nat }.

(** nquality.py:697-720: one family, skipped when there is none. *)
Definition q_controls (X : mat) (diag : arr) (bc : nat -> bool) (M : nat) (C : wq_ctl) (Q : arr) : mat * arr :=
  if Nat.eqb (t_n C) 0 then (X, diag) else
  q_create_OWP_matrix (numba_clear_off_diagonals X bc (t_Ju C) (t_Jd C) (t_n C)) zeros bc (t_Ju C) (t_Jd C) Q M (t_n C).

(** nquality.py:613-732 [sparse_matrix_equations]; the matrices persist between steps. *)
Definition q_sparse_matrix_equations (N : network) (P : wq_par) (CO CW CP : wq_ctl) (F : wq_flow) (B : nat -> q_bnd)
           (c_prev c_bc Q_0j c_0j : arr) (dt : R) (s : system) : system :=
  let wu := (fun k => q_omega_ge (f_Quu F k)) in
  let wd := (fun k => q_omega_ge (f_Qdd F k)) in
  let A := numba_clear_off_diagonals (s_A s) (p_bc P) (n_Ju N) (n_Jd N) (n_K N) in
  let '(A, Fj) := q_create_A_matrix N P F B dt A zeros in
  let D := numba_add_at zeros (n_K N) (n_Ju N)
             (fun k => (- f_Quu F k * (1 - wu k) + 2 * p_Du P k * f_Au F k / n_dxu N k) * q_zetu (B k)) in
  let D := numba_add_at D (n_K N) (n_Jd N)
             (fun k => (f_Qdd F k * wd k + 2 * p_Dd P k * f_Ad F k / n_dxd N k) * q_zetd (B k)) in
  let '(Om, Od) := q_controls (s_O s) (s_Od s) (p_bc P) (n_M N) CO (f_Qo F) in
  let '(Wm, Wd) := q_controls (s_W s) (s_Wd s) (p_bc P) (n_M N) CW (f_Qw F) in
  let '(Pm, Pd) := q_controls (s_P s) (s_Pd s) (p_bc P) (n_M N) CP (f_Qp F) in
  let b := (fun j => if p_bc P j then c_bc j else f_V F j * c_prev j / dt + Q_0j j * c_0j j + D j) in
  mkSystem A Om Wm Pm Fj Od Wd Pd D b.

(** ** After the solve *)

(** [np.minimum(np.maximum(c, c_min), c_max)] *)
Definition q_clip (P : wq_par) (c : R) : R := Rmin (Rmax c (p_min P)) (p_max P).

(** nquality.py:1626-1645 [c_i_f], [c_i_b], [c_I_b] *)
Definition q_c_i_f (c_Ip1 c_1 U V W : R) : R := U * c_Ip1 + V + W * c_1.
Definition q_c_i_b (c_I c_Np1 X Y Z : R) : R := X * c_I + Y + Z * c_Np1.
Definition q_c_I_b (c_i c_Np1 X Y Z : R) : R := safe_divide (c_i - Y - Z * c_Np1) X.

(** The two [if]s of lines 1611-1618. *)
Definition q_limit (P : wq_par) (c : R) : R :=
  let c := if Rltb c (p_min P) then p_min P else c in
  if Rltb (p_max P) c then p_max P else c.

(** nquality.py:1606-1618, one link and junction. *)
Definition q_internal_step (P : wq_par) (f : fwd) (b : bwd) (c_1 c_Np1 : R) (i I : nat) (s : arr * arr) : arr * arr :=
  let '(cI, ci) := s in
  let ci := upd ci i (q_c_i_f (cI (I + 1)%nat) c_1 (fU f I) (fV f I) (fW f I)) in
  let cI := upd cI I (q_c_I_b (ci i) c_Np1 (bX b I) (bY b I) (bZ b I)) in
  (upd cI I (q_limit P (cI I)), upd ci i (q_limit P (ci i))).
(** nquality.py:1588-1621 with first_link_backwards = True: one superlink. *)
Definition q_internals_superlink (P : wq_par) (f : fwd) (b : bwd) (c_1 c_Np1 : R) (i_1 I_1 n : nat) (s : arr * arr) : arr * arr :=
  let '(cI, ci) := s in
  let i_n := (i_1 + n - 1)%nat in
  let I_Np1 := (I_1 + n)%nat in
  let I_N := (I_Np1 - 1)%nat in
  let cI := upd (upd cI I_1 c_1) I_Np1 c_Np1 in
  let '(cI, ci) := for_n (n - 1) (fun j s => q_internal_step P f b c_1 c_Np1 (i_n - j) (I_N - j) s) (cI, ci) in
  (cI, upd ci i_1 (q_c_i_b (cI I_1) c_Np1 (bX b I_1) (bY b I_1) (bZ b I_1))).
(** nquality.py:1584-1625 [numba_solve_internals]. *)
Definition q_solve_internals (N : network) (P : wq_par) (f : fwd) (b : bwd) (c_1k c_Np1k : arr) (s : arr * arr) : arr * arr :=
  for_n (n_K N) (fun k s => q_internals_superlink P f b (c_1k k) (c_Np1k k) (n_i1 N k) (n_I1 N k) (n_nk N k) s) s.

(** ** One step *)

(** Work arrays of the model object. *)
Record wq_work : Type := mkWqWork { ww_nd : nat -> wq_node; ww_f : fwd; ww_b : bwd; ww_s : system }.

(** Everything computed before the solve (nquality.py:978-989). *)
Record wq_setup : Type := mkWqSetup { su_L : wq_links; su_nd : nat -> wq_node; su_f : fwd; su_b : bwd; su_B : nat -> q_bnd; su_s : system }.
Definition q_setup (N : network) (P : wq_par) (CO CW CP : wq_ctl) (F : wq_flow) (c : wq_state)
           (c_bc c_0j Q_0j c_0I Q_0I : arr) (dt : R) (w : wq_work) : option wq_setup :=
  let L := q_link_coeffs N P F c dt in
  do nd <- q_node_coeffs N P F c c_0I Q_0I dt (ww_nd w);
  let f := q_forward_recurrence (ww_f w) (l_al L) (l_be L) (l_ch L) (l_ga L) nd (n_K N) (n_nk N) (n_I1 N) (n_i1 N) in
  let b := q_backward_recurrence (ww_b w) (l_al L) (l_be L) (l_ch L) (l_ga L) nd (n_K N) (n_nk N)
             (fun k => n_I1 N k + n_nk N k - 1)%nat (fun k => n_i1 N k + n_nk N k - 1)%nat in
  let B := (fun k => q_boundary (q_ends nd f b (n_I1 N k) (n_I1 N k + n_nk N k - 1)) (q_end_coef L k)) in
  let s := q_sparse_matrix_equations N P CO CW CP F B (c_j c) c_bc Q_0j c_0j dt (ww_s w) in
  Some (mkWqSetup L nd f b B s).

(** Matrix of the solved system (nquality.py:752-765, 793-804). *)
Definition q_matrix (CO CW CP : wq_ctl) (s : system) : mat := system_matrix (t_n CO) (t_n CW) (t_n CP) s.

(** Unlimited end concentrations and depths given superjunction concentrations (nquality.py:833-836). *)
Definition q_end_u (N : network) (u : wq_setup) (cj : arr) (k : nat) : R :=
  q_rhou (su_B u k) * cj (n_Ju N k) + q_tauu (su_B u k) * cj (n_Jd N k) + q_zetu (su_B u k).
Definition q_end_d (N : network) (u : wq_setup) (cj : arr) (k : nat) : R :=
  q_rhod (su_B u k) * cj (n_Ju N k) + q_taud (su_B u k) * cj (n_Jd N k) + q_zetd (su_B u k).
Definition q_node_1 (N : network) (u : wq_setup) (cj : arr) (k : nat) : R :=
  let t := q_end_coef (su_L u) k in e_thu t * q_end_u N u cj k + e_siu t * cj (n_Ju N k) + e_xiu t.
Definition q_node_N (N : network) (u : wq_setup) (cj : arr) (k : nat) : R :=
  let t := q_end_coef (su_L u) k in e_thd t * q_end_d N u cj k + e_sid t * cj (n_Jd N k) + e_xid t.

(** nquality.py:774-775, 812-888: from the solution of the linear system to the new concentrations. *)
Definition q_finish (N : network) (P : wq_par) (u : wq_setup) (c : wq_state) (sol : arr) : wq_state :=
  let cj := (fun j => q_clip P (sol j)) in
  let '(cI, ci) := q_solve_internals N P (su_f u) (su_b u)
                     (fun k => q_clip P (q_node_1 N u cj k)) (fun k => q_clip P (q_node_N N u cj k)) (c_I c, c_i c) in
  mkWq cj (fun I => q_limit P (cI I)) (fun i => q_limit P (ci i))
       (fun k => q_clip P (q_end_u N u cj k)) (fun k => q_clip P (q_end_d N u cj k)).

(** Arguments and hydraulic data of one call to [step]. *)
Record wq_in : Type := mkWqIn { i_F : wq_flow; i_bc : arr; i_0j : arr; i_Q0j : arr; i_0I : arr; i_Q0I : arr; i_dt : R }.
(** State of the water-quality object: concentrations and work arrays. *)
Record wq_obj : Type := mkObj { ob_c : wq_state; ob_w : wq_work }.
(** The object before the first step: all work arrays zero (nquality.py:98-226). *)
Definition wq_fresh (c : wq_state) : wq_obj :=
  mkObj c (mkWqWork (fun _ => mkWqNode 0 0 0 0) (mkFwd zeros zeros zeros zeros) (mkBwd zeros zeros zeros zeros) fresh_system).
(** nquality.py:978-1000 [step]: everything before the solve, and the new object given the vector [sol] returned by the
    linear solver. *)
Definition q_prepare (N : network) (P : wq_par) (CO CW CP : wq_ctl) (i : wq_in) (o : wq_obj) : option wq_setup :=
  q_setup N P CO CW CP (i_F i) (ob_c o) (i_bc i) (i_0j i) (i_Q0j i) (i_0I i) (i_Q0I i) (i_dt i) (ob_w o).
Definition q_complete (N : network) (P : wq_par) (u : wq_setup) (o : wq_obj) (sol : arr) : wq_obj :=
  mkObj (q_finish N P u (ob_c o) sol) (mkWqWork (su_nd u) (su_f u) (su_b u) (su_s u)).
(** One step, with any solution of the linear system; repeated steps. *)
Inductive q_step (N : network) (P : wq_par) (CO CW CP : wq_ctl) (i : wq_in) (o : wq_obj) : wq_obj -> Prop :=
| q_step_intro u (sol : arr) :
    q_prepare N P CO CW CP i o = Some u ->
    (forall j, (j < n_M N)%nat -> sum_n (fun i => q_matrix CO CW CP (su_s u) j i * sol i) (n_M N) = s_b (su_s u) j) ->
    q_step N P CO CW CP i o (q_complete N P u o sol).
Inductive q_steps (N : network) (P : wq_par) (CO CW CP : wq_ctl) : list wq_in -> wq_obj -> wq_obj -> Prop :=
| q_steps_nil o : q_steps N P CO CW CP nil o o
| q_steps_cons i is o o1 o2 :
    q_step N P CO CW CP i o o1 -> q_steps N P CO CW CP is o1 o2 -> q_steps N P CO CW CP (cons i is) o o2.
