(** Model of the momentum and continuity coefficients of links and internal junctions
    (pipedream_solver/nsuperlink.py). *)
From Verif Require Import Prelude.

(** Gravitational constant used throughout (nsuperlink.py:744, 2035, 2968, ...). *)
Definition g : R := 9.81.

(** NumPy power [x ** y] for [x >= 0]: [0 ** y] is 0 for y > 0 and 1 for y = 0; for x > 0 it is
    exp(y ln x).  A negative base (NaN in NumPy for a fractional exponent) is not modelled:
    the theorems using it assume [x >= 0]. *)
Definition fpow (x y : R) : R :=
  if Reqb x 0 then (if Reqb y 0 then 1 else 0) else Rpower x y.

(** Scalar division in an @njit function: raises ZeroDivisionError ([None]) on a zero divisor. *)
Definition div (x y : R) : option R := if Reqb y 0 then None else Some (x / y).

Definition bind {A B : Type} (o : option A) (k : A -> option B) : option B :=
  match o with None => None | Some a => k a end.
Notation "'do' x <- e1 ; e2" := (bind e1 (fun x => e2)) (at level 60, x name, e1 at next level, e2 at level 60).

(** [np.log10] *)
Definition log10 (x : R) : R := ln x / ln 10.

(** nsuperlink.py:2034-2058 [friction_slope].  [sf] is the friction method code (0 Manning,
    1 Hazen-Williams, 2 Darcy-Weisbach).  [None]: ZeroDivisionError or the ValueError of line 2055. *)
Definition friction_slope (Q dx A Rh n : R) (sf : nat) : option R :=
  if Rltb 0 A then
    match sf with
    | 0%nat => do x <- div (g * n ^ 2 * Rabs Q * dx) A; div x (fpow Rh (4 / 3))
    | 1%nat => do x <- div (1.354 * g * fpow (Rabs Q) 0.85 * dx) (fpow A 0.85);
               do y <- div x (fpow n 1.85); div y (fpow Rh 1.1655)
    | 2%nat =>
        let nu := 0.0000010034 in
        do q <- div (Rabs Q) A;
        do Re <- div (q * 4 * Rh) nu;
        do u <- div n (3.7 * 4 * Rh);
        do v <- div 5.74 (fpow Re 0.9);
        do f <- div 0.25 (log10 (u + v) ^ 2);
        div (0.01274 * g * f * Rabs Q * dx) (A * Rh)
    | _ => None
    end
  else Some 0.

(** nsuperlink.py:2060-2066 [numba_a_ik], one entry of the array expression. *)
Definition a_ik (u_I sigma : R) : R := - Rmax u_I 0 * sigma.

(** nsuperlink.py:2068-2074 [numba_c_ik], one entry. *)
Definition c_ik (u_Ip1 sigma : R) : R := - Rmax (- u_Ip1) 0 * sigma.

(** nsuperlink.py:2076-2097 [numba_b_ik], one entry of the loop and of the array expressions.
    The division by [A_c ** 2] is a NumPy array division (no exception). *)
Definition b_ik (dx dt n Q A Rh A_c C a c : R) (ctrl : bool) (sigma : R) (sf : nat) : option R :=
  let t_0 := (dx / dt) * sigma in
  do t_1 <- friction_slope Q dx A Rh n sf;
  let t_2 := if ctrl then C * A * Rabs Q / A_c ^ 2 else 0 in
  Some (t_0 + t_1 + t_2 - a - c).

(** nsuperlink.py:2099-2107 [numba_P_ik], one entry.  [Q_prev] is the flow saved at the start of the step. *)
Definition P_ik (Q_prev dx dt A S_o sigma : R) : R :=
  (Q_prev * dx / dt) * sigma + g * A * S_o * dx.

(** nsuperlink.py:2109-2119 [E_Ik].  The scalar division by [dt] raises if dt = 0; the
    theorems assume dt > 0. *)
Definition E_Ik (B dx B_m dx_m A_SI dt : R) : R := (B * dx / 2 + B_m * dx_m / 2 + A_SI) / dt.

(** nsuperlink.py:2121-2134 [D_Ik]. *)
Definition D_Ik (Q_0 B dx B_m dx_m A_SI h dt : R) : R :=
  Q_0 + (B * dx / 2 + B_m * dx_m / 2 + A_SI) * (h / dt).

(** nsuperlink.py:2136-2162 [numba_node_coeffs]: writes E and D of all [N] internal junctions. *)
Definition numba_node_coeffs (D E Q_0 B h dx A_SI B_u B_d dx_u dx_d : arr) (kI : nat -> nat) (dt : R)
           (forward_I_i backward_I_i : nat -> nat) (is_start is_end : nat -> bool) (N : nat)
  : arr * arr :=
  for_n N (fun I s =>
    let '(D, E) := s in
    let k := kI I in
    if is_start I then
      let i := forward_I_i I in
      (upd D I (D_Ik (Q_0 I) (B i) (dx i) (B_u k) (dx_u k) (A_SI I) (h I) dt),
       upd E I (E_Ik (B i) (dx i) (B_u k) (dx_u k) (A_SI I) dt))
    else if is_end I then
      let im1 := backward_I_i I in
      (upd D I (D_Ik (Q_0 I) (B_d k) (dx_d k) (B im1) (dx im1) (A_SI I) (h I) dt),
       upd E I (E_Ik (B_d k) (dx_d k) (B im1) (dx im1) (A_SI I) dt))
    else
      let i := forward_I_i I in
      let im1 := (i - 1)%nat in
      (upd D I (D_Ik (Q_0 I) (B i) (dx i) (B im1) (dx im1) (A_SI I) (h I) dt),
       upd E I (E_Ik (B i) (dx i) (B im1) (dx im1) (A_SI I) dt)))
  (D, E).

(** nsuperlink.py:2267-2278 [numba_u_ik], one entry: link velocity, 0 for an empty link. *)
Definition u_ik (Q A : R) : R := if Reqb A 0 then 0 else Q / A.

(** nsuperlink.py:2280-2295 [numba_u_Ik], entry [i]: velocity at the upstream junction of link i. *)
Definition u_Ik (dx u : arr) (link_start : nat -> bool) (i : nat) : R :=
  if link_start i then u i
  else
    let im1 := (i - 1)%nat in
    let num := dx i * u im1 + dx im1 * u i in
    let den := dx i + dx im1 in
    if Reqb den 0 then 0 else num / den.

(** nsuperlink.py:2297-2312 [numba_u_Ip1k], entry [i]: velocity at the downstream junction of link i. *)
Definition u_Ip1k (dx u : arr) (link_end : nat -> bool) (i : nat) : R :=
  if link_end i then u i
  else
    let ip1 := (i + 1)%nat in
    let num := dx i * u ip1 + dx ip1 * u i in
    let den := dx i + dx ip1 in
    if Reqb den 0 then 0 else num / den.

(** superlink.py:2040-2068 [compute_flow_regime], one entry: inertial damping factor from the Froude number. *)
Definition sigma_ik (Fr : R) : R :=
  if Rltb Fr 0.5 then 1 else if Rltb 1 Fr then 0 else 2 * (1 - Fr).

(** superlink.py:1165-1169 [Fr] under the decorator [safe_divide] (1124-1134), one entry: Froude number. *)
Definition Fr_ik (u A B : R) : R :=
  let den := sqrt (g * A) in if Reqb den 0 then 0 else Rabs u * sqrt B / den.

(** superlink.py:642 and 4034-4035: inertial damping factor of a link; 1 when damping is off. *)
Definition damping (on : bool) (u A B : R) : R := if on then sigma_ik (Fr_ik u A B) else 1.

(** Link data read by [node_velocities] and [link_coeffs]; [l_Q] is the current flow, [l_Qp] the flow
    saved at the start of the step. *)
Record links : Type := mkLinks {
  l_dx : arr; l_n : arr; l_sf : nat -> nat; l_Q : arr; l_Qp : arr; l_A : arr; l_R : arr; l_B : arr;
  l_So : arr; l_Ac : arr; l_C : arr; l_ctrl : nat -> bool; l_start : nat -> bool; l_end : nat -> bool }.

Record momc : Type := mkMom { ma : arr; mb : arr; mc : arr; mP : arr }.

(** nsuperlink.py:699-723 [node_velocities], superlink.py:2040-2068 [compute_flow_regime] and
    nsuperlink.py:725-760 [link_coeffs] with 2076-2107, for [NL] links.  [None]: exception in
    [friction_slope].  [b0] is the array [b] before the call. *)
Definition link_coeffs (damp : bool) (L : links) (dt : R) (NL : nat) (b0 : arr) : option momc :=
  let u i := u_ik (l_Q L i) (l_A L i) in
  let sigma i := damping damp (u i) (l_A L i) (l_B L i) in
  let a i := a_ik (u_Ik (l_dx L) u (l_start L) i) (sigma i) in
  let c i := c_ik (u_Ip1k (l_dx L) u (l_end L) i) (sigma i) in
  do b <- for_opt NL (fun i b =>
        do v <- b_ik (l_dx L i) dt (l_n L i) (l_Q L i) (l_A L i) (l_R L i) (l_Ac L i) (l_C L i)
                     (a i) (c i) (l_ctrl L i) (sigma i) (l_sf L i);
        Some (upd b i v)) b0;
  Some (mkMom a b c (fun i => P_ik (l_Qp L i) (l_dx L i) dt (l_A L i) (l_So L i) (sigma i))).
