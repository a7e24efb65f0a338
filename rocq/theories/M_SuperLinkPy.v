(** Model of the hydraulic class used when numba is not installed: [SuperLink] of pipedream_solver/superlink.py, which
    pipedream_solver/hydraulics.py 1-9 then exports instead of [nSuperLink].  Modelled: the order of the calls a step
    makes and their keywords, the sweeps along superlinks, velocities and momentum coefficients. *)
From Verif Require Import Prelude M_Coeffs M_Recurrence M_Layout.
From Coq Require Import List.
Import ListNotations.

(** ** The calls of a step *)

(** Methods that [_setup_step] calls. *)
Inductive method : Type :=
| save_state | link_hydraulic_geometry | upstream_hydraulic_geometry | downstream_hydraulic_geometry
| compute_storage_areas | compute_storage_volumes | node_velocities | orifice_hydraulic_geometry
| compute_flow_regime | link_coeffs_ | node_coeffs | forward_recurrence | backward_recurrence
| superlink_upstream_head_coefficients | superlink_downstream_head_coefficients | superlink_flow_coefficients_
| orifice_flow_coefficients | weir_flow_coefficients | pump_flow_coefficients | sparse_matrix_equations.

(** Their keyword parameters. *)
Inductive keyword : Type :=
| k_area | k_u | k_dt | k_first_iter | k_Q_0Ik | k_H_bc | k_Q_0j | k_implicit | k_first_time.

Definition keyword_eqb (x y : keyword) : bool :=
  match x, y with
  | k_area, k_area | k_u, k_u | k_dt, k_dt | k_first_iter, k_first_iter | k_Q_0Ik, k_Q_0Ik | k_H_bc, k_H_bc
  | k_Q_0j, k_Q_0j | k_implicit, k_implicit | k_first_time, k_first_time => true
  | _, _ => false
  end.

(** Parameters in the signatures of superlink.py: lines 1722, 1780, 1839, 1898, 1934, 1965, 1998, 2040, 2070, 2109,
    2161, 2233, 2304, 2348, 2393, 2481, 2548, 2616, 2672, 3906. *)
Definition python_signature (m : method) : list keyword :=
  match m with
  | upstream_hydraulic_geometry | downstream_hydraulic_geometry => [k_area]
  | orifice_hydraulic_geometry | orifice_flow_coefficients | weir_flow_coefficients | pump_flow_coefficients => [k_u]
  | link_coeffs_ => [k_dt; k_first_iter]
  | node_coeffs => [k_Q_0Ik; k_dt; k_first_iter]
  | sparse_matrix_equations => [k_H_bc; k_Q_0j; k_u; k_dt; k_implicit; k_first_time]
  | _ => []
  end.

(** Parameters in the signatures of nsuperlink.py: lines 482, 535, 587, 638, 666, 699, 725, 762, 796, 824, 851, 906,
    959, 1037, 1068, 1100, 1133, 1615; [save_state] and [compute_flow_regime] are inherited. *)
Definition numba_signature (m : method) : list keyword :=
  match m with
  | superlink_upstream_head_coefficients | superlink_downstream_head_coefficients => [k_dt]
  | _ => python_signature m
  end.

(** The calls of [_setup_step] with the keywords they pass (superlink.py:4015-4051). *)
Definition setup_calls (first_iter orifices weirs pumps damping : bool) : list (method * list keyword) :=
  (if first_iter then [(save_state, [])] else []) ++
  [(link_hydraulic_geometry, []); (upstream_hydraulic_geometry, []); (downstream_hydraulic_geometry, []);
   (compute_storage_areas, []); (compute_storage_volumes, []); (node_velocities, [])] ++
  (if orifices then [(orifice_hydraulic_geometry, [k_u])] else []) ++
  (if damping then [(compute_flow_regime, [])] else []) ++
  [(link_coeffs_, [k_dt; k_first_iter]); (node_coeffs, [k_Q_0Ik; k_dt; k_first_iter]);
   (forward_recurrence, []); (backward_recurrence, []);
   (superlink_upstream_head_coefficients, [k_dt]); (superlink_downstream_head_coefficients, [k_dt]);
   (superlink_flow_coefficients_, [])] ++
  (if orifices then [(orifice_flow_coefficients, [k_u])] else []) ++
  (if weirs then [(weir_flow_coefficients, [k_u])] else []) ++
  (if pumps then [(pump_flow_coefficients, [k_u])] else []) ++
  [(sparse_matrix_equations, [k_H_bc; k_Q_0j; k_first_time; k_dt; k_implicit])].

(** State of the object after a call, and whether an exception left it. *)
Inductive outcome (S : Type) : Type := Done (s : S) | Raised (s : S).
Arguments Done {S}.
Arguments Raised {S}.
Definition and_then {S} (o : outcome S) (k : S -> outcome S) : outcome S :=
  match o with Done s => k s | Raised s => Raised s end.

Section Calls.
  Context {S : Type}.
  (** What the methods do once called; in Python a keyword missing from the signature raises TypeError before the
      body runs. *)
  Variable signature : method -> list keyword.
  Variable body : method -> S -> outcome S.
  Definition call (c : method * list keyword) (s : S) : outcome S :=
    if forallb (fun k => existsb (keyword_eqb k) (signature (fst c))) (snd c) then body (fst c) s else Raised s.

  Definition calls (cs : list (method * list keyword)) (s : S) : outcome S :=
    fold_left (fun o c => and_then o (call c)) cs (Done s).

  (** superlink.py:4015-4051 [_setup_step]; [store] stands for lines 4019-4022, between saving and the rest. *)
  Definition setup_step_calls (first_iter implicit orifices weirs pumps damping : bool) (store : S -> S) (s : S) : outcome S :=
    and_then (calls (if first_iter then [(save_state, [])] else []) s) (fun s =>
    let s := store s in
    if implicit then calls (setup_calls false orifices weirs pumps damping) s else Raised s).

  (** superlink.py:4086-4160 [step]: the first pass, then passes until [settled] or the count runs out.  [solve] is
      [_solve_step]; [undo] takes the clock back before a further pass. *)
  Definition step_calls (implicit orifices weirs pumps damping : bool) (store undo : S -> S) (solve : S -> outcome S)
             (settled : S -> S -> bool) (num_iter : nat) (s : S) : outcome S :=
    let pass first s := and_then (setup_step_calls first implicit orifices weirs pumps damping store s) solve in
    let fix more n s :=
      match n with
      | O => Done s
      | Datatypes.S n => and_then (pass false (undo s)) (fun s' => if settled s s' then Done s' else more n s')
      end in
    and_then (pass true s) (fun s' => if settled s s' then Done s' else more (num_iter - 1)%nat s').
End Calls.

(** ** The sweeps along superlinks, all superlinks in lock-step *)

(** [a[key[ix]] = val], values computed before the assignment. *)
Definition scatter_at (ix : list nat) (key : nat -> nat) (val : nat -> R) (a : arr) : arr :=
  fold_left (fun a I => upd a (key I) (val I)) ix a.
(** The same for values that may be infinite or NaN ([None]). *)
Definition scatter_opt (ix : list nat) (key : nat -> nat) (val : nat -> option R) (a : arr) : option arr :=
  fold_left (fun o I => do a <- o; do v <- val I; Some (upd a (key I) v)) ix (Some a).

(** superlink.py:1296-1310 [T_ik], one entry: 0 where the divisor is 0. *)
Definition py_T_ik (a b c A E U_m : R) : R :=
  if Reqb (U_m - E) 0 then 0 else (a + b + c) - (g * A - E * a) / (U_m - E).
(** superlink.py:1378-1391 [O_ik]. *)
Definition py_O_ik (a b c A E_p X_p : R) : R :=
  if Reqb (X_p + E_p) 0 then 0 else (a + b + c) + (g * A - E_p * c) / (X_p + E_p).

Section Sweeps.
  Variables a b c P A E D : arr.
  Variable T : tables.
  Variable NK : nat.
  (** [end_method == 'o'] *)
  Variable end_o : bool.
  Notation superlinks := (seq 0 NK).

  (** superlink.py:2186-2203 and, again, 2222-2226: the first link of every superlink.  Without the optional
      arguments (end method 'o') [a_1k], [D_1k] and [E_1k] are 0. *)
  Definition py_forward_first (s : fwd) : fwd :=
    let i1 := t_i_1k T in let I1 := t_I_1k T in
    let I2 k := t_forward_I_I T (I1 k) in
    let T1 k := T_1k (a (i1 k)) (b (i1 k)) (c (i1 k)) in
    let U1 k := U_1k (E (I2 k)) (c (i1 k)) (A (i1 k)) (T1 k) in
    let V1 k := V_1k (P (i1 k)) (D (I2 k)) (c (i1 k)) (T1 k)
                     (if end_o then 0 else a (i1 k)) (if end_o then 0 else D (I1 k)) in
    let W1 k := W_1k (A (i1 k)) (T1 k) (if end_o then 0 else a (i1 k)) (if end_o then 0 else E (I1 k)) in
    mkFwd (scatter_at superlinks i1 T1 (fT s)) (scatter_at superlinks I1 U1 (fU s))
          (scatter_at superlinks I1 V1 (fV s)) (scatter_at superlinks I1 W1 (fW s)).

  (** superlink.py:2207-2219: one round, for the junctions [ix]. *)
  Definition py_forward_round (ix : list nat) (s : fwd) : option fwd :=
    let Im1 := t_backward_I_I T in let Ip1 := t_forward_I_I T in let i := t_forward_I_i T in
    let T' := scatter_at ix i (fun I => py_T_ik (a (i I)) (b (i I)) (c (i I)) (A (i I)) (E I) (fU s (Im1 I))) (fT s) in
    let U' := scatter_at ix (fun I => I) (fun I => U_Ik (E (Ip1 I)) (c (i I)) (A (i I)) (T' (i I))) (fU s) in
    do V' <- scatter_opt ix (fun I => I)
               (fun I => V_Ik (P (i I)) (a (i I)) (D I) (D (Ip1 I)) (c (i I)) (A (i I)) (E I)
                              (fV s (Im1 I)) (U' (Im1 I)) (T' (i I))) (fV s);
    let W' := scatter_at ix (fun I => I)
               (fun I => W_Ik (A (i I)) (E I) (a (i I)) (fW s (Im1 I)) (U' (Im1 I)) (T' (i I))) (fW s) in
    Some (mkFwd T' U' V' W').

  (** superlink.py:2205-2220: [while _I_next.size]; [None] also when the fuel runs out. *)
  Fixpoint py_forward_loop (fuel : nat) (ix : list nat) (s : fwd) : option fwd :=
    match fuel with
    | O => None
    | Datatypes.S m =>
        match ix with
        | [] => Some s
        | _ => do s' <- py_forward_round ix s;
               py_forward_loop m (filter (fun I => negb (t_is_end T I)) (map (t_forward_I_I T) ix)) s'
        end
    end.

  (** superlink.py:2161-2231 [forward_recurrence]. *)
  Definition py_forward_recurrence (fuel : nat) (s : fwd) : option fwd :=
    let I2 := map (fun k => t_forward_I_I T (t_I_1k T k)) superlinks in
    do s' <- py_forward_loop fuel (filter (fun I => negb (t_is_end T I)) I2) (py_forward_first s);
    Some (py_forward_first s').

  (** superlink.py:2255-2275 and, again, 2294-2298: the last link of every superlink. *)
  Definition py_backward_first (s : bwd) : bwd :=
    let i_n := t_i_nk T in let I_N := t_I_Nk T in let I_Np1 := t_I_Np1k T in
    let O1 k := O_nk (a (i_n k)) (b (i_n k)) (c (i_n k)) in
    let X1 k := X_Nk (A (i_n k)) (E (I_N k)) (a (i_n k)) (O1 k) in
    let Y1 k := Y_Nk (P (i_n k)) (D (I_N k)) (a (i_n k)) (O1 k)
                     (if end_o then 0 else c (i_n k)) (if end_o then 0 else D (I_Np1 k)) in
    let Z1 k := Z_Nk (A (i_n k)) (O1 k) (if end_o then 0 else c (i_n k)) (if end_o then 0 else E (I_Np1 k)) in
    mkBwd (scatter_at superlinks i_n O1 (bO s)) (scatter_at superlinks I_N X1 (bX s))
          (scatter_at superlinks I_N Y1 (bY s)) (scatter_at superlinks I_N Z1 (bZ s)).

  (** superlink.py:2280-2291: one round. *)
  Definition py_backward_round (ix : list nat) (s : bwd) : option bwd :=
    let Ip1 := t_forward_I_I T in let i := t_forward_I_i T in
    let O' := scatter_at ix i (fun I => py_O_ik (a (i I)) (b (i I)) (c (i I)) (A (i I)) (E (Ip1 I)) (bX s (Ip1 I))) (bO s) in
    let X' := scatter_at ix (fun I => I) (fun I => X_Ik (A (i I)) (E I) (a (i I)) (O' (i I))) (bX s) in
    do Y' <- scatter_opt ix (fun I => I)
               (fun I => Y_Ik (P (i I)) (a (i I)) (D I) (D (Ip1 I)) (c (i I)) (A (i I)) (E (Ip1 I))
                              (bY s (Ip1 I)) (X' (Ip1 I)) (O' (i I))) (bY s);
    let Z' := scatter_at ix (fun I => I)
               (fun I => Z_Ik (A (i I)) (E (Ip1 I)) (c (i I)) (bZ s (Ip1 I)) (X' (Ip1 I)) (O' (i I))) (bZ s) in
    Some (mkBwd O' X' Y' Z').

  (** superlink.py:2278-2292: [while _I_next.size]. *)
  Fixpoint py_backward_loop (fuel : nat) (ix : list nat) (s : bwd) : option bwd :=
    match fuel with
    | O => None
    | Datatypes.S m =>
        match ix with
        | [] => Some s
        | _ => do s' <- py_backward_round ix s;
               py_backward_loop m (map (t_backward_I_I T) (filter (fun I => negb (t_is_start T I)) ix)) s'
        end
    end.

  (** superlink.py:2233-2302 [backward_recurrence]. *)
  Definition py_backward_recurrence (fuel : nat) (s : bwd) : option bwd :=
    let I_N := map (t_I_Nk T) superlinks in
    do s' <- py_backward_loop fuel (map (t_backward_I_I T) (filter (fun I => negb (t_is_start T I)) I_N)) (py_backward_first s);
    Some (py_backward_first s').
End Sweeps.

(** ** Velocities and momentum coefficients *)

(** superlink.py:1136-1143 [u_ik] under [safe_divide]: 0 unless the area is positive. *)
Definition py_u_ik (Q A : R) : R := safe_divide Q (if Rltb 0 A then A else 0).
(** superlink.py:2020-2027, 1155-1163: velocity at the upstream junction of link i. *)
Definition py_u_Ik (dx u : arr) (start : nat -> bool) (before : nat -> nat) (i : nat) : R :=
  if start i then u i else safe_divide (dx i * u (before i) + dx (before i) * u i) (dx i + dx (before i)).
(** superlink.py:2028-2034, 1145-1153: velocity at the downstream junction of link i. *)
Definition py_u_Ip1k (dx u : arr) (end_ : nat -> bool) (after : nat -> nat) (i : nat) : R :=
  if end_ i then u i else safe_divide (dx i * u (after i) + dx (after i) * u i) (dx i + dx (after i)).

(** superlink.py:1184-1203 [b_ik], one entry; [None]: not finite.  The friction method is not read: every link uses
    Manning's formula. *)
Definition py_b_ik (dx dt n Q A Rh A_c C a c : R) (ctrl : bool) (sigma : R) : option R :=
  let t_0 := (dx / dt) * sigma in
  do t_1 <- (if Rltb 0 A then do x <- div (g * n ^ 2 * Rabs Q * dx) A; div x (fpow Rh (4 / 3)) else Some 0);
  let t_2 := if ctrl then A * Rabs Q / A_c ^ 2 / C ^ 2 else 0 in
  Some (t_0 + t_1 + t_2 - a - c).

(** superlink.py:1998-2038 [node_velocities], 2040-2068 [compute_flow_regime] and 2070-2107 [link_coeffs], entry i.
    [b_ik] is called without sigma, which is then 1; [P_ik] uses the current flow. *)
Definition py_link_coeffs (damp : bool) (L : links) (before after : nat -> nat) (dt : R) (i : nat) : option (R * R * R * R) :=
  let u i := py_u_ik (l_Q L i) (l_A L i) in
  let sigma := damping damp (u i) (l_A L i) (l_B L i) in
  let a := a_ik (py_u_Ik (l_dx L) u (l_start L) before i) sigma in
  let c := c_ik (py_u_Ip1k (l_dx L) u (l_end L) after i) sigma in
  do b <- py_b_ik (l_dx L i) dt (l_n L i) (l_Q L i) (l_A L i) (l_R L i) (l_Ac L i) (l_C L i) a c (l_ctrl L i) 1;
  Some (a, b, c, P_ik (l_Q L i) (l_dx L i) dt (l_A L i) (l_So L i) sigma).
