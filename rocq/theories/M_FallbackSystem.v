(** Model of the rest of a step of the class used when numba is not installed ([SuperLink] of
    pipedream_solver/superlink.py): coefficients of superlink ends, orifices and weirs, the system for the heads and its
    limits.  Arrays are updated through masks; entry k of an array is written [if mask then new else old], in the order of
    the code.  Not modelled: the end method 'j', pumps (the constructor never sets the arrays they read). *)
From Verif Require Import Prelude M_Coeffs M_Recurrence M_Assembly M_Controls.

(** ** Ends of superlinks *)

(** superlink.py:1395-1411 [gamma_uk], [gamma_dk], under [safe_divide]. *)
Definition py_gamma_uk (Q C A : R) : R := safe_divide (- Rabs Q) (2 * C ^ 2 * A ^ 2 * g).
Definition py_gamma_dk (Q C A : R) : R := safe_divide (Rabs Q) (2 * C ^ 2 * A ^ 2 * g).

(** superlink.py:2325-2330 and 2369-2374 (end method 'z'): the indicator theta is not in lambda and mu. *)
Definition py_upstream_head (z_inv Q C A : R) : headc := mkHead (py_gamma_uk Q C A) 1 (- z_inv).
Definition py_downstream_head (z_inv Q C A : R) : headc := mkHead (py_gamma_dk Q C A) 1 (- z_inv).

(** superlink.py:2439-2443: theta. *)
Definition py_theta (H z_inv : R) : R := if Rleb z_inv H then 1 else 0.

(** superlink.py:1467-1543: the flow coefficients, with the indicators thu and thd. *)
Definition py_flow_coefficients (e : ends) (hu hd : headc) (thu thd : R) : flowc :=
  let X := eX e in let Y := eY e in let Z := eZ e in let U := eU e in let V := eV e in let W := eW e in
  let ku := hk hu in let kd := hk hd in
  let Dks := (X * ku - 1) * (U * kd - 1) - (Z * kd) * (W * ku) in
  mkFlow
    (safe_divide (thu * ((1 - U * kd) * X * hl hu + Z * kd * W * hl hu)) Dks)
    (safe_divide (thd * ((1 - U * kd) * Z * hl hd + Z * kd * U * hl hd)) Dks)
    (safe_divide ((1 - U * kd) * (Y + thu * X * hm hu + thd * Z * hm hd) + (Z * kd) * (V + thu * W * hm hu + thd * U * hm hd)) Dks)
    (safe_divide (thu * ((1 - X * ku) * W * hl hu + W * ku * X * hl hu)) Dks)
    (safe_divide (thd * ((1 - X * ku) * U * hl hd + W * ku * Z * hl hd)) Dks)
    (safe_divide ((1 - X * ku) * (V + thu * W * hm hu + thd * U * hm hd) + (W * ku) * (Y + thu * X * hm hu + thd * Z * hm hd)) Dks).

(** superlink.py:3167-3197 [solve_superlink_depths_alt], one superlink; a determinant of 0 is replaced by infinity. *)
Definition solve_superlink_depths_alt (e : ends) (Q_u Q_d : R) : R * R :=
  let det := eX e * eU e - eZ e * eW e in
  let over x := if Reqb det 0 then 0 else x / det in
  (over (eU e * (Q_u - eY e) - eZ e * (Q_d - eV e)), over (- eW e * (Q_u - eY e) + eX e * (Q_d - eV e))).

(** ** Orifices and weirs *)

(** superlink.py:2510-2542 and 3015-3050: the masks a to d in turn, from the old entries [old]. *)
Definition py_orifice_masks (old : R * R * R) (gam H_u H_d u z_inv z_o tau y_max : R) : R * R * R :=
  let w := if Rleb H_d H_u then 1 else 0 in
  let cond_0 := Rltb (z_o + z_inv + tau * y_max * u) (w * H_u + (1 - w) * H_d) in
  let cond_1 := Rltb (z_o + z_inv + tau * y_max * u / 2) ((1 - w) * H_u + w * H_d) in
  let cond_2 := Rltb (z_o + z_inv) (w * H_u + (1 - w) * H_d) in
  let s := if Reqb w 1 then 1 else -1 in
  let x := if (cond_0 && cond_1)%bool then (gam, - gam, 0) else old in
  let x := if (cond_0 && negb cond_1)%bool
           then (gam * w * s, gam * (1 - w) * s, gam * s * (- z_inv - z_o - tau * y_max * u / 2)) else x in
  let x := if (negb cond_0 && cond_2)%bool then (gam * w * s, gam * (1 - w) * s, gam * s * (- z_inv - z_o)) else x in
  if (negb cond_0 && negb cond_2)%bool then (0, 0, 0) else x.

(** superlink.py:2481-2546 [orifice_flow_coefficients] with 1563-1570 [gamma_o]. *)
Definition py_orifice_flow_coefficients (old : R * R * R) (Q A C H_u H_d u z_inv z_o tau y_max : R) : R * R * R :=
  py_orifice_masks old (safe_divide (2 * g * C ^ 2 * A ^ 2) (Rabs Q)) H_u H_d u z_inv z_o tau y_max.

(** superlink.py:2987-3057 [solve_orifice_flows]; the arrays start as zeros. *)
Definition py_solve_orifice_flows (A C H_u H_d u z_inv z_o tau y_max V_u V_d dt : R) : R :=
  let w := if Rleb H_d H_u then 1 else 0 in
  let '(a, b, c) := py_orifice_masks (0, 0, 0) (2 * g * C ^ 2 * A ^ 2) H_u H_d u z_inv z_o tau y_max in
  let Q := (if Reqb w 1 then 1 else -1) * sqrt (Rabs (a * H_u + b * H_d + c)) in
  let Q_max := (if Rleb H_d H_u then V_u else V_d) / dt in
  sign Q * Rmin (Rabs Q) Q_max.

(** superlink.py:2577-2591 and 3084-3098: effective head, from the old entry. *)
Definition py_weir_head (old H_u H_d u z_inv z_w y_max : R) : R :=
  let w := if Rleb H_d H_u then 1 else 0 in
  let cond_0 := Rltb (z_w + z_inv + (1 - u) * y_max) (w * H_u + (1 - w) * H_d) in
  let cond_1 := Rltb (z_w + z_inv + (1 - u) * y_max) ((1 - w) * H_u + w * H_d) in
  let x := if (cond_0 && cond_1)%bool then H_u - H_d else old in
  let x := if (cond_0 && negb cond_1)%bool then w * H_u + (1 - w) * H_d + (- z_inv - z_w - (1 - u) * y_max) else x in
  let x := if negb cond_0 then 0 else x in
  Rabs x.

(** superlink.py:2548-2614 [weir_flow_coefficients] with 1572-1579 [gamma_w]. *)
Definition py_weir_flow_coefficients (oldH : R) (old : R * R * R) (Q H_u H_d u z_inv z_w y_max L s Cr Ct : R) : R * R * R :=
  let w := if Rleb H_d H_u then 1 else 0 in
  let cond_0 := Rltb (z_w + z_inv + (1 - u) * y_max) (w * H_u + (1 - w) * H_d) in
  let cond_1 := Rltb (z_w + z_inv + (1 - u) * y_max) ((1 - w) * H_u + w * H_d) in
  let Hw := py_weir_head oldH H_u H_d u z_inv z_w y_max in
  let gam := safe_divide ((Cr * L * Hw + Ct * s * Hw ^ 2) ^ 2) (Rabs Q) in
  let f := if Reqb w 1 then 1 else -1 in
  let x := if (cond_0 && cond_1)%bool then (gam, - gam, 0) else old in
  let x := if (cond_0 && negb cond_1)%bool
           then (gam * w * f, gam * (1 - w) * f, gam * f * (- z_inv - z_w - (1 - u) * y_max)) else x in
  if negb cond_0 then (0, 0, 0) else x.

(** superlink.py:3059-3104 [solve_weir_flows]. *)
Definition py_solve_weir_flows (oldH H_u H_d u z_inv z_w y_max L s Cr Ct : R) : R :=
  let w := if Rleb H_d H_u then 1 else 0 in
  let Hw := py_weir_head oldH H_u H_d u z_inv z_w y_max in
  (if Reqb w 1 then 1 else -1) * sqrt ((Cr * L * Hw + Ct * s * Hw ^ 2) ^ 2 * Hw).

(** ** The system for the heads *)

(** [np.add.at(a, J, v)]. *)
Definition py_add_at (a : arr) (n : nat) (J : nat -> nat) (v : arr) : arr := for_n n (fun k a => upd a (J k) (a (J k) + v k)) a.
(** [X[I[~bc[I]], J[~bc[I]]] = 0.0] *)
Definition py_clear (X : mat) (bc : nat -> bool) (I J : nat -> nat) (n : nat) : mat :=
  for_n n (fun k X => if bc (I k) then X else upd2 X (I k) (J k) 0) X.
(** [np.add.at(X, (I[~bc[I]], J[~bc[I]]), v[~bc[I]])] *)
Definition py_add (X : mat) (bc : nat -> bool) (I J : nat -> nat) (v : arr) (n : nat) : mat :=
  for_n n (fun k X => if bc (I k) then X else upd2 X (I k) (J k) (X (I k) (J k) + v k)) X.
(** [X[i[~bc], i[~bc]] = diag[i[~bc]]] *)
Definition py_diagonal (X : mat) (bc : nat -> bool) (diag : arr) (M : nat) : mat :=
  for_n M (fun i X => if bc i then X else upd2 X i i (diag i)) X.

(** superlink.py:2754-2759, 2790-2795: off-diagonal entries, the same for superlinks and the three kinds of controls. *)
Definition py_off_diagonals (X : mat) (bc : nat -> bool) (Ju Jd : nat -> nat) (ad bu : arr) (n : nat) : mat :=
  let X := py_clear X bc Ju Jd n in
  let X := py_clear X bc Jd Ju n in
  let X := py_add X bc Ju Jd bu n in
  py_add X bc Jd Ju (fun k => - ad k) n.

(** superlink.py:2769-2803 (orifices), 2804-2834 (weirs), 2835-2865 (pumps): one kind of controls. *)
Definition py_assemble_controls (X : mat) (D : arr) (bc : nat -> bool) (M : nat) (C : controls) : mat * arr :=
  if Nat.eqb (c_n C) 0 then (X, D) else
  let a_um := py_add_at zeros (c_n C) (c_Ju C) (c_a C) in
  let b_dl := py_add_at zeros (c_n C) (c_Jd C) (c_b C) in
  let X := py_diagonal X bc (fun j => - b_dl j + a_um j) M in
  let X := py_off_diagonals X bc (c_Ju C) (c_Jd C) (c_a C) (c_b C) (c_n C) in
  let c_ul := py_add_at zeros (c_n C) (c_Ju C) (c_c C) in
  let c_dm := py_add_at zeros (c_n C) (c_Jd C) (c_c C) in
  (X, fun j => if bc j then D j else D j + (- c_ul j + c_dm j)).

(** superlink.py:2672-2878 [sparse_matrix_equations] with H_bc, Q_0j and dt given; [H]: current heads. *)
Definition py_sparse_matrix_equations (M : nat) (bc : nat -> bool) (K : superlinks) (CO CW CP : controls)
           (A_sj H H_bc Q_0j : arr) (dt : R) (A0 O0 W0 P0 : mat) : mat * mat * mat * mat * arr :=
  let a_um := py_add_at zeros (k_n K) (k_Ju K) (k_au K) in
  let b_dl := py_add_at zeros (k_n K) (k_Jd K) (k_bd K) in
  let A := py_diagonal A0 bc (fun j => A_sj j / dt - b_dl j + a_um j) M in
  let A := for_n M (fun i X => if bc i then upd2 X i i 1 else X) A in
  let A := py_off_diagonals A bc (k_Ju K) (k_Jd K) (k_ad K) (k_bu K) (k_n K) in
  let c_ul := py_add_at zeros (k_n K) (k_Ju K) (k_cu K) in
  let c_dm := py_add_at zeros (k_n K) (k_Jd K) (k_cd K) in
  let D := (fun j => - c_ul j + c_dm j) in
  let '(Om, D) := py_assemble_controls O0 D bc M CO in
  let '(Wm, D) := py_assemble_controls W0 D bc M CW in
  let '(Pm, D) := py_assemble_controls P0 D bc M CP in
  (A, Om, Wm, Pm, fun j => if bc j then H_bc j else A_sj j * H j / dt + Q_0j j + D j).

(** superlink.py:2918-2919 and 2960-2961: limits of the solved heads. *)
Definition py_limit_head (z_inv min_depth max_depth H : R) : R := Rmin (Rmax H (z_inv + min_depth)) (z_inv + max_depth).
