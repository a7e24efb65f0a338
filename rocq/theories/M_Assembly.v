(** Model of the assembly of the linear system for the superjunction heads and of its use
    (pipedream_solver/nsuperlink.py 1133-1383 and 3028-3118). *)
From Verif Require Import Prelude M_Coeffs M_Recurrence.

(** nsuperlink.py:3042-3049 [numba_add_at]: [a[indices[k]] += b[k]] for every k. *)
Definition numba_add_at (a : arr) (n : nat) (indices : nat -> nat) (b : arr) : arr :=
  for_n n (fun k a => upd a (indices k) (a (indices k) + b k)) a.

(** nsuperlink.py:3051-3063 [numba_clear_off_diagonals]. *)
Definition numba_clear_off_diagonals (A : mat) (bc : nat -> bool) (J_u J_d : nat -> nat) (NK : nat) : mat :=
  for_n NK (fun k A =>
    let u := J_u k in
    let d := J_d k in
    let A := if bc u then A else upd2 A u d 0 in
    if bc d then A else upd2 A d u 0) A.

(** The loop over elements of nsuperlink.py:3082-3090 (and 3109-3118): [A[u,d] += beta_u], [A[d,u] -= alpha_d]. *)
Definition add_off_diagonals (A : mat) (bc : nat -> bool) (J_u J_d : nat -> nat) (alpha_d beta_u : arr) (NK : nat) : mat :=
  for_n NK (fun k A =>
    let u := J_u k in
    let d := J_d k in
    let A := if bc u then A else upd2 A u d (A u d + beta_u k) in
    if bc d then A else upd2 A d u (A d u - alpha_d k)) A.

(** The loop over junctions of nsuperlink.py:3077-3081 (and 3103-3107). *)
Definition set_diagonal (A : mat) (bc : nat -> bool) (on_bc : R) (diag : arr) (M : nat) : mat :=
  for_n M (fun i A => upd2 A i i (if bc i then on_bc else diag i)) A.

(** nsuperlink.py:3065-3090 [numba_create_A_matrix]; returns the matrix and the diagonal work array. *)
Definition numba_create_A_matrix (A : mat) (F_jj : arr) (bc : nat -> bool) (J_uk J_dk : nat -> nat)
           (alpha_u alpha_d beta_u beta_d xi_u xi_d A_sj : arr) (dt : R) (M NK : nat) : mat * arr :=
  let F := numba_add_at F_jj NK J_uk alpha_u in
  let F := numba_add_at F NK J_dk (fun k => - beta_d k) in
  let F := numba_add_at F NK J_uk xi_u in
  let F := numba_add_at F NK J_dk xi_d in
  let F := (fun j => F j + A_sj j / dt) in
  let A := set_diagonal A bc 1 F M in
  (add_off_diagonals A bc J_uk J_dk alpha_d beta_u NK, F).

(** nsuperlink.py:3092-3118 [numba_create_OWP_matrix]. *)
Definition numba_create_OWP_matrix (X : mat) (diag : arr) (bc : nat -> bool) (J_uc J_dc : nat -> nat)
           (alpha_u alpha_d beta_u beta_d : arr) (M NC : nat) : mat * arr :=
  let diag := numba_add_at diag NC J_uc alpha_u in
  let diag := numba_add_at diag NC J_dc (fun c => - beta_d c) in
  let X := set_diagonal X bc 0 diag M in
  (add_off_diagonals X bc J_uc J_dc alpha_d beta_u NC, diag).

(** Superlinks as seen by the assembly: end junctions, flow coefficients and end storage terms. *)
Record superlinks : Type := mkSuperlinks {
  k_n : nat; k_Ju : nat -> nat; k_Jd : nat -> nat;
  k_au : arr; k_bu : arr; k_cu : arr; k_ad : arr; k_bd : arr; k_cd : arr;
  k_dxu : arr; k_Bu : arr; k_thu : arr; k_dxd : arr; k_Bd : arr; k_thd : arr }.

(** A family of controls (orifices, weirs or pumps): the flow alpha H_u + beta H_d + chi leaves the
    upstream junction and enters the downstream one. *)
Record controls : Type := mkControls {
  c_n : nat; c_Ju : nat -> nat; c_Jd : nat -> nat; c_a : arr; c_b : arr; c_c : arr }.

(** The arrays the model object keeps between steps; superlink.py:684-721 allocates all of them as zeros. *)
Record system : Type := mkSystem {
  s_A : mat; s_O : mat; s_W : mat; s_P : mat;
  s_F : arr; s_Od : arr; s_Wd : arr; s_Pd : arr;
  s_D : arr; s_b : arr }.
Definition zeros : arr := fun _ => 0.
Definition zeros2 : mat := fun _ _ => 0.
Definition fresh_system : system :=
  mkSystem zeros2 zeros2 zeros2 zeros2 zeros zeros zeros zeros zeros zeros.

(** nsuperlink.py:1236-1250, 1251-1265, 1266-1280: one family of controls, skipped when there is none. *)
Definition assemble_controls (X : mat) (diag D : arr) (bc : nat -> bool) (M : nat) (C : controls) : mat * arr * arr :=
  if Nat.eqb (c_n C) 0 then (X, diag, D) else
  let X := numba_clear_off_diagonals X bc (c_Ju C) (c_Jd C) (c_n C) in
  let '(X, diag) := numba_create_OWP_matrix X zeros bc (c_Ju C) (c_Jd C) (c_a C) (c_a C) (c_b C) (c_b C) M (c_n C) in
  let D := numba_add_at D (c_n C) (c_Ju C) (fun c => - c_c C c) in
  let D := numba_add_at D (c_n C) (c_Jd C) (c_c C) in
  (X, diag, D).

(** nsuperlink.py:1133-1295 [sparse_matrix_equations] with all optional inputs given (H_bc, Q_0j, dt).
    [H_prev] is the head stored with the saved state. *)
Definition sparse_matrix_equations (M : nat) (bc : nat -> bool) (K : superlinks) (CO CW CP : controls)
           (A_sj H_prev H_bc Q_0j : arr) (dt : R) (s : system) : system :=
  let xi_u := (fun k => xi (k_dxu K k) (k_Bu K k) (k_thu K k) dt) in
  let xi_d := (fun k => xi (k_dxd K k) (k_Bd K k) (k_thd K k) dt) in
  let A := numba_clear_off_diagonals (s_A s) bc (k_Ju K) (k_Jd K) (k_n K) in
  let '(A, F) := numba_create_A_matrix A zeros bc (k_Ju K) (k_Jd K) (k_au K) (k_ad K) (k_bu K) (k_bd K)
                                       xi_u xi_d A_sj dt M (k_n K) in
  let D := numba_add_at zeros (k_n K) (k_Ju K) (fun k => - k_cu K k) in
  let D := numba_add_at D (k_n K) (k_Jd K) (k_cd K) in
  let D := numba_add_at D (k_n K) (k_Ju K) (fun k => xi_u k * H_prev (k_Ju K k)) in
  let D := numba_add_at D (k_n K) (k_Jd K) (fun k => xi_d k * H_prev (k_Jd K k)) in
  let '(Om, Od, D) := assemble_controls (s_O s) (s_Od s) D bc M CO in
  let '(Wm, Wd, D) := assemble_controls (s_W s) (s_Wd s) D bc M CW in
  let '(Pm, Pd, D) := assemble_controls (s_P s) (s_Pd s) D bc M CP in
  let b := (fun j => if bc j then H_bc j else A_sj j * H_prev j / dt + Q_0j j + D j) in
  mkSystem A Om Wm Pm F Od Wd Pd D b.

(** nsuperlink.py:1316-1329 and 1360-1369: matrix of the solved system. *)
Definition system_matrix (n_o n_w n_p : nat) (s : system) : mat :=
  if negb (Nat.eqb (n_o + n_w + n_p) 0)
  then fun i j => s_A s i j + s_O s i j + s_W s i j + s_P s i j
  else s_A s.

(** nsuperlink.py:1337-1339 and 1379-1381: limits applied to the solved heads. *)
Definition limit_head (z_inv max_depth H : R) : R := Rmin (Rmax H z_inv) (z_inv + max_depth).

(** nsuperlink.py:3028-3039 [numba_create_banded]; negative indices count from the end of the axis (M entries). *)
Definition numba_create_banded (l : mat) (bw M : nat) : mat :=
  let AB := zeros2 in
  let AB := for_n M (fun i AB => upd2 AB bw i (l i i)) AB in
  for_n bw (fun n AB =>
    for_n (M - n - 1) (fun j AB =>
      let AB := upd2 AB (bw - n - 1) (M - 1 - j) (l (M - 2 - n - j)%nat (M - 1 - j)%nat) in
      upd2 AB (bw + n + 1) j (l (j + n + 1)%nat j)) AB) AB.
