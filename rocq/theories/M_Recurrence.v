(** Model of the forward and backward sweeps along superlinks, the superlink boundary
    coefficients and the reconstruction of internal depths and flows
    (pipedream_solver/nsuperlink.py, superlink.py). *)
From Verif Require Import Prelude M_Coeffs.

(** nsuperlink.py:2164-2170 [safe_divide] (and, entrywise, 2172-2178 [safe_divide_vec]). *)
Definition safe_divide (num den : R) : R := if Reqb den 0 then 0 else num / den.

(** ** Forward recurrence *)

(** nsuperlink.py:2366-2375 [U_1k] *)
Definition U_1k (E_2 c_1 A_1 T_1 : R) : R := safe_divide (E_2 * c_1 - g * A_1) T_1.
(** nsuperlink.py:2377-2386 [V_1k] *)
Definition V_1k (P_1 D_2 c_1 T_1 a_1 D_1 : R) : R := safe_divide (P_1 - D_2 * c_1 + D_1 * a_1) T_1.
(** nsuperlink.py:2388-2397 [W_1k] *)
Definition W_1k (A_1 T_1 a_1 E_1 : R) : R := safe_divide (g * A_1 - E_1 * a_1) T_1.
(** nsuperlink.py:2399-2405 [T_1k] *)
Definition T_1k (a_1 b_1 c_1 : R) : R := a_1 + b_1 + c_1.
(** nsuperlink.py:2407-2416 [U_Ik] *)
Definition U_Ik (E_Ip1 c_i A_i T_i : R) : R := safe_divide (E_Ip1 * c_i - g * A_i) T_i.
(** nsuperlink.py:2418-2435 [V_Ik]; [None]: ZeroDivisionError at line 2432 (the code's own TODO). *)
Definition V_Ik (P_i a_i D_I D_Ip1 c_i A_i E_I V_Im1 U_Im1 T_i : R) : option R :=
  let t_0 := P_i in
  let t_1 := a_i * D_I in
  let t_2 := D_Ip1 * c_i in
  let t_3 := g * A_i - E_I * a_i in
  let t_4 := V_Im1 + D_I in
  let t_5 := U_Im1 - E_I in
  do q <- div (t_3 * t_4) t_5;
  Some (safe_divide (t_0 + t_1 - t_2 - q) T_i).
(** nsuperlink.py:2437-2446 [W_Ik] *)
Definition W_Ik (A_i E_I a_i W_Im1 U_Im1 T_i : R) : R :=
  safe_divide (- (g * A_i - E_I * a_i) * W_Im1) ((U_Im1 - E_I) * T_i).
(** nsuperlink.py:2448-2458 [T_ik] *)
Definition T_ik (a_i b_i c_i A_i E_I U_Im1 : R) : R :=
  (a_i + b_i + c_i) - safe_divide (g * A_i - E_I * a_i) (U_Im1 - E_I).

(** Arrays written by the forward sweep. *)
Record fwd : Type := mkFwd { fT : arr; fU : arr; fV : arr; fW : arr }.

(** Body of the inner loop, nsuperlink.py:2979-2992: link [i], junction [I]. *)
Definition forward_next (a b c P A E D : arr) (i I : nat) (s : fwd) : option fwd :=
  let Im1 := (I - 1)%nat in
  let Ip1 := (I + 1)%nat in
  let T' := T_ik (a i) (b i) (c i) (A i) (E I) (fU s Im1) in
  let U' := U_Ik (E Ip1) (c i) (A i) T' in
  do V' <- V_Ik (P i) (a i) (D I) (D Ip1) (c i) (A i) (E I) (fV s Im1) (fU s Im1) T';
  let W' := W_Ik (A i) (E I) (a i) (fW s Im1) (fU s Im1) T' in
  Some (mkFwd (upd (fT s) i T') (upd (fU s) I U') (upd (fV s) I V') (upd (fW s) I W')).

(** nsuperlink.py:2970-2977: the first link of the superlink. *)
Definition forward_first (a b c P A E D : arr) (i_1 I_1 : nat) (s : fwd) : fwd :=
  let I_2 := (I_1 + 1)%nat in
  let T' := T_1k (a i_1) (b i_1) (c i_1) in
  mkFwd (upd (fT s) i_1 T')
        (upd (fU s) I_1 (U_1k (E I_2) (c i_1) (A i_1) T'))
        (upd (fV s) I_1 (V_1k (P i_1) (D I_2) (c i_1) T' (a i_1) (D I_1)))
        (upd (fW s) I_1 (W_1k (A i_1) T' (a i_1) (E I_1))).

(** nsuperlink.py:2969-2992: one superlink. *)
Definition forward_superlink (a b c P A E D : arr) (i_1 I_1 nlinks : nat) (s : fwd) : option fwd :=
  for_opt (nlinks - 1)
    (fun i s => forward_next a b c P A E D (i_1 + 1 + i) (I_1 + 1 + i) s)
    (forward_first a b c P A E D i_1 I_1 s).

(** nsuperlink.py:2962-2993 [numba_forward_recurrence]. *)
Definition numba_forward_recurrence (s : fwd) (a b c P A E D : arr) (NK : nat)
           (nk I_1k i_1k : nat -> nat) : option fwd :=
  for_opt NK (fun k s => forward_superlink a b c P A E D (i_1k k) (I_1k k) (nk k) s) s.

(** ** Backward recurrence *)

(** nsuperlink.py:2460-2469 [X_Nk] *)
Definition X_Nk (A_n E_N a_n O_n : R) : R := safe_divide (g * A_n - E_N * a_n) O_n.
(** nsuperlink.py:2471-2480 [Y_Nk] *)
Definition Y_Nk (P_n D_N a_n O_n c_n D_Np1 : R) : R := safe_divide (P_n + D_N * a_n - D_Np1 * c_n) O_n.
(** nsuperlink.py:2482-2491 [Z_Nk] *)
Definition Z_Nk (A_n O_n c_n E_Np1 : R) : R := safe_divide (E_Np1 * c_n - g * A_n) O_n.
(** nsuperlink.py:2493-2499 [O_nk] *)
Definition O_nk (a_n b_n c_n : R) : R := a_n + b_n + c_n.
(** nsuperlink.py:2501-2510 [X_Ik] *)
Definition X_Ik (A_i E_I a_i O_i : R) : R := safe_divide (g * A_i - E_I * a_i) O_i.
(** nsuperlink.py:2512-2529 [Y_Ik]; [None]: ZeroDivisionError at line 2526. *)
Definition Y_Ik (P_i a_i D_I D_Ip1 c_i A_i E_Ip1 Y_Ip1 X_Ip1 O_i : R) : option R :=
  let t_0 := P_i in
  let t_1 := a_i * D_I in
  let t_2 := D_Ip1 * c_i in
  let t_3 := g * A_i - E_Ip1 * c_i in
  let t_4 := D_Ip1 - Y_Ip1 in
  let t_5 := X_Ip1 + E_Ip1 in
  do q <- div (t_3 * t_4) t_5;
  Some (safe_divide (t_0 + t_1 - t_2 - q) O_i).
(** nsuperlink.py:2531-2540 [Z_Ik] *)
Definition Z_Ik (A_i E_Ip1 c_i Z_Ip1 X_Ip1 O_i : R) : R :=
  safe_divide ((g * A_i - E_Ip1 * c_i) * Z_Ip1) ((X_Ip1 + E_Ip1) * O_i).
(** nsuperlink.py:2542-2552 [O_ik] *)
Definition O_ik (a_i b_i c_i A_i E_Ip1 X_Ip1 : R) : R :=
  (a_i + b_i + c_i) + safe_divide (g * A_i - E_Ip1 * c_i) (X_Ip1 + E_Ip1).

(** Arrays written by the backward sweep. *)
Record bwd : Type := mkBwd { bO : arr; bX : arr; bY : arr; bZ : arr }.

(** Body of the inner loop, nsuperlink.py:3013-3026. *)
Definition backward_next (a b c P A E D : arr) (i I : nat) (s : bwd) : option bwd :=
  let Ip1 := (I + 1)%nat in
  let O' := O_ik (a i) (b i) (c i) (A i) (E Ip1) (bX s Ip1) in
  let X' := X_Ik (A i) (E I) (a i) O' in
  do Y' <- Y_Ik (P i) (a i) (D I) (D Ip1) (c i) (A i) (E Ip1) (bY s Ip1) (bX s Ip1) O';
  let Z' := Z_Ik (A i) (E Ip1) (c i) (bZ s Ip1) (bX s Ip1) O' in
  Some (mkBwd (upd (bO s) i O') (upd (bX s) I X') (upd (bY s) I Y') (upd (bZ s) I Z')).

(** nsuperlink.py:3002-3012: the last link of the superlink. *)
Definition backward_first (a b c P A E D : arr) (i_n I_N : nat) (s : bwd) : bwd :=
  let I_Np1 := (I_N + 1)%nat in
  let O' := O_nk (a i_n) (b i_n) (c i_n) in
  mkBwd (upd (bO s) i_n O')
        (upd (bX s) I_N (X_Nk (A i_n) (E I_N) (a i_n) O'))
        (upd (bY s) I_N (Y_Nk (P i_n) (D I_N) (a i_n) O' (c i_n) (D I_Np1)))
        (upd (bZ s) I_N (Z_Nk (A i_n) O' (c i_n) (E I_Np1))).

(** nsuperlink.py:3001-3026: one superlink. *)
Definition backward_superlink (a b c P A E D : arr) (i_n I_N nlinks : nat) (s : bwd) : option bwd :=
  for_opt (nlinks - 1)
    (fun i s => backward_next a b c P A E D (i_n - 1 - i) (I_N - 1 - i) s)
    (backward_first a b c P A E D i_n I_N s).

(** nsuperlink.py:2995-3027 [numba_backward_recurrence]. *)
Definition numba_backward_recurrence (s : bwd) (a b c P A E D : arr) (NK : nat)
           (nk I_Nk i_nk : nat -> nat) : option bwd :=
  for_opt NK (fun k s => backward_superlink a b c P A E D (i_nk k) (I_Nk k) (nk k) s) s.

(** ** Superlink boundary coefficients (all entrywise NumPy expressions) *)

(** nsuperlink.py:2554-2563 [numba_D_k_star] *)
Definition D_k_star (X kappa_u U kappa_d Z W : R) : R :=
  (X * kappa_u - 1) * (U * kappa_d - 1) - (Z * kappa_d) * (W * kappa_u).
(** nsuperlink.py:2565-2575 [numba_alpha_uk] *)
Definition alpha_uk (U kappa_d X Z W Dks lambda_u : R) : R :=
  safe_divide (lambda_u * ((1 - U * kappa_d) * X + (Z * kappa_d * W))) Dks.
(** nsuperlink.py:2577-2587 [numba_beta_uk] *)
Definition beta_uk (U kappa_d Z W Dks lambda_d : R) : R :=
  safe_divide (lambda_d * ((1 - U * kappa_d) * Z + (Z * kappa_d * U))) Dks.
(** nsuperlink.py:2589-2603 [numba_chi_uk] *)
Definition chi_uk (U kappa_d Y X mu_u Z mu_d V W Dks : R) : R :=
  safe_divide ((1 - U * kappa_d) * (Y + X * mu_u + Z * mu_d)
               + (Z * kappa_d) * (V + W * mu_u + U * mu_d)) Dks.
(** nsuperlink.py:2605-2615 [numba_alpha_dk] *)
Definition alpha_dk (X kappa_u W Dks lambda_u : R) : R :=
  safe_divide (lambda_u * ((1 - X * kappa_u) * W + (W * kappa_u * X))) Dks.
(** nsuperlink.py:2617-2627 [numba_beta_dk] *)
Definition beta_dk (X kappa_u U W Z Dks lambda_d : R) : R :=
  safe_divide (lambda_d * ((1 - X * kappa_u) * U + (W * kappa_u * Z))) Dks.
(** nsuperlink.py:2629-2643 [numba_chi_dk] *)
Definition chi_dk (X kappa_u V W mu_u U mu_d Y Z Dks : R) : R :=
  safe_divide ((1 - X * kappa_u) * (V + W * mu_u + U * mu_d)
               + (W * kappa_u) * (Y + X * mu_u + Z * mu_d)) Dks.

(** The six end coefficients X_1k, Y_1k, Z_1k, U_Nk, V_Nk, W_Nk of one superlink. *)
Record ends : Type := mkEnds { eX : R; eY : R; eZ : R; eU : R; eV : R; eW : R }.

(** nsuperlink.py:984-998: selection by [end_method] ([true] is 'o'). *)
Definition end_coeffs (end_o : bool) (f : fwd) (b : bwd) (E D : arr) (I_1 I_N I_Np1 : nat) : ends :=
  if end_o then
    mkEnds (bX b I_1) (bY b I_1) (bZ b I_1) (fU f I_N) (fV f I_N) (fW f I_N)
  else
    mkEnds (bX b I_1 + E I_1) (bY b I_1 - D I_1) (bZ b I_1)
           (fU f I_N - E I_Np1) (fV f I_N + D I_Np1) (fW f I_N).

(** Head coefficients of the two ends (h = kappa Q + lambda H + mu). *)
Record headc : Type := mkHead { hk : R; hl : R; hm : R }.

(** Flow coefficients alpha, beta, chi of both ends. *)
Record flowc : Type := mkFlow { au : R; bu : R; cu : R; ad : R; bd : R; cd : R }.

(** nsuperlink.py:959-1035 [superlink_flow_coefficients], one superlink. *)
Definition superlink_flow_coefficients (e : ends) (hu hd : headc) : flowc :=
  let Dks := D_k_star (eX e) (hk hu) (eU e) (hk hd) (eZ e) (eW e) in
  mkFlow (alpha_uk (eU e) (hk hd) (eX e) (eZ e) (eW e) Dks (hl hu))
         (beta_uk (eU e) (hk hd) (eZ e) (eW e) Dks (hl hd))
         (chi_uk (eU e) (hk hd) (eY e) (eX e) (hm hu) (eZ e) (hm hd) (eV e) (eW e) Dks)
         (alpha_dk (eX e) (hk hu) (eW e) Dks (hl hu))
         (beta_dk (eX e) (hk hu) (eU e) (eW e) (eZ e) Dks (hl hd))
         (chi_dk (eX e) (hk hu) (eV e) (eW e) (hm hu) (eU e) (hm hd) (eY e) (eZ e) Dks).

(** superlink.py:2965-2985 [solve_superlink_flows], one superlink: end flows from the new heads. *)
Definition solve_superlink_flows (f : flowc) (H_u H_d : R) : R * R :=
  (au f * H_u + bu f * H_d + cu f, ad f * H_u + bd f * H_d + cd f).

(** superlink.py:3138-3165 [solve_superlink_depths], one superlink: end depths from end flows and heads. *)
Definition solve_superlink_depths (hu hd : headc) (Q_u Q_d H_u H_d : R) : R * R :=
  (hk hu * Q_u + hl hu * H_u + hm hu, hk hd * Q_d + hl hd * H_d + hm hd).

(** nsuperlink.py:2680-2688 [gamma_uk], 2691-2699 [gamma_dk] (entrywise). *)
Definition gamma_uk (Q C A : R) : R := safe_divide (- Rabs Q * C) (2 * A ^ 2 * g).
Definition gamma_dk (Q C A : R) : R := safe_divide (Rabs Q * C) (2 * A ^ 2 * g).

(** nsuperlink.py:2314-2328 [kappa_uk], 2330-2343 [kappa_dk], one entry ([friction_slope] may raise). *)
Definition kappa_uk (Q dx A C Rh n : R) (sf : nat) (dt : R) : option R :=
  do t_1 <- friction_slope Q dx A Rh n sf;
  Some (- dx / g / A / dt + t_1 + (- C * Rabs Q / 2 / g / A ^ 2)).
Definition kappa_dk (Q dx A C Rh n : R) (sf : nat) (dt : R) : option R :=
  do t_1 <- friction_slope Q dx A Rh n sf;
  Some (dx / g / A / dt + t_1 + C * Rabs Q / 2 / g / A ^ 2).

(** nsuperlink.py:2345-2353 [mu_uk], 2356-2364 [mu_dk], one entry. *)
Definition mu_uk (Q_t dx A theta z_inv S_o dt : R) : R :=
  Q_t * dx / g / A / dt + (- theta * z_inv) + dx * S_o.
Definition mu_dk (Q_t dx A theta z_inv S_o dt : R) : R :=
  - Q_t * dx / g / A / dt + (- theta * z_inv) + (- dx * S_o).

(** nsuperlink.py:886-889 and 937-940: indicator that the junction's head reaches the superlink's end invert. *)
Definition theta_k (H z_inv : R) : R := if Rleb z_inv H then 1 else 0.

(** nsuperlink.py:851-904 and 906-957: head coefficients of one end under the two boundary methods
    ('z' Zahner: [BCz]; 'b' momentum: [BCb]).  [None]: exception in [friction_slope]. *)
Inductive bc_method : Type := BCz | BCb.
Definition upstream_head_coefficients (m : bc_method)
           (H z_inv Q Q_prev dx A C Rh n : R) (sf : nat) (S_o dt : R) : option headc :=
  let theta := theta_k H z_inv in
  match m with
  | BCz => Some (mkHead (gamma_uk Q C A) theta (- theta * z_inv))
  | BCb => do k <- kappa_uk Q dx A C Rh n sf dt;
           Some (mkHead k theta (mu_uk Q_prev dx A theta z_inv S_o dt))
  end.
Definition downstream_head_coefficients (m : bc_method)
           (H z_inv Q Q_prev dx A C Rh n : R) (sf : nat) (S_o dt : R) : option headc :=
  let theta := theta_k H z_inv in
  match m with
  | BCz => Some (mkHead (gamma_dk Q C A) theta (- theta * z_inv))
  | BCb => do k <- kappa_dk Q dx A C Rh n sf dt;
           Some (mkHead k theta (mu_dk Q_prev dx A theta z_inv S_o dt))
  end.

(** nsuperlink.py:2701-2716 [xi_uk], [xi_dk] (entrywise): storage of a half end link in the junction balance. *)
Definition xi (dx B theta dt : R) : R := (dx * B * theta) / (2 * dt).

(** ** Internal depths and flows *)

(** nsuperlink.py:2180-2186 [Q_i_f] *)
Definition Q_i_f (h_Ip1 h_1 U V W : R) : R := U * h_Ip1 + V + W * h_1.
(** nsuperlink.py:2188-2194 [Q_i_b] *)
Definition Q_i_b (h_I h_Np1 X Y Z : R) : R := X * h_I + Y + Z * h_Np1.
(** nsuperlink.py:2196-2202 [h_i_b] *)
Definition h_i_b (Q h_Np1 X Y Z : R) : R := safe_divide (Q - Y - Z * h_Np1) X.

(** nsuperlink.py:2231-2234: the two limits. *)
Definition limit_depth (min_depth max_depth h : R) : R :=
  let h := if Rltb h min_depth then min_depth else h in
  if Rltb max_depth h then max_depth else h.

(** Body of the inner loop, nsuperlink.py:2226-2234; state is (h, Q). *)
Definition internals_next (f : fwd) (b : bwd) (h_1 h_Np1 min_depth max_depth : R)
           (i I : nat) (s : arr * arr) : arr * arr :=
  let '(h, Q) := s in
  let Q' := upd Q i (Q_i_f (h (I + 1)%nat) h_1 (fU f I) (fV f I) (fW f I)) in
  let h_new := h_i_b (Q' i) h_Np1 (bX b I) (bY b I) (bZ b I) in
  (upd h I (limit_depth min_depth max_depth h_new), Q').

(** nsuperlink.py:2211-2240: one superlink. *)
Definition internals_superlink (f : fwd) (b : bwd) (h_1 h_Np1 : R) (i_1 I_1 n : nat)
           (min_depth max_depth : R) (first_link_backwards : bool) (s : arr * arr) : arr * arr :=
  let i_n := (i_1 + n - 1)%nat in
  let I_Np1 := (I_1 + n)%nat in
  let I_N := (I_Np1 - 1)%nat in
  let '(h, Q) := s in
  let h := upd (upd h I_1 h_1) I_Np1 h_Np1 in
  let '(h, Q) := for_n (n - 1)
      (fun j s => internals_next f b h_1 h_Np1 min_depth max_depth (i_n - j) (I_N - j) s) (h, Q) in
  if first_link_backwards then
    (h, upd Q i_1 (Q_i_b (h I_1) h_Np1 (bX b I_1) (bY b I_1) (bZ b I_1)))
  else
    (h, upd Q i_1 (Q_i_f (h (I_1 + 1)%nat) h_1 (fU f I_1) (fV f I_1) (fW f I_1))).

(** nsuperlink.py:2204-2241 [numba_solve_internals]. *)
Definition numba_solve_internals (s : arr * arr) (h_uk h_dk : arr) (f : fwd) (b : bwd)
           (i_1k I_1k nk : nat -> nat) (NK : nat) (min_depth : R) (max_depth_k : arr)
           (first_link_backwards : bool) : arr * arr :=
  for_n NK (fun k s =>
    internals_superlink f b (h_uk k) (h_dk k) (i_1k k) (I_1k k) (nk k) min_depth (max_depth_k k)
                        first_link_backwards s) s.

(** nsuperlink.py:1385-1422 [solve_internals_backwards] ([back = true]) and 1424-1458
    [solve_internals_forwards] ([back = false]): internals, then every depth is raised to [min_depth].
    Simplification: the finiteness assertion of line 1415 is vacuous over the reals. *)
Definition solve_internals (back : bool) (s : arr * arr) (h_uk h_dk : arr) (f : fwd) (b : bwd)
           (i_1k I_1k nk : nat -> nat) (NK : nat) (min_depth : R) (max_depth_k : arr) : arr * arr :=
  let '(h, Q) := numba_solve_internals s h_uk h_dk f b i_1k I_1k nk NK min_depth max_depth_k back in
  (fun I => if Rltb (h I) min_depth then min_depth else h I, Q).
