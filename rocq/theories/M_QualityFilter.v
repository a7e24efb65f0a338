(** Model of the Kalman filters of the water-quality object (pipedream_solver/nquality.py 212-224, 1002-1088, 1764-1778).

    Simplifications.  [np.linalg.inv] is a parameter.  The random noise of [Kalman_Filter_WQ1] is an argument.
    Matrices are zero outside their shape.  The observation row [H_k] has a single 1, at [Observation_point], which is
    set at construction and assumed not to be changed afterwards.  [K_k], [A_k] and [B_k] are outputs only. *)
From Verif Require Import Prelude M_Coeffs M_Recurrence M_Assembly M_Step M_Quality M_Simulation M_Kalman.

(** An array of the given shape. *)
Definition boxed (n m : nat) (A : mat) : mat := fun i j => if Nat.ltb i n && Nat.ltb j m then A i j else 0.
Definition vboxed (n : nat) (v : arr) : arr := fun i => if Nat.ltb i n then v i else 0.

(** nquality.py:1058-1060 and 1022-1023: [sigma**2 * np.eye(M)] or [sigma**2 * np.ones((M, M))]. *)
Definition process_noise (M : nat) (sigma : R) (correlated : bool) : mat :=
  if correlated then boxed M M (fun _ _ => sigma ^ 2) else (fun i j => sigma ^ 2 * eye M i j).
Definition measure_noise (sigma : R) : mat := boxed 1 1 (fun _ _ => sigma ^ 2).
(** nquality.py:217, 1014: [np.zeros((1, M))] with a 1 at the observation point. *)
Definition observation_row (p : nat) : mat := fun i j => if Nat.eqb i 0 && Nat.eqb j p then 1 else 0.
(** nquality.py:214, 1026: [np.zeros((M, M))] with volume / dt on the diagonal. *)
Definition storage_rate (M : nat) (V : arr) (dt : R) : mat := fun i j => if Nat.ltb i M && Nat.eqb i j then V i / dt else 0.

Section Filter.
Variable inv : nat -> mat -> option mat.

Record kf_out : Type := mkKfOut { kf_x : arr; kf_P : mat; kf_A : mat; kf_B : arr }.

(** nquality.py:1764-1778 [KF_WQ2]; lines 1027-1038 compute the same. *)
Definition KF_WQ2 (M : nat) (A1 : mat) (b prev x : arr) (P H A_L Qcov Rcov : mat) (z : R) : option kf_out :=
  let Bu := vsub b (mvec M A1 prev) in
  do A_inv <- inv M A_L;
  let A_k := mmul M A_inv A1 in
  let B_k := mvec M A_inv Bu in
  let x_k := vadd (mvec M A_k x) B_k in
  let P1 := madd (mmul M (mmul M A_k P) (tr A_k)) Qcov in
  do S_inv <- inv 1%nat (madd (mmul M (mmul M H P1) (tr H)) Rcov);
  let K := mmul 1 (mmul M P1 (tr H)) S_inv in
  let P2 := msub P1 (mmul M (mmul 1 K H) P1) in
  let x' := vadd x_k (mvec 1 K (vsub (vboxed 1 (fun _ => z)) (mvec M H x_k))) in
  Some (mkKfOut (fun i => if Rltb (x' i) 0 then 0 else x' i) P2 A_k B_k).

(** nquality.py:218-221: estimate, covariance and the concentrations kept from the previous call. *)
Record wq_kf : Type := mkKf { k_x : arr; k_P : mat; k_prev : arr }.
Definition fresh_kf (c : arr) : wq_kf := mkKf zeros (fun _ _ => 0) c.

Variables (N : network) (Pa : wq_par) (CO CW CP : wq_ctl).
(** Observation point and standard deviations (nquality.py:222-224). *)
Variables (p : nat) (sp sm : R).
Local Notation M := (n_M N).

(** The filter with the system assembled by the last step. *)
Definition kf_call (correlated : bool) (z dt : R) (V : arr) (s : system) (k : wq_kf) : option kf_out :=
  KF_WQ2 M (storage_rate M V dt) (vboxed M (s_b s)) (vboxed M (k_prev k)) (vboxed M (k_x k)) (k_P k)
         (observation_row p) (boxed M M (q_matrix CO CW CP s)) (process_noise M sp correlated) (measure_noise sm) z.

(** nquality.py:1002-1043 [Kalman_Filter_WQ1]: the measurement is the model's own concentration plus noise; the model
    keeps its concentrations [c]. *)
Definition filter_WQ1 (noise dt : R) (V : arr) (s : system) (c : arr) (k : wq_kf) : option wq_kf :=
  do r <- kf_call false (c p + noise) dt V s k;
  Some (mkKf (kf_x r) (kf_P r) c).

(** nquality.py:1045-1071 [Kalman_Filter_WQ2]: the estimate replaces the superjunction concentrations. *)
Definition filter_WQ2 (z dt : R) (correlated : bool) (V : arr) (s : system) (k : wq_kf) : option wq_kf :=
  do r <- kf_call correlated z dt V s k;
  Some (mkKf (kf_x r) (kf_P r) (kf_x r)).

(** nquality.py:1073-1088 [KF_Multi_WQ]: transition matrix and input vector. *)
Definition KF_Multi_WQ (dt : R) (V : arr) (s : system) (k : wq_kf) : option (mat * arr) :=
  do A_inv <- inv M (boxed M M (q_matrix CO CW CP s));
  let A1 := storage_rate M V dt in
  Some (mmul M A_inv A1, mvec M A_inv (vsub (vboxed M (s_b s)) (mvec M A1 (vboxed M (k_prev k))))).

(** nquality.py:812-888 [solve_boundary_states] and [solve_internals_backwards] with superjunction concentrations [cj]:
    called by [step], and again by the user after an assimilation. *)
Definition q_spread (u : wq_setup) (c : wq_state) (cj : arr) : wq_state :=
  let '(cI, ci) := q_solve_internals N Pa (su_f u) (su_b u)
                     (fun k => q_clip Pa (q_node_1 N u cj k)) (fun k => q_clip Pa (q_node_N N u cj k)) (c_I c, c_i c) in
  mkWq cj (fun I => q_limit Pa (cI I)) (fun i => q_limit Pa (ci i))
       (fun k => q_clip Pa (q_end_u N u cj k)) (fun k => q_clip Pa (q_end_d N u cj k)).

(** Arguments of one assimilation. *)
Record observation : Type := mkObs { ob_z : R; ob_corr : bool }.

(** One cycle as in test/Pipedream-WQ_(Fig.14-16)...py 128-148: a step, an assimilation over the same time step, and
    the new concentrations spread along the superlinks. *)
Inductive kf_cycle (i : wq_in) (m : observation) : wq_obj * wq_kf -> wq_obj * wq_kf -> Prop :=
| kf_cycle_intro o k u sol k' :
    q_prepare N Pa CO CW CP i o = Some u ->
    (forall j, (j < M)%nat -> sum_n (fun l => q_matrix CO CW CP (su_s u) j l * sol l) M = s_b (su_s u) j) ->
    filter_WQ2 (ob_z m) (i_dt i) (ob_corr m) (f_V (i_F i)) (su_s u) k = Some k' ->
    let o1 := q_complete N Pa u o sol in
    kf_cycle i m (o, k) (mkObj (q_spread u (ob_c o1) (k_x k')) (ob_w o1), k').
Inductive kf_cycles : list (wq_in * observation) -> wq_obj * wq_kf -> wq_obj * wq_kf -> Prop :=
| kf_cycles_nil s : kf_cycles nil s s
| kf_cycles_cons im rest s s1 s2 :
    kf_cycle (fst im) (snd im) s s1 -> kf_cycles rest s1 s2 -> kf_cycles (cons im rest) s s2.

(** A step followed by [Kalman_Filter_WQ1] over the same time step; the model is not changed by the filter. *)
Inductive track_cycle (i : wq_in) (noise : R) : wq_obj * wq_kf -> wq_obj * wq_kf -> Prop :=
| track_cycle_intro o k o1 k' :
    q_step N Pa CO CW CP i o o1 ->
    filter_WQ1 noise (i_dt i) (f_V (i_F i)) (ww_s (ob_w o1)) (c_j (ob_c o1)) k = Some k' ->
    track_cycle i noise (o, k) (o1, k').
Inductive track_cycles : list (wq_in * R) -> wq_obj * wq_kf -> wq_obj * wq_kf -> Prop :=
| track_cycles_nil s : track_cycles nil s s
| track_cycles_cons im rest s s1 s2 :
    track_cycle (fst im) (snd im) s s1 -> track_cycles rest s1 s2 -> track_cycles (cons im rest) s s2.
End Filter.
