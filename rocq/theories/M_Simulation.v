(** Model of the step control: [SuperLink.step] around an arbitrary hydraulic computation
    (pipedream_solver/superlink.py 3906-3951 and 4004-4152) and [Simulation] (pipedream_solver/simulation.py).

    The hydraulic computation is a parameter: [setup] stands for everything [_setup_step] does after saving the
    state, [solve] for everything [_solve_step] does before advancing the counters.  Both may raise ([None]).
    Every theorem of P_Simulation therefore holds for any hydraulics. *)
From Coq Require Import ZArith.
From Verif Require Import Prelude M_Coeffs.

(** simulation.py:18 [eps = np.finfo(float).eps] *)
Definition eps : R := / 4503599627370496.

(** ** Step-size proposals *)

(** simulation.py:350-380 [compute_step_size] with the parameters resolved; [err = None] is the case in which
    neither the caller nor the object has an error. *)
Definition compute_step_size (dt : R) (err : option R) (min_dt max_dt tol min_rel max_rel safety : R) : R :=
  match err with
  | None => dt
  | Some err =>
      let err := Rmax (Rabs err) eps in
      let dt := safety * dt * Rmin (Rmax (sqrt (tol / 2 / err)) min_rel) max_rel in
      Rmin (Rmax dt min_dt) max_dt
  end.

(** Error of one attempt: not computed (one subdivision), a number, or inf/nan. *)
Inductive errv : Type := NoErr | Err (r : R) | NonFinite.

(** simulation.py:382-452 [filter_step_size], queues newest first.  [None]: exception (unpacking a queue of the
    wrong length, dividing by an error that is [None], or by zero).
    Simplification: non-finite errors and non-positive bases of the powers are reported as an exception
    (NumPy would continue with inf, nan or a complex number). *)
Definition posdiv (x y : R) : option R := if Rltb 0 x && Rltb 0 y then Some (x / y) else None.
Definition filter_step_size (own_queue : bool) (tol : R) (dts : list R) (errs : list errv)
           (beta_1 beta_2 beta_3 alpha_2 alpha_3 : R)
           (min_dt max_dt min_rel max_rel safety k : R) : option R :=
  if own_queue && Nat.ltb (length dts) 3 then
    match dts with d :: _ => Some d | [] => None end
  else
    match errs, dts with
    | [Err err_n; Err err_nm1; Err err_nm2], [dt_n; dt_nm1; dt_nm2] =>
        do q_0 <- posdiv tol err_n;
        do q_1 <- posdiv tol err_nm1;
        do q_2 <- posdiv tol err_nm2;
        do q_3 <- posdiv dt_n dt_nm1;
        do q_4 <- posdiv dt_nm1 dt_nm2;
        let t_0 := Rpower q_0 (beta_1 / k) in
        let t_1 := Rpower q_1 (beta_2 / k) in
        let t_2 := Rpower q_2 (beta_3 / k) in
        let t_3 := Rpower q_3 (- alpha_2) in
        let t_4 := Rpower q_4 (- alpha_3) in
        let factor := t_0 * t_1 * t_2 * t_3 * t_4 in
        let factor := Rmin (Rmax factor min_rel) max_rel in
        let factor := safety * factor in
        let dt_np1 := factor * dt_n in
        Some (Rmin (Rmax dt_np1 min_dt) max_dt)
    | _, _ => None
    end.

(** ** Error metric *)

(** simulation.py:322-332 [_scaled_error], denominator of entry j. *)
Definition error_scale (H_cur H_prev : arr) (j : nat) : R := / 1000000 + Rmax (H_cur j) (H_prev j) * / 1000.
(** simulation.py:334-348 [_normed_error] of the scaled error; [None]: the bare [raise] for an unknown norm.
    A zero denominator gives inf or nan; norm 0 only counts positive entries and stays finite. *)
Definition normed_error (norm : Z) (M : nat) (raw H_cur H_prev : arr) : option errv :=
  let den := error_scale H_cur H_prev in
  let e := (fun j => raw j / den j) in
  let bad := existsb (fun j => Reqb (den j) 0) (seq 0 M) in
  let fin (x : R) := Some (Err (Rmax (Rabs x) eps)) in
  if Nat.eqb M 0 then (if Z.eqb norm (-1) then None else
                       if Z.eqb norm 0 || Z.eqb norm 1 || Z.eqb norm 2 then Some NonFinite else None) else
  if Z.eqb norm 0 then
    fin (sum_n (fun j => if Reqb (den j) 0 then (if Rltb 0 (raw j) then 1 else 0)
                         else if Rltb 0 (e j) then 1 else 0) M / INR M)
  else if Z.eqb norm 1 then (if bad then Some NonFinite else fin (sum_n e M / INR M))
  else if Z.eqb norm 2 then (if bad then Some NonFinite else fin (sqrt (sum_n (fun j => e j ^ 2) M / INR M)))
  else if Z.eqb norm (-1) then
    (if bad then Some NonFinite else fin (for_n M (fun j m => Rmax m (Rabs (e j))) 0))
  else None.

(** ** The model object and its stepper *)

Section Stepper.
(** [B]: every attribute of the model object other than the clock, the counter and the saved state.
    [V]: the saved fields other than the time.  [I]: the inputs of a step. *)
Variables (B V I : Type).
Variable save : B -> V.
Variable load : V -> B -> option B.
Variable setup : bool -> I -> R -> V -> B -> option B.
Variable solve : I -> R -> V -> B -> option B.
Variable heads : B -> arr.
Variable saved_heads : V -> arr.
Variable M : nat.

Record model : Type := mkModel { m_t : R; m_ic : Z; m_body : B; m_saved : R * V }.

(** superlink.py:3906-3931 [save_state] *)
Definition save_state (m : model) : model :=
  mkModel (m_t m) (m_ic m) (m_body m) (m_t m, save (m_body m)).

(** superlink.py:3933-3954 [load_state] *)
Definition load_state (s : R * V) (m : model) : option model :=
  do b <- load (snd s) (m_body m);
  Some (mkModel (fst s) (m_ic m) b (m_saved m)).

(** superlink.py:4004-4045 [_setup_step] *)
Definition setup_step' (first_iter : bool) (i : I) (dt : R) (m : model) : option model :=
  let m := if first_iter then save_state m else m in
  do b <- setup first_iter i dt (snd (m_saved m)) (m_body m);
  Some (mkModel (m_t m) (m_ic m) b (m_saved m)).

(** superlink.py:4047-4083 [_solve_step] *)
Definition solve_step' (i : I) (dt : R) (m : model) : option model :=
  do b <- solve i dt (snd (m_saved m)) (m_body m);
  Some (mkModel (m_t m + dt) (m_ic m + 1) b (m_saved m)).

(** superlink.py:4132, 4146: [(np.abs(a - b) < head_tol).all()] *)
Definition all_below (tol : R) (a b : arr) : bool := forallb (fun j => Rltb (Rabs (a j - b j)) tol) (seq 0 M).

(** superlink.py:4133-4148: the fixed-point loop, at most [n] more passes; returns the passes done. *)
Fixpoint iterate (n : nat) (i : I) (dt tol : R) (H_next : arr) (m : model) : option (model * nat) :=
  match n with
  | O => Some (m, O)
  | S n =>
      let m := mkModel (m_t m - dt) (m_ic m - 1) (m_body m) (m_saved m) in
      do m <- setup_step' false i dt m;
      do m <- solve_step' i dt m;
      if all_below tol H_next (heads (m_body m)) then Some (m, 1%nat)
      else do r <- iterate n i dt tol (heads (m_body m)) m;
           Some (fst r, S (snd r))
  end.

(** superlink.py:4085-4152 [step] (first_iter = True); second component is [iter_elapsed]. *)
Definition step (i : I) (dt : R) (num_iter : nat) (head_tol : R) (m : model) : option (model * nat) :=
  do m <- setup_step' true i dt m;
  do m <- solve_step' i dt m;
  if Nat.ltb 0 (num_iter - 1) then
    if all_below head_tol (heads (m_body m)) (saved_heads (snd (m_saved m))) then Some (m, 1%nat)
    else do r <- iterate (num_iter - 1) i dt head_tol (heads (m_body m)) m;
         Some (fst r, S (snd r))
  else Some (m, 1%nat).

(** ** Simulation *)

(** simulation.py:86-232: the fields used by the stepper. *)
Record sim : Type := mkSim {
  s_model : model; s_dt : R; s_dts : list R; s_err : errv; s_errs : list errv; s_count : nat }.

(** [deque(maxlen=3)] *)
Definition appendleft {A : Type} (x : A) (q : list A) : list A := firstn 3 (x :: q).
Definition popleft {A : Type} (q : list A) : list A := tl q.

(** Configuration of a run: inputs as a function of time (sampled at the end of the step, simulation.py:577-606;
    constant when passed as keyword arguments), [min_dt], [num_iter] and [head_tol] of the model's step. *)
Record config : Type := mkConfig { c_inputs : R -> I; c_min_dt : R; c_num_iter : nat; c_head_tol : R }.

(** simulation.py:576-624 [_step] *)
Definition model_step (c : config) (dt : R) (m : model) : option model :=
  do r <- step (c_inputs c (m_t m + dt)) dt (c_num_iter c) (c_head_tol c) m;
  Some (fst r).

(** simulation.py:544-545: [for _ in range(subdivisions)] *)
Definition fine_steps (c : config) (n : nat) (dt : R) (m : model) : option model :=
  for_opt n (fun _ m => model_step c dt m) m.

(** simulation.py:530-552: coarse step and, with subdivisions, the fine steps and the error. *)
Definition attempt (c : config) (dt : R) (subdivisions : nat) (norm : Z) (m : model)
  : option (model * (R * V) * errv) :=
  do m1 <- model_step c dt m;
  let initial_state := m_saved m1 in
  if Nat.ltb 1 subdivisions then
    let states_coarse := heads (m_body m1) in
    do m2 <- load_state initial_state m1;
    do m3 <- fine_steps c subdivisions (dt / INR subdivisions) m2;
    let raw := (fun j => states_coarse j - heads (m_body m3) j) in
    do e <- normed_error norm M raw (heads (m_body m3)) (saved_heads (snd (m_saved m3)));
    Some (m3, initial_state, e)
  else Some (m1, initial_state, NoErr).

(** simulation.py:566: [(err > tol) or (not np.isfinite(err))] *)
Definition too_large (e : errv) (tol : R) : bool :=
  match e with NoErr => false | Err r => Rltb tol r | NonFinite => true end.

(** simulation.py:503-574 [step].  The recursive call of line 570 passes neither [tol] nor [norm]. *)
Fixpoint sim_step (retries : nat) (c : config) (dt : R) (subdivisions : nat) (tol : R) (norm : Z) (s : sim)
  : option sim :=
  do r <- attempt c dt subdivisions norm (s_model s);
  let '(m, initial_state, e) := r in
  let dts := appendleft dt (s_dts s) in
  let errs := appendleft e (s_errs s) in
  let s := mkSim m dt dts e errs (s_count s) in
  let finish (s : sim) := mkSim (s_model s) (s_dt s) (s_dts s) (s_err s) (s_errs s) (S (s_count s)) in
  match retries with
  | O => Some (finish s)
  | S retries =>
      let dt' := / 2 * dt in
      if too_large e tol && Rltb (c_min_dt c) dt' then
        do m <- load_state initial_state (s_model s);
        do s <- sim_step retries c dt' subdivisions 1 2
                  (mkSim m (s_dt s) (popleft (s_dts s)) (s_err s) (popleft (s_errs s)) (s_count s));
        Some (finish s)
      else Some (finish s)
  end.

(** simulation.py:86-232 [__init__]: initial queues. *)
Definition new_sim (m : model) (dt : R) : sim := mkSim m dt [dt] NoErr [Err eps] O.

End Stepper.
Arguments mkModel {B V}. Arguments m_t {B V}. Arguments m_ic {B V}. Arguments m_body {B V}. Arguments m_saved {B V}.
Arguments mkSim {B V}. Arguments s_model {B V}. Arguments s_dt {B V}. Arguments s_dts {B V}. Arguments s_err {B V}.
Arguments s_errs {B V}. Arguments s_count {B V}.
Arguments c_inputs {I}. Arguments c_min_dt {I}. Arguments c_num_iter {I}. Arguments c_head_tol {I}. Arguments mkConfig {I}.

(** ** Recording *)

(** Arrays live on a heap, because the solver updates its arrays in place.  [w_attr], [w_saved]: the arrays held by
    the model's attributes and by its dictionary of saved states ([None]: no such key); [w_table]: for each recorded
    variable the dictionary from times to arrays (simulation.py:226-232, 264-283). *)
Record world (A : Type) : Type := mkWorld {
  w_heap : nat -> A; w_next : nat; w_t : R;
  w_attr : nat -> nat; w_saved : nat -> option nat;
  w_table : nat -> option (list (R * nat)) }.
Arguments mkWorld {A}. Arguments w_heap {A}. Arguments w_next {A}. Arguments w_t {A}. Arguments w_attr {A}.
Arguments w_saved {A}. Arguments w_table {A}.

(** [dict.update({t: v})] and [dict.get] *)
Fixpoint dict_set (d : list (R * nat)) (t : R) (v : nat) : list (R * nat) :=
  match d with
  | [] => [(t, v)]
  | (t', v') :: d => if Reqb t' t then (t', v) :: d else (t', v') :: dict_set d t v
  end.
Fixpoint dict_get (d : list (R * nat)) (t : R) : option nat :=
  match d with
  | [] => None
  | (t', v) :: d => if Reqb t' t then Some v else dict_get d t
  end.

(** [np.copy]: a fresh array. *)
Definition np_copy {A : Type} (w : world A) (r : nat) : world A * nat :=
  (mkWorld (upd (w_heap w) (w_next w) (w_heap w r)) (S (w_next w)) (w_t w) (w_attr w) (w_saved w) (w_table w), w_next w).

(** One variable of the loop of simulation.py:277-282. *)
Definition record_one {A : Type} (v : nat) (w : world A) : world A :=
  match w_saved w v with
  | None => w
  | Some _ =>
      let d := match w_table w v with None => [] | Some d => d end in
      let '(w, r) := np_copy w (w_attr w v) in
      mkWorld (w_heap w) (w_next w) (w_t w) (w_attr w) (w_saved w) (upd (w_table w) v (Some (dict_set d (w_t w) r)))
  end.
(** simulation.py:264-283 [record_state] for the given variables. *)
Definition record_state {A : Type} (vars : list nat) (w : world A) : world A :=
  fold_left (fun w v => record_one v w) vars w.

(** One variable of the loop of simulation.py:227-232: the first record copies the *saved* state. *)
Definition init_record_one {A : Type} (v : nat) (w : world A) : world A :=
  match w_saved w v with
  | None => w
  | Some r0 =>
      let '(w, r) := np_copy w r0 in
      mkWorld (w_heap w) (w_next w) (w_t w) (w_attr w) (w_saved w) (upd (w_table w) v (Some (dict_set [] (w_t w) r)))
  end.
Definition init_record {A : Type} (vars : list nat) (w : world A) : world A :=
  fold_left (fun w v => init_record_one v w) vars w.
