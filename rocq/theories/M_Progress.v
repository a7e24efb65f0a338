(** Model of the start and end of a simulation and of its progress bar (pipedream_solver/simulation.py 152-166, 206-212, 250-251,
    286-320). *)
From Coq Require Import ZArith.
From Verif Require Import Prelude M_Coeffs M_Numerics.

(** End of a simulation: a time or [np.inf] (simulation.py:161-166). *)
Inductive ending : Type := Finite (e : R) | Infinite.
(** What the bar reads: the model's clock ([self.t], 250-251), [t_start], [t_end], [_checkpoint_num]. *)
Record session : Type := mkSession { ss_t : R; ss_start : R; ss_end : ending; ss_seen : nat }.

(** [min(...)] and [max(...)] of 154 and 163 over the indexes of all tables. *)
Fixpoint list_min (x : R) (l : list R) : R := match l with [] => x | y :: l => list_min (Rmin x y) l end.
Fixpoint list_max (x : R) (l : list R) : R := match l with [] => x | y :: l => list_max (Rmax x y) l end.

(** simulation.py:152-166, 211: [clock] is the model's clock, [tables] the indexes of the tables supplied, [t_start] and [t_end]
    the optional arguments.  Simplification: every table supplied has a row (the index of an empty one has minimum nan). *)
Definition begin_session (clock : R) (tables : list (list R)) (t_start : option R) (t_end : option ending) : session :=
  let e := match t_end with
           | Some e => e
           | None => match concat tables with [] => Infinite | x :: l => Finite (list_max x l) end
           end in
  match t_start with
  | Some a => mkSession clock a e 0
  | None => match concat tables with
            | [] => mkSession clock clock e 0
            | x :: l => mkSession (list_min x l) (list_min x l) e 0
            end
  end.

(** simulation.py:206-210: [np.linspace(t_start, t_end)] has 50 points; [np.array([np.inf])] is passed by no finite time, as
    the empty list here. *)
Definition checkpoints (s : session) : list R :=
  match ss_end s with
  | Finite e => map (fun i => ss_start s + INR i * ((e - ss_start s) / 49)) (seq 0 50)
  | Infinite => []
  end.

(** Python's [round(x)]: to the nearest integer, halves to the even one. *)
Definition round_half_even (x : R) : Z :=
  let n := Int_part x in
  if Rltb (frac_part x) (1/2) then n
  else if Rltb (1/2) (frac_part x) then (n + 1)%Z
  else if Z.even n then n else (n + 1)%Z.

(** What is written: the cells of the bar ([true] for '=', [false] for '-') and the percentage.  The clock time is left out. *)
Record printed : Type := mkPrinted { pr_bar : list bool; pr_pct : R }.

(** simulation.py:286-320 [print_progress]; [None]: ZeroDivisionError (line 315).  With an infinite end the ratio is 0.
    [round(x, 1)] (317) is rounding to a tenth. *)
Definition print_progress (use_checkpoints : bool) (s : session) : option (session * option printed) :=
  let cur := searchsorted (checkpoints s) (ss_t s) in
  if use_checkpoints && Nat.eqb cur (ss_seen s) then Some (s, None)
  else
    let s' := if use_checkpoints then mkSession (ss_t s) (ss_start s) (ss_end s) cur else s in
    do ratio <- match ss_end s with
                | Infinite => Some 0
                | Finite e => let t := if Rltb e (ss_t s) then e else ss_t s in div (t - ss_start s) (e - ss_start s)
                end;
    let n := round_half_even (50 * ratio) in
    Some (s', Some (mkPrinted (repeat true (Z.to_nat n) ++ repeat false (Z.to_nat (50 - n)))
                              (IZR (round_half_even (1000 * ratio)) / 10))).

(** A run: the clock takes the values [ts] one after the other and the bar is refreshed, with checkpoints, at each (README
    usage: [simulation.step(); simulation.print_progress()]).  Result: what was printed, in order. *)
Fixpoint watch (s : session) (ts : list R) : option (session * list printed) :=
  match ts with
  | [] => Some (s, [])
  | t :: ts =>
      do r <- print_progress true (mkSession t (ss_start s) (ss_end s) (ss_seen s));
      let (s', p) := r in
      do r2 <- watch s' ts;
      let (s'', ps) := r2 in
      Some (s'', match p with Some p => p :: ps | None => ps end)
  end.
