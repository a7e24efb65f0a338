(** Model of [SuperLink.spinup] (pipedream_solver/superlink.py 3955-3971), without the repositioning of junctions. *)
From Coq Require Import ZArith.
From Verif Require Import Prelude M_Coeffs M_Recurrence M_Step M_Controls M_Simulation M_Model.

(** What [spinup] hands through to [step] ([**kwargs]): boundary heads and signals, iterations and tolerance.  The defaults are
    those of nsuperlink.py [step]: one iteration, 0.0015 m, no boundary heads, no signals. *)
Record keywords : Type := mkKeywords { kw_Hbc : option arr; kw_uo : option arr; kw_uw : option arr; kw_up : option arr; kw_iter : nat; kw_tol : R }.
Definition default_keywords : keywords := mkKeywords None None None None 1 (15 / 10000).

Definition given (x : option arr) (default : arr) : arr := match x with Some v => v | None => default end.

(** superlink.py:3960-3963: the trickle into every superjunction and junction; nsuperlink.py 659, 1058, 1090, 1121, 1552, 1582, 1608:
    signals left out are 0; 1212: boundary heads left out are the present heads (those at the start of the step; with more than
    one iteration the code takes those of the last pass, which differ where a head started beyond its limits). *)
Definition trickle : arr := fun _ => 1 / 1000000.
Definition spin_inputs (Q_in Q_0Ik : option arr) (kw : keywords) (m : object) : inputs :=
  mkInputs (given (kw_Hbc kw) (heads_of (m_body m))) (given Q_in trickle) (given Q_0Ik trickle)
           (given (kw_uo kw) (fun _ => 0)) (given (kw_uw kw) (fun _ => 0)) (given (kw_up kw) (fun _ => 0)).

Section Spinup.
Variable D : design.
Variable slv : mat -> arr -> option arr.

(** superlink.py:3955-3971 [spinup] *)
Definition spinup (n_steps : nat) (dt : R) (Q_in Q_0Ik : option arr) (reset_counters : bool) (kw : keywords) (m : object) : option object :=
  do m <- for_opt n_steps (fun _ m =>
    do r <- object_step D slv (spin_inputs Q_in Q_0Ik kw m) dt (kw_iter kw) (kw_tol kw) m; Some (fst r)) m;
  Some (if reset_counters then mkModel 0 0%Z (m_body m) (m_saved m) else m).
End Spinup.
