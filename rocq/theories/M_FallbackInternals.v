(** Model of the reconstruction of depths and flows inside the superlinks in the class used when numba is not installed
    ([SuperLink.solve_internals_backwards], superlink.py:3307-3401, not restricted to subcritical links; end method not 'o').
    All superlinks are treated in step, the last inner junction of each first. *)
From Verif Require Import Prelude M_Coeffs M_Recurrence M_Layout.

(** [a[key[ix]] = val], values computed before the assignment. *)
Definition py_assign {X : Type} (ix : list X) (key : X -> nat) (val : X -> R) (a : arr) : arr :=
  fold_left (fun a x => upd a (key x) (val x)) ix a.

Section Internals.
  Variables (f : fwd) (w : bwd) (T : tables) (NK : nat) (h_uk h_dk : arr) (min_depth : R).

  (** superlink.py:3346-3350 and, again, 3391-3395. *)
  Definition py_internals_ends (s : arr * arr) : arr * arr :=
    let ks := seq 0 NK in
    let I_1 := t_I_1k T in let I_N := t_I_Nk T in
    let Q := py_assign ks (t_i_1k T) (fun k => bX w (I_1 k) * h_uk k + bZ w (I_1 k) * h_dk k + bY w (I_1 k)) (snd s) in
    let Q := py_assign ks (t_i_nk T) (fun k => fU f (I_N k) * h_dk k + fW f (I_N k) * h_uk k + fV f (I_N k)) Q in
    let h := py_assign ks I_1 h_uk (fst s) in
    (py_assign ks (t_I_Np1k T) h_dk h, Q).

  (** superlink.py:3351-3357: the parallel arrays [_I_next], [_I_1k_next], [_I_Np1k_next] as one list of triples. *)
  Definition triple : Type := (nat * nat * nat)%type.
  Definition py_internals_start : list triple :=
    map (fun k => (t_I_Nk T k, t_I_1k T k, t_I_Np1k T k))
        (filter (fun k => negb (Nat.eqb (t_I_1k T k) (t_I_Nk T k))) (seq 0 NK)).

  (** superlink.py:3368-3379 with 3403-3413 [_h_Ik_next_b], [_Q_im1k_next_f]: one round. *)
  Definition py_internals_round (ts : list triple) (s : arr * arr) : arr * arr :=
    let I (t : triple) := fst (fst t) in let I_1 (t : triple) := snd (fst t) in let I_Np1 (t : triple) := snd t in
    let i t := t_forward_I_i T (I t) in let Im1 t := t_backward_I_I T (I t) in
    let im1 t := t_forward_I_i T (Im1 t) in
    let '(h, Q) := s in
    let h := py_assign ts I (fun t => safe_divide (Q (i t) - bY w (I t) - bZ w (I t) * h (I_Np1 t)) (bX w (I t))) h in
    let h := py_assign (filter (fun t => Rltb (h (I t)) min_depth) ts) I (fun _ => min_depth) h in
    (h, py_assign ts im1 (fun t => fU f (Im1 t) * h (I t) + fV f (Im1 t) + fW f (Im1 t) * h (I_1 t)) Q).

  (** superlink.py:3380-3383. *)
  Definition py_internals_keep (ts : list triple) : list triple :=
    map (fun t => (t_backward_I_I T (fst (fst t)), snd (fst t), snd t))
        (filter (fun t : triple => negb (Nat.eqb (t_backward_I_I T (fst (fst t))) (snd (fst t)))) ts).

  (** superlink.py:3366-3383: [while _I_next.size]; [None]: the fuel runs out. *)
  Fixpoint py_internals_loop (fuel : nat) (ts : list triple) (s : arr * arr) : option (arr * arr) :=
    match ts with
    | [] => Some s
    | _ => match fuel with
           | 0%nat => None
           | Datatypes.S m => py_internals_loop m (py_internals_keep ts) (py_internals_round ts s)
           end
    end.

  (** superlink.py:3307-3401; the last line raises every depth to [min_depth] (3397). *)
  Definition py_solve_internals (fuel : nat) (s : arr * arr) : option (arr * arr) :=
    do s <- py_internals_loop fuel py_internals_start (py_internals_ends s);
    let '(h, Q) := py_internals_ends s in
    Some (fun I => if Rltb (h I) min_depth then min_depth else h I, Q).
End Internals.
