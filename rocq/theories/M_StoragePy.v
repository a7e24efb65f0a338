(** Model of the storage classes used without numba (pipedream_solver/storage.py) and of their callers
    (superlink.py:1694-1720, 1934-1996).  Array operations entry by entry. *)
From Verif Require Import Prelude M_Coeffs M_Numerics M_Storage M_GeometryPy.

(** storage.py:25, 46 [h[h < 0] = 0]: an assignment to the array of the caller. *)
Definition no_negative (h : arr) : arr := fun j => if Rltb (h j) 0 then 0 else h j.
(** storage.py:10-28 [Functional.A_sj]: the areas, and the caller's array of depths afterwards. Powers of 0 with a negative
    exponent (inf in numpy) are outside the model. *)
Definition Functional_A_sj (h a b c : arr) : arr * arr :=
  let h := no_negative h in
  (fun j => a j * fpow (h j) (b j) + c j, h).
(** storage.py:31-49 [Functional.V_sj], for exponents other than -1 (numpy would return inf or nan). *)
Definition Functional_V_sj (h a b c : arr) : arr * arr :=
  let h := no_negative h in
  (fun j => a j * fpow (h j) (b j + 1) / (b j + 1) + c j * h j, h).

(** storage.py:51-70 [Tabular], for a table in the order of its depths; [None]: raises ([interp1d] wants as many areas as
    depths and at least two of them). *)
Record Tabular : Type := mkTabular {
  t_h : list R; t_A : list R; t_V : list R; t_hmax : R; t_hmin : R; t_Amax : R }.
Definition Tabular_init (h A : list R) : option Tabular :=
  if (Nat.eqb (length h) (length A) && Nat.leb 2 (length h))%bool
  then Some (mkTabular h A (volume_table h A) (lmax h) (lmin h) (lmax A))
  else None.
(** storage.py:83-85, 101-103: a copy of the depths, limited to the table *)
Definition within (t : Tabular) (h : R) : R :=
  let h := if Rltb h (t_hmin t) then t_hmin t else h in
  if Rltb (t_hmax t) h then t_hmax t else h.
(** storage.py:72-87 [Tabular.A_sj], one entry *)
Definition Tabular_A_sj (t : Tabular) (h : R) : option R := interp1d (combine (t_h t) (t_A t)) (within t h).
(** storage.py:89-106 [Tabular.V_sj], one entry *)
Definition Tabular_V_sj (t : Tabular) (h : R) : option R :=
  let r := Rmax (h - within t h) 0 in
  do v <- interp1d (combine (t_h t) (t_V t)) (within t h); Some (v + r * t_Amax t).

(** The storages of a model: the table name of each superjunction with a table, the coefficients of the others. *)
Inductive store : Type := ByFunction (a b c : R) | ByTable (name : nat).

(** superlink.py:1708-1715: the tables whose name some superjunction uses, in the order of the dictionary. *)
Definition used (n : nat) (store_of : nat -> store) (name : nat) : bool :=
  existsb (fun j => match store_of j with ByTable s => Nat.eqb s name | _ => false end) (seq 0 n).
Fixpoint storage_factory (n : nat) (store_of : nat -> store) (storages : list (nat * (list R * list R))) : option (list (nat * Tabular)) :=
  match storages with
  | [] => Some []
  | (name, (h, A)) :: rest =>
      if used n store_of name
      then do t <- Tabular_init h A; do l <- storage_factory n store_of rest; Some ((name, t) :: l)
      else storage_factory n store_of rest
  end.

(** superlink.py:1959-1961, 1990-1992: the loop over the tables; [value] is [A_sj] or [V_sj]; [None]: raises. *)
Definition from_table (n : nat) (store_of : nat -> store) (value : Tabular -> R -> option R) (h : arr) (e : nat * Tabular) (a : arr) : option arr :=
  for_opt n (fun j a => match store_of j with
    | ByTable s => if Nat.eqb s (fst e) then do v <- value (snd e) (h j); Some (upd a j v) else Some a
    | ByFunction _ _ _ => Some a end) a.
Fixpoint from_tables (n : nat) (store_of : nat -> store) (value : Tabular -> R -> option R) (h : arr) (l : list (nat * Tabular)) (a : arr) : option arr :=
  match l with
  | [] => Some a
  | e :: l => do a <- from_table n store_of value h e a; from_tables n store_of value h l a
  end.
(** superlink.py:1934-1963 [compute_storage_areas] and 1965-1996 [compute_storage_volumes]. The functional storages get
    a copy of the depths (a mask makes one). *)
Definition coef (f : R -> R -> R -> R) (store_of : nat -> store) : arr :=
  fun j => match store_of j with ByFunction a b c => f a b c | _ => 0 end.
Definition by_function (store_of : nat -> store) (new old : arr) : arr :=
  fun j => match store_of j with ByFunction _ _ _ => new j | ByTable _ => old j end.
Definition compute_storage_areas (n : nat) (store_of : nat -> store) (factory : list (nat * Tabular)) (H z : arr) (min_depth : R) (A : arr) : option arr :=
  let h := fun j => storage_depth (H j) (z j) min_depth in
  let A := by_function store_of (fst (Functional_A_sj h (coef (fun a _ _ => a) store_of) (coef (fun _ b _ => b) store_of) (coef (fun _ _ c => c) store_of))) A in
  from_tables n store_of Tabular_A_sj h factory A.
Definition compute_storage_volumes (n : nat) (store_of : nat -> store) (factory : list (nat * Tabular)) (H z : arr) (min_depth : R) (V : arr) : option arr :=
  let h := fun j => storage_depth (H j) (z j) min_depth in
  let V := by_function store_of (fst (Functional_V_sj h (coef (fun a _ _ => a) store_of) (coef (fun _ b _ => b) store_of) (coef (fun _ _ c => c) store_of))) V in
  from_tables n store_of Tabular_V_sj h factory V.
