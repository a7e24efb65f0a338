(** Surveyed cross-sections (transects): ngeometry.py:1115-1196 and the tables built in nsuperlink.py:336-374.
    Simplification: the coordinate arrays x and y are one list of points (NumPy raises if their lengths differ so that an
    index is missing). *)
From Verif Require Import Prelude M_Coeffs M_Numerics M_Geometry M_Storage M_Recurrence M_Model.

Definition point : Type := (R * R)%type.

(** The loop [for i in range(n - 1)] accumulating one term per piece; [None]: a division by zero. *)
Fixpoint over_pieces (f : point -> point -> option R) (acc : R) (t : list point) : option R :=
  match t with
  | p0 :: ((p1 :: _) as t') => do v <- f p0 p1; over_pieces f (acc + v) t'
  | _ => Some acc
  end.

(** ngeometry.py:1115-1138 [Transect_B_ik] *)
Definition piece_B (w : R) (p0 p1 : point) : option R :=
  let y0 := snd p0 in let y1 := snd p1 in
  let dx := fst p1 - fst p0 in let dy := y1 - y0 in
  if (Rltb w y0 && Rltb w y1)%bool then Some 0
  else if (Rleb y0 w && Rleb y1 w)%bool then Some dx
  else if (Rltb w y0 && Rleb y1 w)%bool then do q <- div dx dy; Some (q * (y1 - w))
  else do q <- div dx dy; Some (q * (w - y0)).
Definition Transect_B_ik (w : R) (t : list point) : option R := over_pieces (piece_B w) 0 t.

(** ngeometry.py:1140-1167 [Transect_Pe_ik] *)
Definition piece_Pe (w : R) (p0 p1 : point) : option R :=
  let y0 := snd p0 in let y1 := snd p1 in
  let dx := fst p1 - fst p0 in let dy := y1 - y0 in
  if (Rltb w y0 && Rltb w y1)%bool then Some 0
  else if (Rleb y0 w && Rleb y1 w)%bool then Some (sqrt (dx ^ 2 + dy ^ 2))
  else if (Rltb w y0 && Rleb y1 w)%bool then
    do q <- div dx dy;
    let dxp := q * (y1 - w) in let dyp := w - y1 in Some (sqrt (dxp ^ 2 + dyp ^ 2))
  else
    do q <- div dx dy;
    let dxp := q * (w - y0) in let dyp := w - y0 in Some (sqrt (dxp ^ 2 + dyp ^ 2)).
Definition Transect_Pe_ik (w : R) (t : list point) : option R := over_pieces (piece_Pe w) 0 t.

(** ngeometry.py:1169-1196 [Transect_A_ik] *)
Definition piece_A (w : R) (p0 p1 : point) : option R :=
  let y0 := snd p0 in let y1 := snd p1 in
  let dx := fst p1 - fst p0 in let dy := y1 - y0 in
  if (Rltb w y0 && Rltb w y1)%bool then Some 0
  else if (Rleb y0 w && Rleb y1 w)%bool then
    let A_rec := dx * (w - Rmax y0 y1) in let A_tri := Rabs (dx * dy / 2) in Some (A_rec + A_tri)
  else if (Rltb w y0 && Rleb y1 w)%bool then
    do q <- div dx dy;
    let dxp := q * (y1 - w) in let dyp := w - y1 in Some (Rabs (dxp * dyp / 2))
  else
    do q <- div dx dy;
    let dxp := q * (w - y0) in let dyp := w - y0 in Some (Rabs (dxp * dyp / 2)).
Definition Transect_A_ik (w : R) (t : list point) : option R := over_pieces (piece_A w) 0 t.

(** [np.linspace(0., top, n)]: n equally spaced values; a single value is 0. *)
Definition linspace0 (top : R) (n : nat) : list R :=
  map (fun i => if Nat.eqb n 1 then 0 else INR i * (top / INR (n - 1))) (seq 0 n).

(** [np.array([f(w_i) for w_i in w])] *)
Fixpoint all_values (f : R -> option R) (ws : list R) : option (list R) :=
  match ws with
  | [] => Some []
  | w :: ws => do v <- f w; do vs <- all_values f ws; Some (v :: vs)
  end.

(** nsuperlink.py:347-360: the tables of one transect.  [None]: [y.max()] of an empty array raises. *)
Definition transect_tables (t : list point) (sample_points : nat) : option xsection :=
  match t with
  | [] => None
  | _ =>
      let ws := linspace0 (lmax (map snd t)) sample_points in
      do As <- all_values (fun w => Transect_A_ik w t) ws;
      do Bs <- all_values (fun w => Transect_B_ik w t) ws;
      do Pes <- all_values (fun w => Transect_Pe_ik w t) ws;
      Some (Irregular ws As Bs Pes (map (fun ap => safe_divide (fst ap) (snd ap)) (combine As Pes)))
  end.

(** nsuperlink.py:337, 373-374: code of a link's transect among the names in the dictionary's order; an unknown name gets
    code 0 ([setdefault(transect, 0)]).  Names are numbers here. *)
Definition transect_code (names : list nat) (name : nat) : nat :=
  if existsb (Nat.eqb name) names then index_of name names else O.
(** nsuperlink.py:361-372 and 1902-1909: what a link that names [name] reads from the concatenated column [cols]; the order
    of the dictionary is kept ([transect_name_to_ind] enumerates it). *)
Definition read_transect (names : list nat) (cols : list (list R)) (name : nat) : list R :=
  read_table cols (seq 0 (length cols)) (transect_code names name).
