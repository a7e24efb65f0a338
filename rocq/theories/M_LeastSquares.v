(** Model of the least-squares reconstructions of internal depths and flows: [method='lsq'] (nsuperlink.py 1460-1532,
    2243-2265, 3117-3142) and [method='nnls'] (superlink.py 3415-3470). *)
From Verif Require Import Prelude M_Recurrence M_Coeffs.
Open Scope nat_scope.

(** [np.flatnonzero(mask)] for a mask of [n] entries: [a[mask]] lists the entries of [a] at these positions. *)
Definition where_ (mask : nat -> bool) (n : nat) : list nat := filter mask (seq 0 n).
Definition compress (a : arr) (mask : nat -> bool) (n : nat) : list R := map a (where_ mask n).

(** Index tables built by [SuperLink.__init__] (superlink.py 407-425, 651-656, 741-744). *)
Record chain : Type := mkChain {
  c_NK : nat; c_NL : nat; c_NJ : nat;          (* superlinks, links, internal junctions *)
  c_nk : nat -> nat;                           (* links of superlink k (line 421) *)
  c_i1 : nat -> nat; c_I1 : nat -> nat;        (* first link (655) and first junction (653) of superlink k *)
  c_kI : nat -> nat; c_ki : nat -> nat;        (* superlink of a junction (411), of a link (412) *)
  c_Ik : nat -> nat;                           (* first junction of a link (409) *)
  c_start : nat -> bool; c_end : nat -> bool;  (* junction is first, last of its superlink (415-418) *)
  c_lstart : nat -> bool; c_lend : nat -> bool (* link is first, last of its superlink (741-744) *) }.

(** superlink.py:420  [_is_penult = np.roll(_is_end, -1)]. *)
Definition is_penult (T : chain) (I : nat) : bool := c_end T ((I + 1) mod c_NJ T).

(** superlink.py:656  [_k_1k = np.cumsum(nk - 1) - (nk[0] - 1)].  The cumulative sum at k is at least nk[0] - 1. *)
Fixpoint nsum (f : nat -> nat) (k : nat) : nat := match k with O => O | S m => nsum f m + f m end.
Definition k_1k (T : chain) (k : nat) : nat := nsum (fun k => c_nk T k - 1) (S k) - (c_nk T 0 - 1).

(** nsuperlink.py:1492-1494  masked coefficients of the unknown depths; superlink.py:3439-3440. *)
Definition mask_X (T : chain) (I : nat) : bool := negb (c_start T I) && negb (c_end T I).
Definition mask_U (T : chain) (I : nat) : bool := negb (is_penult T I) && negb (c_end T I).

Open Scope R_scope.

(** nsuperlink.py:1495-1501 (superlink.py:3441-3447): right-hand sides, one per link.  [None]: shapes differ. *)
Definition right_hand_side (T : chain) (f : fwd) (b : bwd) (h_uk h_dk : arr) : option arr :=
  let ne := where_ (fun I => negb (c_end T I)) (c_NJ T) in
  if Nat.eqb (length ne) (c_NL T) then
    let b0 := fun i => let I := nth i ne O in
                       - (fW f I * h_uk (c_ki T i)) + bZ b I * h_dk (c_ki T i) + bY b I - fV f I in
    let b1 := for_n (c_NK T) (fun k v => let i := nth k (where_ (c_lstart T) (c_NL T)) O in
                let I := nth k (where_ (c_start T) (c_NJ T)) O in upd v i (v i + bX b I * h_uk k)) b0 in
    Some (for_n (c_NK T) (fun k v => let i := nth k (where_ (c_lend T) (c_NL T)) O in
                let I := nth k (where_ (is_penult T) (c_NJ T)) O in upd v i (v i - fU f I * h_dk k)) b1)
  else None.

(** nsuperlink.py:2250-2253: matrix of one superlink, [nlinks] rows and [nlinks - 1] columns.  The compiled loop reads
    [_U], [_X] without bounds check: [None] stands for a read past the end (foreign memory). *)
Definition fill_matrix (U X : list R) (lstart nlinks : nat) : option mat :=
  for_opt (nlinks - 1) (fun i (Ak : mat) =>
    match nth_error U (lstart + i), nth_error X (lstart + i) with
    | Some u, Some x => Some (upd2 (upd2 Ak i i u) (i + 1) i (- x))
    | _, _ => None
    end) (fun _ _ => 0).

(** nsuperlink.py:2254-2261: normal equations, zero diagonal entries replaced by one. *)
Definition normal_matrix (Ak : mat) (rows : nat) : mat := fun i j => sum_n (fun r => Ak r i * Ak r j) rows.
Definition normal_rhs (Ak : mat) (bk : arr) (rows : nat) : arr := fun i => sum_n (fun r => Ak r i * bk r) rows.
Definition fill_diagonal (m : mat) (cols : nat) : mat :=
  for_n cols (fun i m => if Reqb (m i i) 0 then upd2 m i i 1 else m) m.

(** nsuperlink.py:2263, superlink.py:3461: [h[jstart+1 : jstart+nlinks] = h_inner]. *)
Definition write_inner (h inner : arr) (jstart nlinks : nat) : arr :=
  for_n (nlinks - 1) (fun i h => upd h (jstart + 1 + i)%nat (inner i)) h.

(** nsuperlink.py:2243-2265 [numba_solve_internals_ls].  [lin n] is [np.linalg.solve] for n unknowns ([None]: raises). *)
Definition numba_solve_internals_ls (lin : nat -> mat -> arr -> option arr) (h : arr) (NK : nat)
           (nk k_1k i_1k I_1k : nat -> nat) (U X : list R) (b : arr) : option arr :=
  for_opt NK (fun k h =>
    let nlinks := nk k in
    do Ak <- fill_matrix U X (k_1k k) nlinks;
    let bk := fun r => b (i_1k k + r)%nat in
    let AA := fill_diagonal (normal_matrix Ak nlinks) (nlinks - 1) in
    do inner <- lin (nlinks - 1)%nat AA (normal_rhs Ak bk nlinks);
    Some (write_inner h inner (I_1k k) nlinks)) h.

(** nsuperlink.py:1505-1506: [h[mask] = v], one value per True entry. *)
Definition put_masked (h : arr) (mask : nat -> bool) (n : nat) (v : arr) (count : nat) : arr :=
  for_n count (fun k h => upd h (nth k (where_ mask n) O) (v k)) h.

(** nsuperlink.py:3117-3129 [numba_Q_i_next_b], 3131-3142 [numba_Q_im1k_next_f], and their average, line 1511. *)
Definition average_flow (T : chain) (f : fwd) (b : bwd) (h_uk h_dk h : arr) (i : nat) : R :=
  let I := c_Ik T i in
  (Q_i_b (h I) (h_dk (c_ki T i)) (bX b I) (bY b I) (bZ b I) +
   Q_i_f (h (I + 1)%nat) (h_uk (c_ki T i)) (fU f I) (fV f I) (fW f I)) / 2.

(** nsuperlink.py:1460-1514 [solve_internals_lsq]: new depths and flows. *)
Definition solve_internals_lsq (lin : nat -> mat -> arr -> option arr) (T : chain) (h : arr) (h_uk h_dk : arr)
           (f : fwd) (b : bwd) (min_depth : R) : option (arr * arr) :=
  let X := compress (bX b) (mask_X T) (c_NJ T) in
  let U := compress (fU f) (mask_U T) (c_NJ T) in
  do rhs <- right_hand_side T f b h_uk h_dk;
  do h1 <- numba_solve_internals_ls lin h (c_NK T) (c_nk T) (k_1k T) (c_i1 T) (c_I1 T) U X rhs;
  let h2 := put_masked h1 (c_start T) (c_NJ T) h_uk (c_NK T) in
  let h3 := put_masked h2 (c_end T) (c_NJ T) h_dk (c_NK T) in
  let h4 := fun I => if Rltb (h3 I) min_depth then min_depth else h3 I in
  Some (h4, average_flow T f b h_uk h_dk h4).

(** superlink.py:3448-3461: the loop of 'nnls' selects by superlink instead ([k_k], [i_k], [I_k]): [_kk = _ki[~_link_end]]
    (line 3437), [_U[_kk == k]], [_X[_kk == k]], [_b[_ki == k]], [h[(_kI == k) & ~start & ~end]].
    [nnls rows cols] is [scipy.optimize.nnls] ([None]: raises).  [None] also stands for a shape mismatch. *)
Definition select {A : Type} (key : list nat) (k : nat) (v : list A) : list A :=
  map snd (filter (fun p => Nat.eqb (fst p) k) (combine key v)).
Definition of_list (l : list R) : arr := fun i => nth i l 0.
Definition flat_matrix (U X : list R) : mat :=
  fun r c => if Nat.eqb r c then of_list U c else if Nat.eqb r (c + 1) then - of_list X c else 0.
Definition nnls_superlinks (nnls : nat -> nat -> mat -> arr -> option arr) (T : chain) (U X : list R) (b h : arr)
  : option arr :=
  let kk := map (c_ki T) (where_ (fun i => negb (c_lend T i)) (c_NL T)) in
  for_opt (c_NK T) (fun k h =>
    let Uk := select kk k U in
    let Xk := select kk k X in
    let bk := select (map (c_ki T) (seq 0 (c_NL T))) k (map b (seq 0 (c_NL T))) in
    let inner_at := where_ (fun I => Nat.eqb (c_kI T I) k && negb (c_start T I) && negb (c_end T I)) (c_NJ T) in
    let cols := (c_nk T k - 1)%nat in
    if Nat.eqb (length Uk) cols && Nat.eqb (length Xk) cols && Nat.eqb (length bk) (c_nk T k)
       && Nat.eqb (length inner_at) cols then
      do inner <- nnls (c_nk T k) cols (flat_matrix Uk Xk) (of_list bk);
      Some (for_n cols (fun i h => upd h (nth i inner_at O) (inner i)) h)
    else None) h.

(** superlink.py:3415-3470 [solve_internals_nnls] (inherited by nSuperLink): no clipping to [min_depth]. *)
Definition solve_internals_nnls (nnls : nat -> nat -> mat -> arr -> option arr) (T : chain) (h : arr) (h_uk h_dk : arr)
           (f : fwd) (b : bwd) : option (arr * arr) :=
  let X := compress (bX b) (mask_X T) (c_NJ T) in
  let U := compress (fU f) (mask_U T) (c_NJ T) in
  do rhs <- right_hand_side T f b h_uk h_dk;
  do h1 <- nnls_superlinks nnls T U X rhs h;
  let h2 := put_masked h1 (c_start T) (c_NJ T) h_uk (c_NK T) in
  let h3 := put_masked h2 (c_end T) (c_NJ T) h_dk (c_NK T) in
  Some (h3, average_flow T f b h_uk h_dk h3).
