(** Model of the diagnostics a user can ask for after a step: flows and depths recomputed from the recurrence
    coefficients, the transit time of a superlink, and concentrations recomputed from the recurrence coefficients. *)
From Verif Require Import Prelude M_Numerics M_Coeffs M_Recurrence M_LeastSquares M_Quality.

(** nsuperlink.py:1511-1532 [superlink_flow_from_recurrence], with 3117-3129 [numba_Q_i_next_b] and 3131-3142
    [numba_Q_im1k_next_f]: backward and forward estimate of every link's flow. *)
Definition flow_from_recurrence (T : chain) (f : fwd) (b : bwd) (h_uk h_dk h : arr) : arr * arr :=
  (fun i => let I := c_Ik T i in Q_i_b (h I) (h_dk (c_ki T i)) (bX b I) (bY b I) (bZ b I),
   fun i => let I := c_Ik T i in Q_i_f (h (I + 1)%nat) (h_uk (c_ki T i)) (fU f I) (fV f I) (fW f I)).

(** superlink.py:3295-3299 [_h_Ik_next_f], 3403-3407 [_h_Ik_next_b], decorated with [safe_divide] (1124-1134). *)
Definition h_next_f (Q V W h_1 U : R) : R := safe_divide (Q - V - W * h_1) U.
Definition h_next_b (Q Y Z h_Np1 X : R) : R := safe_divide (Q - Y - Z * h_Np1) X.

(** superlink.py:3756-3787 [superlink_depth_from_recurrence] (inherited by nSuperLink): backward and forward estimate of
    every junction's depth.  [h0]: the contents of [np.empty].  [np.repeat(x, nk)] is read as [x[_ki]]. *)
Definition depth_from_recurrence (T : chain) (f : fwd) (b : bwd) (h_uk h_dk Q : arr) (min_depth : R) (h0 : arr) : arr * arr :=
  let ends := fun I => negb (c_end T I) in
  let starts := fun I => negb (c_start T I) in
  let at_ := fun i => nth i (where_ ends (c_NJ T)) O in
  let hb := put_masked h0 ends (c_NJ T)
              (fun i => h_next_b (Q i) (bY b (at_ i)) (bZ b (at_ i)) (h_dk (c_ki T i)) (bX b (at_ i))) (c_NL T) in
  let hf := put_masked h0 starts (c_NJ T)
              (fun i => h_next_f (Q i) (fV f (at_ i)) (fW f (at_ i)) (h_uk (c_ki T i)) (fU f (at_ i))) (c_NL T) in
  let set_ends := fun h => put_masked (put_masked h (c_start T) (c_NJ T) h_uk (c_NK T)) (c_end T) (c_NJ T) h_dk (c_NK T) in
  (fun I => Rmax (set_ends hb I) min_depth, fun I => Rmax (set_ends hf I) min_depth).

(** superlink.py:3789-3809 [superlink_inverse_courant]: [np.add.at] over the links, division by the number of links. *)
Definition superlink_mean (T : chain) (x : arr) (k : nat) : R :=
  for_n (c_NL T) (fun i v => upd v (c_ki T i) (v (c_ki T i) + x i)) (fun _ => 0) k / INR (c_nk T k).
Definition superlink_inverse_courant (T : chain) (dx_k Q A : arr) (k : nat) : R :=
  Rabs (superlink_mean T A k * dx_k k / superlink_mean T Q k).

(** nquality.py:927-949 [link_concentrations_from_recurrence].  The positional arguments are those of the calls at lines
    943-948; [c_i_b] and [c_i_f] (1626-1638) take them in another order than they are passed. *)
Definition concentrations_from_recurrence (T : chain) (f : fwd) (b : bwd) (c_I : arr) : arr * arr :=
  let at_ := fun i => nth i (where_ (fun I => negb (c_end T I)) (c_NJ T)) O in
  let next_ := fun i => nth i (where_ (fun I => negb (c_start T I)) (c_NJ T)) O in
  let c_1k := fun k => c_I (c_I1 T k) in
  let c_Np1k := fun k => c_I (c_I1 T k + c_nk T k)%nat in
  (fun i => q_c_i_b (bX b (at_ i)) (c_I (at_ i)) (bY b (at_ i)) (bZ b (at_ i)) (c_Np1k (c_ki T i)),
   fun i => q_c_i_f (fU f (at_ i)) (c_I (next_ i)) (fV f (at_ i)) (fW f (at_ i)) (c_1k (c_ki T i))).
