(** Specification vocabulary for steps of the whole object: where the geometry comes from, inputs that disturb nothing. *)
From Verif Require Import Prelude M_Coeffs M_Recurrence M_Assembly M_Step M_Geometry M_Controls M_Simulation M_Model S_Network S_Step S_Model.

(** [G] is the geometry of every link, superlink end and storage at the depths and heads of [st]; the end of a superlink
    counts the water in its junction only where the indicator [thu] or [thd] is 1. *)
Record geometry_at (D : design) (st : hstate) (thu thd : arr) (G : geometry) : Prop := mkGeometryAt {
  ga_links : forall i, (i < n_L (d_net D))%nat -> exists old gm,
    section_geometry (d_sec D i) (h_h st (d_Ik D i)) (h_h st (d_Ik D i + 1)%nat) old = Some gm /\
    g_A G i = gm_A gm /\ g_R G i = gm_R gm /\ g_B G i = gm_B gm;
  ga_up : forall k, (k < n_K (d_net D))%nat -> exists old gm,
    section_geometry (d_sec D (n_i1 (d_net D) k)) (h_h st (n_I1 (d_net D) k))
      (thu k * (h_H st (n_Ju (d_net D) k) - n_zu (d_net D) k)) old = Some gm /\
    g_Au G k = gm_A gm /\ g_Ru G k = gm_R gm /\ g_Bu G k = gm_B gm;
  ga_down : forall k, (k < n_K (d_net D))%nat -> exists old gm,
    section_geometry (d_sec D (n_i1 (d_net D) k + n_nk (d_net D) k - 1)%nat) (h_h st (n_I1 (d_net D) k + n_nk (d_net D) k)%nat)
      (thd k * (h_H st (n_Jd (d_net D) k) - n_zd (d_net D) k)) old = Some gm /\
    g_Ad G k = gm_A gm /\ g_Rd G k = gm_R gm /\ g_Bd G k = gm_B gm;
  ga_store : forall j, (j < n_M (d_net D))%nat ->
    storage_area (d_store D j) (Rmax (h_H st j - n_zj (d_net D) j) (n_min (d_net D))) = Some (g_Asj G j) }.

(** All heads strictly between their limits. *)
Definition heads_free (N : network) (st : hstate) : Prop :=
  forall j, (j < n_M N)%nat -> n_zj N j < h_H st j < n_zj N j + n_maxj N j.

(** Inputs that disturb nothing at the level H0: no inflow, prescribed heads at the level, pumps off, every orifice
    either above the water or drowned. *)
Record quiet (D : design) (H0 : R) (i : inputs) : Prop := mkQuiet {
  q_in : forall j, i_Qin i j = 0;
  q_in_internal : forall I, i_Q0 i I = 0;
  q_bc : forall j, (j < n_M (d_net D))%nat -> n_bc (d_net D) j = true -> i_Hbc i j = H0;
  q_pumps : forall p, (p < p_n (d_pu D))%nat -> i_up i p = 0;
  q_orifices : forall o, (o < o_n (d_or D))%nat ->
    let bottom := n_zj (d_net D) (o_Ju (d_or D) o) + o_z (d_or D) o in
    let opening := o_tau (d_or D) o * o_ymax (d_or D) o * i_uo i o in
    0 <= opening /\ (H0 <= bottom \/ bottom + opening < H0) }.

(** Nothing moves: level H0 everywhere and no reported control flow. *)
Record still (D : design) (zI : arr) (H0 : R) (b : body) : Prop := mkStill {
  sl_rest : at_rest (d_net D) zI H0 (b_st b);
  sl_o : forall o, (o < o_n (d_or D))%nat -> b_Qo b o = 0;
  sl_w : forall w, (w < w_n (d_we D))%nat -> b_Qw b w = 0;
  sl_p : forall p, (p < p_n (d_pu D))%nat -> b_Qp b p = 0 }.
