(** Specification vocabulary for C85: water that flows and does not change. *)
From Verif Require Import Prelude M_Coeffs M_Recurrence M_Step M_Geometry M_Storage M_Controls M_Simulation M_Model
  S_Superlink S_Network S_Step S_Controls S_Model S_Object S_Replay P_Advection.

(** Every link and every internal junction belongs to a superlink. *)
Definition all_in_superlinks (N : network) : Prop :=
  (forall i, (i < n_L N)%nat -> exists k j, (k < n_K N)%nat /\ (j < n_nk N k)%nat /\ i = (n_i1 N k + j)%nat) /\
  (forall I, (I < n_J N)%nat -> exists k j, (k < n_K N)%nat /\ (j <= n_nk N k)%nat /\ I = (n_I1 N k + j)%nat).

(** The same heads, depths, flows and control flows. *)
Record same_water (D : design) (b b' : body) : Prop := mkSameWater {
  sw_st : same_state (d_net D) (b_st b) (b_st b');
  sw_Qo : forall o, (o < o_n (d_or D))%nat -> b_Qo b o = b_Qo b' o;
  sw_Qw : forall w, (w < w_n (d_we D))%nat -> b_Qw b w = b_Qw b' w;
  sw_Qp : forall p, (p < p_n (d_pu D))%nat -> b_Qp b p = b_Qp b' p }.

(** No head or depth is on a limit. *)
Record unlimited (N : network) (st : hstate) : Prop := mkUnlimited {
  un_heads : heads_free N st;
  un_min : forall I, (I < n_J N)%nat -> n_min N < h_h st I;
  un_max : forall k j, (k < n_K N)%nat -> (1 <= j)%nat -> (j < n_nk N k)%nat -> h_h st (n_I1 N k + j)%nat < n_maxk N k }.

(** In a step of length [dt] less water flows through each orifice than the junction it comes from holds. *)
Definition orifices_supplied (D : design) (b : body) (dt : R) : Prop :=
  forall o, (o < o_n (d_or D))%nat -> let O := d_or D in let H := h_H (b_st b) in
    let j := if Rltb (H (o_Jd O o)) (H (o_Ju O o)) then o_Ju O o else o_Jd O o in
    forall V, storage_volume (d_store D j) (Rmax (H j - n_zj (d_net D) j) (n_min (d_net D))) = Some V -> Rabs (b_Qo b o) * dt < V.
(** No orifice is opened by a negative amount. *)
Definition orifices_open (D : design) (i : inputs) : Prop :=
  forall o, (o < o_n (d_or D))%nat -> 0 <= o_tau (d_or D) o * o_ymax (d_or D) o * i_uo i o.

(** The indicators of submerged ends are those of the present heads. *)
Definition settled (D : design) (b : body) : Prop := forall k, (k < n_K (d_net D))%nat ->
  b_thu b k = above (h_H (b_st b) (n_Ju (d_net D) k)) (n_zu (d_net D) k) /\
  b_thd b k = above (h_H (b_st b) (n_Jd (d_net D) k)) (n_zd (d_net D) k).

(** Flows along superlink k as reported: into its upstream end, in its links, out of its downstream end. *)
Definition flow_along (N : network) (st : hstate) (k : nat) : arr := local_flows (h_Q st) (n_i1 N k) (n_nk N k) (h_Qu st k) (h_Qd st k).

(** Velocities [v], [v'] at the ends of link [i] and the share [s] of its inertia that is kept. *)
Definition advection (N : network) (G : geometry) (st : hstate) (i : nat) (s v v' : R) : Prop :=
  let V j := h_Q st j / g_A G j in
  (if n_lstart N i then v = V i else on_the_line (- (n_dx N (i - 1)%nat / 2)) (V (i - 1)%nat) (n_dx N i / 2) (V i) 0 v) /\
  (if n_lend N i then v' = V i else on_the_line (- (n_dx N i / 2)) (V i) (n_dx N (i + 1)%nat / 2) (V (i + 1)%nat) 0 v') /\
  (if n_damp N then exists F, 0 <= F /\ F ^ 2 * (9.81 * g_A G i) = V i ^ 2 * g_B G i /\ inertia_kept F s else s = 1).

(** Head lost where water enters or leaves a superlink. *)
Definition end_loss (C Q A : R) : R := if Req_EM_T A 0 then 0 else C * Rabs Q * Q / (2 * 9.81 * A ^ 2).

(** Steady flow: laws without a time step between the inputs and what the object reports. *)
Record steady (D : design) (i : inputs) (b : body) (G : geometry) : Prop := mkSteady {
  (* the flow along a superlink changes by the lateral inflow only *)
  sy_along : forall k j, (k < n_K (d_net D))%nat -> (j <= n_nk (d_net D) k)%nat ->
    flow_along (d_net D) (b_st b) k (j + 1)%nat = flow_along (d_net D) (b_st b) k j + i_Q0 i (n_I1 (d_net D) k + j)%nat;
  (* weight and pressure balance advection, friction and the loss at control points *)
  sy_link : forall k j, (k < n_K (d_net D))%nat -> (j < n_nk (d_net D) k)%nat ->
    let N := d_net D in let l := (n_i1 N k + j)%nat in let Q := flow_along N (b_st b) k in let h := h_h (b_st b) in
    exists s v v', advection N G (b_st b) l s v v' /\
      s * (Rmax v 0 * (Q (j + 1)%nat - Q j) + Rmax (- v') 0 * (Q (j + 1)%nat - Q (j + 2)%nat))
      + (friction_law (n_sf N l) (h_Q (b_st b) l) (n_dx N l) (g_A G l) (g_R G l) (n_n N l)
         + (if n_ctrl N l then n_C N l * g_A G l * Rabs (h_Q (b_st b) l) / n_Ac N l ^ 2 else 0)) * h_Q (b_st b) l
      = 9.81 * g_A G l * (n_So N l * n_dx N l + h (n_I1 N k + j)%nat - h (n_I1 N k + (j + 1))%nat);
  (* the ends of a superlink are at the level of their junctions, except for the losses there *)
  sy_ends : forall k, (k < n_K (d_net D))%nat -> let N := d_net D in let st := b_st b in
    h_h st (n_I1 N k) = above (h_H st (n_Ju N k)) (n_zu N k) * (h_H st (n_Ju N k) - n_zu N k) - end_loss (n_Cu N k) (h_Qu st k) (g_Au G k) /\
    h_h st (n_I1 N k + n_nk N k)%nat
      = above (h_H st (n_Jd N k)) (n_zd N k) * (h_H st (n_Jd N k) - n_zd N k) + end_loss (n_Cd N k) (h_Qd st k) (g_Ad G k);
  (* controls discharge according to their laws at the present heads *)
  sy_or : forall o, (o < o_n (d_or D))%nat -> let O := d_or D in let H := h_H (b_st b) in let z := n_zj (d_net D) (o_Ju O o) + o_z O o in
    exists A_old A, orifice_geometry (d_ocode D o) (i_uo i o) (Rmax (H (o_Ju O o)) (H (o_Jd O o)) - n_zj (d_net D) (o_Ju O o) - o_z O o)
        (d_o1 D o) (d_o2 D o) (d_o3 D o) A_old = Some A /\
      b_Qo b o = orifice_law A (o_C O o) z (o_tau O o * o_ymax O o * i_uo i o) (H (o_Ju O o)) (H (o_Jd O o)) (o_oneway O o);
  sy_we : forall w, (w < w_n (d_we D))%nat -> let W := d_we D in let H := h_H (b_st b) in
    b_Qw b w = weir_law (w_L W w) (w_s W w) (w_Cr W w) (w_Ct W w)
      (n_zj (d_net D) (w_Ju W w) + w_z W w + (1 - i_uw i w) * w_ymax W w) (H (w_Ju W w)) (H (w_Jd W w));
  sy_pu : forall p, (p < p_n (d_pu D))%nat -> let P := d_pu D in let H := h_H (b_st b) in
    let dH := Rmax (p_min P p) (Rmin (p_max P p) (H (p_Jd P p) - H (p_Ju P p))) in
    (H (p_Ju P p) <= n_zj (d_net D) (p_Ju P p) + p_z P p -> b_Qp b p = 0) /\
    (n_zj (d_net D) (p_Ju P p) + p_z P p < H (p_Ju P p) -> 0 <= b_Qp b p /\ p_b P p * fpow (b_Qp b p) (p_c P p) = i_up i p * (p_a P p - dH));
  (* nothing gathers at a junction; prescribed heads are taken *)
  sy_junction : forall j, (j < n_M (d_net D))%nat -> n_bc (d_net D) j = false -> let N := d_net D in
    0 = i_Qin i j
      + sum_if (fun k => Nat.eqb (n_Jd N k) j) (h_Qd (b_st b)) (n_K N) - sum_if (fun k => Nat.eqb (n_Ju N k) j) (h_Qu (b_st b)) (n_K N)
      + (sum_if (fun o => Nat.eqb (o_Jd (d_or D) o) j) (b_Qo b) (o_n (d_or D)) - sum_if (fun o => Nat.eqb (o_Ju (d_or D) o) j) (b_Qo b) (o_n (d_or D)))
      + (sum_if (fun w => Nat.eqb (w_Jd (d_we D) w) j) (b_Qw b) (w_n (d_we D)) - sum_if (fun w => Nat.eqb (w_Ju (d_we D) w) j) (b_Qw b) (w_n (d_we D)))
      + (sum_if (fun p => Nat.eqb (p_Jd (d_pu D) p) j) (b_Qp b) (p_n (d_pu D)) - sum_if (fun p => Nat.eqb (p_Ju (d_pu D) p) j) (b_Qp b) (p_n (d_pu D)));
  sy_prescribed : forall j, (j < n_M (d_net D))%nat -> n_bc (d_net D) j = true -> h_H (b_st b) j = i_Hbc i j }.
