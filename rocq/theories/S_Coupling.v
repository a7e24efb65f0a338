(** Specification vocabulary for the coupling of the two solvers: networks of open channels, steps in which nothing
    overflows or dries up, water-quality parameters with diffusion, coupled runs. *)
From Verif Require Import Prelude M_Coeffs M_Recurrence M_Assembly M_Step M_Geometry M_Controls M_Simulation M_Model M_Quality M_Coupling
  S_Network S_Step S_Object S_Quality.

(** Every link is an open rectangular channel; link j of a superlink joins its internal junctions j and j + 1. *)
Definition open_channels (D : design) : Prop :=
  forall i, (i < n_L (d_net D))%nat -> exists s, d_sec D i = Regular s /\ shape s = 3%nat.
Definition links_join (D : design) : Prop :=
  forall k j, (k < n_K (d_net D))%nat -> (j < n_nk (d_net D) k)%nat -> d_Ik D (n_i1 (d_net D) k + j)%nat = (n_I1 (d_net D) k + j)%nat.
Definition uncontrolled (D : design) : Prop := o_n (d_or D) = 0%nat /\ w_n (d_we D) = 0%nat /\ p_n (d_pu D) = 0%nat.

(** The water does not overtop the walls of a channel; the ends of all superlinks are under water. *)
Definition within_walls (D : design) (st : hstate) : Prop :=
  forall i s, (i < n_L (d_net D))%nat -> d_sec D i = Regular s -> (h_h st (d_Ik D i) + h_h st (d_Ik D i + 1)%nat) / 2 <= g1 s.
Definition ends_covered (N : network) (st : hstate) : Prop :=
  forall k, (k < n_K N)%nat -> n_zu N k <= h_H st (n_Ju N k) /\ n_zd N k <= h_H st (n_Jd N k).

(** A hydraulic step from [m] to [m'] in which no limit is active. *)
Record undisturbed (D : design) (m m' : object) : Prop := mkUndisturbed {
  ud_walls : within_walls D (b_st (m_body m));
  ud_ends : ends_covered (d_net D) (b_st (m_body m));
  ud_heads : heads_free (d_net D) (b_st (m_body m'));
  ud_depths : depths_inside (d_net D) (b_cf (m_body m')) (b_st (m_body m')) }.

(** Water-quality parameters: diffusion everywhere, no negative reaction rate; concentrations are prescribed at least
    where heads are (the hydraulic model makes no balance there). *)
Record mixing (N : network) (P : wq_par) : Prop := mkMixing {
  mx_u : forall k, (k < n_K N)%nat -> 0 < p_Du P k /\ 0 < p_Dd P k /\ 0 < n_dxu N k /\ 0 < n_dxd N k;
  mx_i : forall i, (i < n_L N)%nat -> 0 < p_D P i /\ 0 <= p_Ki P i;
  mx_I : forall I, (I < n_J N)%nat -> 0 <= p_KI P I;
  mx_j : forall j, (j < n_M N)%nat -> 0 <= p_Kj P j;
  mx_bc : forall j, (j < n_M N)%nat -> n_bc N j = true -> p_bc P j = true }.

(** Inputs of a coupled step: inflows, none of them negative, with concentrations in [lo, hi]. *)
Definition supply (N : network) (P : wq_par) (lo hi : R) (i : inputs) (x : doses) : Prop :=
  (forall j, (j < n_M N)%nat -> 0 <= i_Qin i j) /\ (forall I, (I < n_J N)%nat -> 0 <= i_Q0 i I) /\
  inputs_within N P lo hi (x_bc x) (x_0j x) (x_0I x).

(** Coupled runs with one hydraulic pass per step (the default), every hydraulic step of which satisfies [ok]. *)
Inductive coupled_run (D : design) (slv : mat -> arr -> option arr) (P : wq_par) (ok : object -> object -> Prop) :
  list (inputs * doses * R) -> object -> wq_obj -> object -> wq_obj -> Prop :=
| run_nil m o : coupled_run D slv P ok nil m o m o
| run_cons i x dt l tol m o m1 o1 m2 o2 :
    coupled_step D slv P i x dt 1 tol m o m1 o1 -> ok m m1 -> coupled_run D slv P ok l m1 o1 m2 o2 ->
    coupled_run D slv P ok (cons (i, x, dt) l) m o m2 o2.
