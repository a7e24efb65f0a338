(** Specification vocabulary for whole models: sections that convey water at every positive depth, storages with a
    positive surface, designs and inputs a user may reasonably give. *)
From Verif Require Import Prelude M_Coeffs M_Recurrence M_Step M_Geometry M_Controls M_Model S_Numerics S_Superlink S_Network S_Step.

(** A table of positive values (the first, at the bottom, may be 0). *)
Definition positive_above_bottom (l : list R) : Prop :=
  forall i v, nth_error l i = Some v -> 0 <= v /\ ((0 < i)%nat -> 0 < v).

(** Sections that have a positive area, hydraulic radius and width as soon as there is water.  The elliptical pipe is
    not among them: full, its width is 0 (C09). *)
Definition conveying (c : xsection) : Prop :=
  match c with
  | Regular s =>
      match shape s with
      | 1%nat | 9%nat | 3%nat | 4%nat | 6%nat | 8%nat => 0 < g1 s /\ 0 < g2 s
      | 2%nat => 0 < g1 s /\ 0 < g2 s /\ 0 < g3 s
      | 5%nat => 0 < g1 s /\ 0 <= g2 s /\ 0 <= g3 s /\ 0 < g2 s + g3 s
      | 10%nat => 0 < g1 s /\ 0 <= g2 s /\ 0 <= g3 s /\ 0 <= g4 s /\ 0 <= g5 s /\ 0 <= g6 s /\ 0 <= g7 s /\
                  (0 < g7 s \/ (0 < g5 s /\ 0 < g2 s))
      | _ => False
      end
  | Irregular zs As Bs Pes Rs =>
      ascending zs /\ (2 <= length zs)%nat /\ nth_error zs 0 = Some 0 /\
      length As = length zs /\ length Bs = length zs /\ length Pes = length zs /\ length Rs = length zs /\
      positive_above_bottom As /\ positive_above_bottom Bs /\ positive_above_bottom Rs
  end.

(** Storages with a positive water surface at every positive depth. *)
Definition holding (s : storage) : Prop :=
  match s with
  | Functional a b c => 0 <= a /\ 0 <= c /\ 0 < a + c /\ 0 <= b
  | Tabular hs As => ascending hs /\ hs <> [] /\ length As = length hs /\ (forall i v, nth_error As i = Some v -> 0 < v)
  end.

(** A design on which the solver can be expected to run. *)
Record sound (D : design) : Prop := mkSound {
  sd_wf : well_formed (d_net D);
  sd_z : n_bcm (d_net D) = BCz;
  sd_min : 0 < n_min (d_net D);
  sd_links : forall i, (i < n_L (d_net D))%nat ->
    conveying (d_sec D i) /\ 0 < n_dx (d_net D) i /\ 0 < n_n (d_net D) i /\ (n_sf (d_net D) i <= 1)%nat /\
    (n_ctrl (d_net D) i = true -> 0 <= n_C (d_net D) i /\ n_Ac (d_net D) i <> 0);
  sd_nodes : forall I, (I < n_J (d_net D))%nat -> 0 <= n_ASI (d_net D) I;
  sd_ends : forall k, (k < n_K (d_net D))%nat ->
    0 <= n_dxu (d_net D) k /\ 0 <= n_dxd (d_net D) k /\ 0 <= n_Cu (d_net D) k /\ 0 <= n_Cd (d_net D) k;
  sd_store : forall j, (j < n_M (d_net D))%nat -> holding (d_store D j);
  sd_or : ends_in (n_M (d_net D)) (o_n (d_or D)) (o_Ju (d_or D)) (o_Jd (d_or D)) /\
          (forall o, (o < o_n (d_or D))%nat -> d_ocode D o = 1%nat \/ d_ocode D o = 7%nat -> 0 < d_o1 D o);
  sd_we : ends_in (n_M (d_net D)) (w_n (d_we D)) (w_Ju (d_we D)) (w_Jd (d_we D));
  sd_pu : ends_in (n_M (d_net D)) (p_n (d_pu D)) (p_Ju (d_pu D)) (p_Jd (d_pu D)) /\
          (forall p, (p < p_n (d_pu D))%nat -> 0 < p_b (d_pu D) p /\ 0 < p_c (d_pu D) p /\
              p_min (d_pu D) p <= p_max (d_pu D) p <= p_a (d_pu D) p) }.

(** Inputs: a positive time step, pumps not driven backwards, round orifices not fully closed (closing one raises, C33). *)
Definition admissible (D : design) (i : inputs) (dt : R) : Prop :=
  0 < dt /\ (forall p, (p < p_n (d_pu D))%nat -> 0 <= i_up i p) /\
  (forall o, (o < o_n (d_or D))%nat -> d_ocode D o = 1%nat \/ d_ocode D o = 7%nat -> 0 < i_uo i o).

(** A linear solver for M unknowns: it returns a solution whenever the system has exactly one. *)
Definition solver (M : nat) (slv : mat -> arr -> option arr) : Prop :=
  forall l b, (exists H, solves M l b H) ->
    (forall H H', solves M l b H -> solves M l b H' -> forall j, (j < M)%nat -> H j = H' j) ->
    exists H, slv l b = Some H /\ solves M l b H.

(** Every link holds water at one of its ends at least (depths are never negative). *)
Definition watered (D : design) (st : hstate) : Prop :=
  forall i, (i < n_L (d_net D))%nat -> 0 < h_h st (d_Ik D i) + h_h st (d_Ik D i + 1)%nat.

(** What a user may do with the object. *)
Inductive action : Type :=
| Step (i : inputs) (dt : R) (num_iter : nat) (head_tol : R)
| Save
| Load (t : R) (v : saved)
| Restore.                                (* load what was saved last *)
Definition allowed (D : design) (a : action) : Prop :=
  match a with
  | Step i dt _ _ => admissible D i dt
  | Load _ v => watered D (v_st v)
  | Save | Restore => True
  end.
