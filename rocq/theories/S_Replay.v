(** Specification vocabulary for replaying: states that agree wherever the network has an element, objects that agree in
    everything a user can save plus the indicators of submerged ends. *)
From Verif Require Import Prelude M_Coeffs M_Recurrence M_Step M_Geometry M_Controls M_Simulation M_Model S_Model.

Record same_state (N : network) (st st' : hstate) : Prop := mkSameState {
  st_H : forall j, (j < n_M N)%nat -> h_H st j = h_H st' j;
  st_Qe : forall k, (k < n_K N)%nat -> h_Qu st k = h_Qu st' k /\ h_Qd st k = h_Qd st' k;
  st_h : forall I, (I < n_J N)%nat -> h_h st I = h_h st' I;
  st_Q : forall i, (i < n_L N)%nat -> h_Q st i = h_Q st' i }.

Record alike (D : design) (b b' : body) : Prop := mkAlike {
  al_st : same_state (d_net D) (b_st b) (b_st b');
  al_Qo : forall o, (o < o_n (d_or D))%nat -> b_Qo b o = b_Qo b' o;
  al_Qw : forall w, (w < w_n (d_we D))%nat -> b_Qw b w = b_Qw b' w;
  al_Qp : forall p, (p < p_n (d_pu D))%nat -> b_Qp b p = b_Qp b' p;
  al_thu : forall k, (k < n_K (d_net D))%nat -> b_thu b k = b_thu b' k;
  al_thd : forall k, (k < n_K (d_net D))%nat -> b_thd b k = b_thd b' k }.

(** Index tables of links: both ends are internal junctions, the last link ends a superlink; orifices have a shape. *)
Record tabled (D : design) : Prop := mkTabled {
  tb_Ik : forall i, (i < n_L (d_net D))%nat -> (d_Ik D i + 1 < n_J (d_net D))%nat;
  tb_last : forall i, (i < n_L (d_net D))%nat -> n_lend (d_net D) i = true \/ (i + 1 < n_L (d_net D))%nat;
  tb_or : forall o, (o < o_n (d_or D))%nat -> (1 <= d_ocode D o <= 9)%nat }.

(** Saved states that agree in every field the solver reads back (areas and volumes are recomputed on loading). *)
Record same_saved (D : design) (v v' : saved) : Prop := mkSameSaved {
  sv_st : same_state (d_net D) (v_st v) (v_st v');
  sv_Qo : forall o, (o < o_n (d_or D))%nat -> v_Qo v o = v_Qo v' o;
  sv_Qw : forall w, (w < w_n (d_we D))%nat -> v_Qw v w = v_Qw v' w;
  sv_Qp : forall p, (p < p_n (d_pu D))%nat -> v_Qp v p = v_Qp v' p }.

(** What a user can read: clock, heads, depths, flows and control flows of every element of the network. *)
Record same_view (D : design) (m m' : object) : Prop := mkSameView {
  vw_t : m_t m = m_t m';
  vw_st : same_state (d_net D) (b_st (m_body m)) (b_st (m_body m'));
  vw_Qo : forall o, (o < o_n (d_or D))%nat -> b_Qo (m_body m) o = b_Qo (m_body m') o;
  vw_Qw : forall w, (w < w_n (d_we D))%nat -> b_Qw (m_body m) w = b_Qw (m_body m') w;
  vw_Qp : forall p, (p < p_n (d_pu D))%nat -> b_Qp (m_body m) p = b_Qp (m_body m') p }.

(** A future that does not go back to a state saved before it began. *)
Definition fresh_future (l : list action) : Prop :=
  match l with [] => True | Step _ _ _ _ :: _ | Save :: _ => True | _ => False end.

(** No superlink end lies above the bottom of its junction. *)
Definition level_ends (D : design) : Prop :=
  forall k, (k < n_K (d_net D))%nat ->
    n_zu (d_net D) k <= n_zj (d_net D) (n_Ju (d_net D) k) /\ n_zd (d_net D) k <= n_zj (d_net D) (n_Jd (d_net D) k).
(** No head below the bottom of its junction. *)
Definition afloat (D : design) (st : hstate) : Prop :=
  forall j, (j < n_M (d_net D))%nat -> n_zj (d_net D) j <= h_H st j.
