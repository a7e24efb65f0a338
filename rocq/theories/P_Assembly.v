(** Properties C22-C25: the linear system for the junction heads. *)
From Verif Require Import Prelude M_Coeffs M_Recurrence M_Assembly S_Network L_Assembly.

(** The elements of the network as the specification sees them. *)
Definition superlink_elements (K : superlinks) : elements :=
  mkElements (k_n K) (k_Ju K) (k_Jd K)
    (fun k H => k_au K k * H (k_Ju K k) + k_bu K k * H (k_Jd K k) + k_cu K k)
    (fun k H => k_ad K k * H (k_Ju K k) + k_bd K k * H (k_Jd K k) + k_cd K k).
Definition control_elements (C : controls) : elements :=
  mkElements (c_n C) (c_Ju C) (c_Jd C)
    (fun k H => c_a C k * H (c_Ju C k) + c_b C k * H (c_Jd C k) + c_c C k)
    (fun k H => c_a C k * H (c_Ju C k) + c_b C k * H (c_Jd C k) + c_c C k).

(** Two sets of inputs describe the same network (only coefficients, areas, heads, ... differ). *)
Definition same_network (K K' : superlinks) (C C' : list controls) : Prop :=
  k_n K' = k_n K /\ k_Ju K' = k_Ju K /\ k_Jd K' = k_Jd K /\
  map c_n C' = map c_n C /\ map c_Ju C' = map c_Ju C /\ map c_Jd C' = map c_Jd C.

(** States of the model object: all-zero arrays, then any number of assemblies for the same network with any
    coefficients, areas, heads, inflows and time steps. *)
Inductive reachable (M : nat) (bc : nat -> bool) (K : superlinks) (CO CW CP : controls) : system -> Prop :=
| reach_fresh : reachable M bc K CO CW CP fresh_system
| reach_step : forall s K' CO' CW' CP' A_sj H_prev H_bc Q_0j dt,
    reachable M bc K CO CW CP s -> same_network K K' [CO; CW; CP] [CO'; CW'; CP'] ->
    reachable M bc K CO CW CP (sparse_matrix_equations M bc K' CO' CW' CP' A_sj H_prev H_bc Q_0j dt s).

Lemma reachable_clean M bc K CO CW CP s :
  reachable M bc K CO CW CP s -> clean_system M bc K CO CW CP s.
Proof.
  induction 1 as [|s K' CO' CW' CP' A_sj H_prev H_bc Q_0j dt Hr IH Hs].
  - apply fresh_clean.
  - destruct Hs as (En & Eu & Ed & E1 & E2 & E3). simpl in E1, E2, E3.
    injection E1 as n1 n2 n3. injection E2 as u1 u2 u3. injection E3 as d1 d2 d3.
    assert (Hc : clean_system M bc K' CO' CW' CP' s).
    { unfold clean_system in *. rewrite En, Eu, Ed, n1, n2, n3, u1, u2, u3, d1, d2, d3. exact IH. }
    pose proof (assembly_ok M bc K' CO' CW' CP' A_sj H_prev H_bc Q_0j dt s Hc) as [Hc' _].
    unfold clean_system in *. rewrite En, Eu, Ed, n1, n2, n3, u1, u2, u3, d1, d2, d3 in Hc'. exact Hc'.
Qed.

Section Statements.
  Variables (M : nat) (bc : nat -> bool) (K : superlinks) (CO CW CP : controls).
  Variables (A_sj H_prev H_bc Q_0j : arr) (dt : R).
  Definition assembled (s : system) : system :=
    sparse_matrix_equations M bc K CO CW CP A_sj H_prev H_bc Q_0j dt s.
  Definition matrix (s : system) : mat := system_matrix (c_n CO) (c_n CW) (c_n CP) (assembled s).
  Definition network_ok : Prop :=
    ends_in M (k_n K) (k_Ju K) (k_Jd K) /\ ends_in M (c_n CO) (c_Ju CO) (c_Jd CO) /\
    ends_in M (c_n CW) (c_Ju CW) (c_Jd CW) /\ ends_in M (c_n CP) (c_Ju CP) (c_Jd CP).
End Statements.

(** Product of a row of the solved matrix with a head vector. *)
Lemma matrix_row M bc K CO CW CP A_sj H_prev H_bc Q_0j dt s H j :
  reachable M bc K CO CW CP s -> network_ok M K CO CW CP -> (j < M)%nat ->
  sum_n (fun i => matrix M bc K CO CW CP A_sj H_prev H_bc Q_0j dt s j i * H i) M
  = if bc j then H j else
    diag_A K A_sj dt j * H j
    + sum_if (fun k => Nat.eqb (k_Ju K k) j) (fun k => k_bu K k * H (k_Jd K k)) (k_n K)
    - sum_if (fun k => Nat.eqb (k_Jd K k) j) (fun k => k_ad K k * H (k_Ju K k)) (k_n K)
    + (diag_C CO j * H j
       + sum_if (fun k => Nat.eqb (c_Ju CO k) j) (fun k => c_b CO k * H (c_Jd CO k)) (c_n CO)
       - sum_if (fun k => Nat.eqb (c_Jd CO k) j) (fun k => c_a CO k * H (c_Ju CO k)) (c_n CO))
    + (diag_C CW j * H j
       + sum_if (fun k => Nat.eqb (c_Ju CW k) j) (fun k => c_b CW k * H (c_Jd CW k)) (c_n CW)
       - sum_if (fun k => Nat.eqb (c_Jd CW k) j) (fun k => c_a CW k * H (c_Ju CW k)) (c_n CW))
    + (diag_C CP j * H j
       + sum_if (fun k => Nat.eqb (c_Ju CP k) j) (fun k => c_b CP k * H (c_Jd CP k)) (c_n CP)
       - sum_if (fun k => Nat.eqb (c_Jd CP k) j) (fun k => c_a CP k * H (c_Ju CP k)) (c_n CP)).
Proof.
  intros Hr (N1 & N2 & N3 & N4) Hj. apply reachable_clean in Hr.
  destruct (assembly_ok M bc K CO CW CP A_sj H_prev H_bc Q_0j dt s Hr) as (Hc & He & _).
  unfold matrix. fold (assembled M bc K CO CW CP A_sj H_prev H_bc Q_0j dt s) in *.
  rewrite (sum_n_ext _ (fun i =>
      entry bc 1 (diag_A K A_sj dt) (k_Ju K) (k_Jd K) (k_ad K) (k_bu K) (k_n K) j i * H i
      + entry bc 0 (diag_C CO) (c_Ju CO) (c_Jd CO) (c_a CO) (c_b CO) (c_n CO) j i * H i
      + entry bc 0 (diag_C CW) (c_Ju CW) (c_Jd CW) (c_a CW) (c_b CW) (c_n CW) j i * H i
      + entry bc 0 (diag_C CP) (c_Ju CP) (c_Jd CP) (c_a CP) (c_b CP) (c_n CP) j i * H i)).
  2:{ intros i Hi. rewrite (matrix_entry M bc K) by exact Hc.
      destruct (He j i Hj) as (-> & -> & -> & ->). ring. }
  rewrite !sum_n_plus, !entry_row by auto. destruct (bc j); lra.
Qed.

(** The two ends of a family of elements, expanded. *)
Lemma net_superlinks K H j :
  net_inflow (superlink_elements K) H j
  = sum_if (fun k => Nat.eqb (k_Jd K k) j) (fun k => k_ad K k * H (k_Ju K k)) (k_n K)
    + sum_if (fun k => Nat.eqb (k_Jd K k) j) (k_bd K) (k_n K) * H j
    + sum_if (fun k => Nat.eqb (k_Jd K k) j) (k_cd K) (k_n K)
    - (sum_if (fun k => Nat.eqb (k_Ju K k) j) (k_au K) (k_n K) * H j
       + sum_if (fun k => Nat.eqb (k_Ju K k) j) (fun k => k_bu K k * H (k_Jd K k)) (k_n K)
       + sum_if (fun k => Nat.eqb (k_Ju K k) j) (k_cu K) (k_n K)).
Proof.
  unfold net_inflow; simpl. rewrite <- !sum_if_scal_r, <- !sum_if_plus.
  f_equal; apply sum_if_ext; intros k Hk; split; auto; intros E; apply Nat.eqb_eq in E; subst; reflexivity.
Qed.
Lemma net_controls C H j :
  net_inflow (control_elements C) H j
  = sum_if (fun k => Nat.eqb (c_Jd C k) j) (fun k => c_a C k * H (c_Ju C k)) (c_n C)
    + sum_if (fun k => Nat.eqb (c_Jd C k) j) (c_b C) (c_n C) * H j
    + sum_if (fun k => Nat.eqb (c_Jd C k) j) (c_c C) (c_n C)
    - (sum_if (fun k => Nat.eqb (c_Ju C k) j) (c_a C) (c_n C) * H j
       + sum_if (fun k => Nat.eqb (c_Ju C k) j) (fun k => c_b C k * H (c_Jd C k)) (c_n C)
       + sum_if (fun k => Nat.eqb (c_Ju C k) j) (c_c C) (c_n C)).
Proof.
  unfold net_inflow; simpl. rewrite <- !sum_if_scal_r, <- !sum_if_plus.
  f_equal; apply sum_if_ext; intros k Hk; split; auto; intros E; apply Nat.eqb_eq in E; subst; reflexivity.
Qed.

(** Residual of a row as residual of the water balance. *)
Lemma row_residual M bc K CO CW CP A_sj H_prev H_bc Q_0j dt s H j :
  reachable M bc K CO CW CP s -> network_ok M K CO CW CP -> dt <> 0 -> (j < M)%nat -> bc j = false ->
  sum_n (fun i => matrix M bc K CO CW CP A_sj H_prev H_bc Q_0j dt s j i * H i) M
  - s_b (assembled M bc K CO CW CP A_sj H_prev H_bc Q_0j dt s) j
  = attached_area A_sj (k_n K) (k_Ju K) (k_Jd K) (k_dxu K) (k_Bu K) (k_thu K) (k_dxd K) (k_Bd K) (k_thd K) j
      * (H j - H_prev j) / dt
    - (Q_0j j + net_inflow (superlink_elements K) H j + net_inflow (control_elements CO) H j
       + net_inflow (control_elements CW) H j + net_inflow (control_elements CP) H j).
Proof.
  intros Hr Hn Hdt Hj Hb. rewrite matrix_row by auto. rewrite Hb.
  apply reachable_clean in Hr.
  destruct (assembly_ok M bc K CO CW CP A_sj H_prev H_bc Q_0j dt s Hr) as (_ & _ & Eb).
  unfold assembled. rewrite Eb, Hb. rewrite net_superlinks, !net_controls.
  unfold diag_A, diag_C, rhs_K, rhs_C, attached_area.
  rewrite !sum_if_plus, !sum_if_opp.
  rewrite (sum_if_ext _ (fun k => Nat.eqb (k_Ju K k) j) (fun k => xi_u K dt k * H_prev (k_Ju K k))
             (fun k => xi_u K dt k * H_prev j))
    by (intros k _; split; auto; intros E; apply Nat.eqb_eq in E; now rewrite E).
  rewrite (sum_if_ext _ (fun k => Nat.eqb (k_Jd K k) j) (fun k => xi_d K dt k * H_prev (k_Jd K k))
             (fun k => xi_d K dt k * H_prev j))
    by (intros k _; split; auto; intros E; apply Nat.eqb_eq in E; now rewrite E).
  rewrite !sum_if_scal_r.
  rewrite (sum_if_ext _ (fun k => Nat.eqb (k_Ju K k) j) (xi_u K dt)
             (fun k => k_dxu K k * k_Bu K k * k_thu K k / 2 * / dt))
    by (intros k _; split; auto; intros _; unfold xi_u, xi; field; auto).
  rewrite (sum_if_ext _ (fun k => Nat.eqb (k_Jd K k) j) (xi_d K dt)
             (fun k => k_dxd K k * k_Bd K k * k_thd K k / 2 * / dt))
    by (intros k _; split; auto; intros _; unfold xi_d, xi; field; auto).
  rewrite !sum_if_scal_r. field. auto.
Qed.

(** ** C22  Each row is the junction's water balance *)

(** For every junction without boundary condition: a head vector satisfies the junction's row of the solved
    system iff (water surface attached to the junction) * (head change) / dt equals external inflow plus the net
    flow that superlinks, orifices, weirs and pumps bring there.  Any topology: parallel elements, elements in both
    directions, several families on the same pair of junctions, self-loops; any history of earlier assemblies. *)
Theorem C22_row_is_water_balance :
  forall M bc K CO CW CP A_sj H_prev H_bc Q_0j dt s H j,
  reachable M bc K CO CW CP s -> network_ok M K CO CW CP -> dt <> 0 -> (j < M)%nat -> bc j = false ->
  (row_holds M (matrix M bc K CO CW CP A_sj H_prev H_bc Q_0j dt s)
               (s_b (assembled M bc K CO CW CP A_sj H_prev H_bc Q_0j dt s)) H j
   <->
   attached_area A_sj (k_n K) (k_Ju K) (k_Jd K) (k_dxu K) (k_Bu K) (k_thu K) (k_dxd K) (k_Bd K) (k_thd K) j
     * (H j - H_prev j) / dt
   = Q_0j j + net_inflow (superlink_elements K) H j + net_inflow (control_elements CO) H j
     + net_inflow (control_elements CW) H j + net_inflow (control_elements CP) H j).
Proof.
  intros. unfold row_holds.
  pose proof (row_residual M bc K CO CW CP A_sj H_prev H_bc Q_0j dt s H j) as E.
  specialize (E ltac:(auto) ltac:(auto) ltac:(auto) ltac:(auto) ltac:(auto)). lra.
Qed.

(** ** C23  Boundary junctions *)

(** A boundary junction's row is the identity row and its right-hand side the prescribed head, so every solution
    takes exactly that head, whatever is attached to it and whatever was assembled before. *)
Theorem C23_boundary_row_prescribes_head :
  forall M bc K CO CW CP A_sj H_prev H_bc Q_0j dt s j,
  reachable M bc K CO CW CP s -> network_ok M K CO CW CP -> (j < M)%nat -> bc j = true ->
  (forall i, (i < M)%nat ->
     matrix M bc K CO CW CP A_sj H_prev H_bc Q_0j dt s j i = if Nat.eqb j i then 1 else 0) /\
  (forall H, row_holds M (matrix M bc K CO CW CP A_sj H_prev H_bc Q_0j dt s)
               (s_b (assembled M bc K CO CW CP A_sj H_prev H_bc Q_0j dt s)) H j <-> H j = H_bc j).
Proof.
  intros M bc K CO CW CP A_sj H_prev H_bc Q_0j dt s j Hr Hn Hj Hb.
  split.
  - intros i Hi. apply reachable_clean in Hr.
    destruct (assembly_ok M bc K CO CW CP A_sj H_prev H_bc Q_0j dt s Hr) as (Hc & He & _).
    unfold matrix. unfold assembled. rewrite (matrix_entry M bc K) by exact Hc.
    destruct (He j i Hj) as (-> & -> & -> & ->). unfold entry. rewrite Hb.
    destruct (Nat.eqb j i); lra.
  - intros H. unfold row_holds. rewrite matrix_row by auto. rewrite Hb.
    apply reachable_clean in Hr.
    destruct (assembly_ok M bc K CO CW CP A_sj H_prev H_bc Q_0j dt s Hr) as (_ & _ & Eb).
    unfold assembled. rewrite Eb, Hb. reflexivity.
Qed.

(** ** C24  No memory of earlier assemblies *)

Theorem C24_assembly_is_history_independent :
  forall M bc K CO CW CP A_sj H_prev H_bc Q_0j dt s,
  reachable M bc K CO CW CP s ->
  (forall i j, (i < M)%nat ->
     matrix M bc K CO CW CP A_sj H_prev H_bc Q_0j dt s i j
     = matrix M bc K CO CW CP A_sj H_prev H_bc Q_0j dt fresh_system i j) /\
  (forall j, s_b (assembled M bc K CO CW CP A_sj H_prev H_bc Q_0j dt s) j
             = s_b (assembled M bc K CO CW CP A_sj H_prev H_bc Q_0j dt fresh_system) j).
Proof.
  intros M bc K CO CW CP A_sj H_prev H_bc Q_0j dt s Hr.
  apply reachable_clean in Hr. pose proof (fresh_clean M bc K CO CW CP) as Hf.
  destruct (assembly_ok M bc K CO CW CP A_sj H_prev H_bc Q_0j dt s Hr) as (Hc & He & Eb).
  destruct (assembly_ok M bc K CO CW CP A_sj H_prev H_bc Q_0j dt _ Hf) as (Hc' & He' & Eb').
  split.
  - intros i j Hi. unfold matrix, assembled.
    rewrite (matrix_entry M bc K) by exact Hc. rewrite (matrix_entry M bc K) by exact Hc'.
    destruct (He i j Hi) as (-> & -> & -> & ->). destruct (He' i j Hi) as (-> & -> & -> & ->). reflexivity.
  - intros j. unfold assembled. now rewrite Eb, Eb'.
Qed.

(** ** C25  Controls move water, they do not create it *)

Lemma net_controls_total M C H :
  ends_in M (c_n C) (c_Ju C) (c_Jd C) -> sum_n (fun j => net_inflow (control_elements C) H j) M = 0.
Proof.
  intros HE. unfold net_inflow. rewrite sum_n_minus.
  rewrite !sum_if_total by (intros; now apply HE). simpl. lra.
Qed.

(** No controls of a kind. *)
Definition no_controls : controls := mkControls 0 (fun _ => 0%nat) (fun _ => 0%nat) zeros zeros zeros.

(** Without boundary junctions, the sum of all rows of the solved system is the same with and without the orifices,
    weirs and pumps: for any heads, what a control takes from one junction it gives to another. *)
Theorem C25_controls_conserve_water :
  forall M bc K CO CW CP A_sj H_prev H_bc Q_0j dt s H,
  reachable M bc K CO CW CP s -> network_ok M K CO CW CP -> dt <> 0 ->
  (forall j, (j < M)%nat -> bc j = false) ->
  sum_n (fun j => sum_n (fun i => matrix M bc K CO CW CP A_sj H_prev H_bc Q_0j dt s j i * H i) M
                  - s_b (assembled M bc K CO CW CP A_sj H_prev H_bc Q_0j dt s) j) M
  = sum_n (fun j => sum_n (fun i => matrix M bc K no_controls no_controls no_controls
                                      A_sj H_prev H_bc Q_0j dt fresh_system j i * H i) M
                    - s_b (assembled M bc K no_controls no_controls no_controls
                             A_sj H_prev H_bc Q_0j dt fresh_system) j) M.
Proof.
  intros M bc K CO CW CP A_sj H_prev H_bc Q_0j dt s H Hr Hn Hdt Hb.
  assert (Hn0 : network_ok M K no_controls no_controls no_controls).
  { destruct Hn as [Hn _]. split; [exact Hn|]. unfold ends_in; simpl. repeat split; intros; lia. }
  rewrite (sum_n_ext _ (fun j =>
     (attached_area A_sj (k_n K) (k_Ju K) (k_Jd K) (k_dxu K) (k_Bu K) (k_thu K) (k_dxd K) (k_Bd K) (k_thd K) j
      * (H j - H_prev j) / dt - (Q_0j j + net_inflow (superlink_elements K) H j))
     - net_inflow (control_elements CO) H j - net_inflow (control_elements CW) H j
     - net_inflow (control_elements CP) H j)).
  2:{ intros j Hj. rewrite row_residual by auto. lra. }
  symmetry.
  rewrite (sum_n_ext _ (fun j =>
     (attached_area A_sj (k_n K) (k_Ju K) (k_Jd K) (k_dxu K) (k_Bu K) (k_thu K) (k_dxd K) (k_Bd K) (k_thd K) j
      * (H j - H_prev j) / dt - (Q_0j j + net_inflow (superlink_elements K) H j)))).
  2:{ intros j Hj. rewrite row_residual by (auto; constructor). unfold net_inflow; simpl.
      rewrite !sum_if_O. lra. }
  rewrite !sum_n_minus. destruct Hn as (_ & N2 & N3 & N4).
  rewrite !net_controls_total by auto. lra.
Qed.

(** ** A concrete network meeting the hypotheses of C22-C25 *)

(** Three junctions (the last one a boundary), two parallel superlinks 0 -> 1 in opposite directions, a superlink
    1 -> 2, an orifice and a weir in parallel 0 -> 1, a pump 1 -> 0. *)
Definition ex_K : superlinks :=
  mkSuperlinks 3 (fun k => match k with 0 => 0 | 1 => 1 | _ => 1 end)%nat
                 (fun k => match k with 0 => 1 | 1 => 0 | _ => 2 end)%nat
    (fun _ => 2) (fun _ => -1) (fun _ => 1) (fun _ => 1) (fun _ => -2) (fun _ => 1)
    (fun _ => 10) (fun _ => 1) (fun _ => 1) (fun _ => 10) (fun _ => 1) (fun _ => 0).
Definition ex_C (u d : nat) (a : R) : controls :=
  mkControls 1 (fun _ => u) (fun _ => d) (fun _ => a) (fun _ => - a) (fun _ => 1 / 2).
Definition ex_bc : nat -> bool := fun j => Nat.eqb j 2.

Example C22_C25_example_network :
  let s := sparse_matrix_equations 3 ex_bc ex_K (ex_C 0 1 1) (ex_C 0 1 (1 / 2)) (ex_C 1 0 3)
             (fun _ => 5) (fun _ => 7) (fun _ => 1) zeros 1 fresh_system in
  reachable 3 ex_bc ex_K (ex_C 0 1 1) (ex_C 0 1 (1 / 2)) (ex_C 1 0 3) s /\
  network_ok 3 ex_K (ex_C 0 1 1) (ex_C 0 1 (1 / 2)) (ex_C 1 0 3) /\
  s_A s 0%nat 1%nat = -2 /\ s_O s 0%nat 1%nat = -1 /\ s_A s 2%nat 1%nat = 0.
Proof.
  intros s.
  assert (Hr : reachable 3 ex_bc ex_K (ex_C 0 1 1) (ex_C 0 1 (1 / 2)) (ex_C 1 0 3) s).
  { apply reach_step; [constructor|]. repeat split. }
  assert (N : network_ok 3 ex_K (ex_C 0 1 1) (ex_C 0 1 (1 / 2)) (ex_C 1 0 3)).
  { unfold network_ok, ends_in; simpl. repeat split; intros; try lia;
      destruct k as [|[|[|k]]]; simpl; lia. }
  split; [exact Hr|]. split; [exact N|].
  destruct (assembly_ok 3 ex_bc ex_K (ex_C 0 1 1) (ex_C 0 1 (1 / 2)) (ex_C 1 0 3)
              (fun _ => 5) (fun _ => 7) (fun _ => 1) zeros 1 fresh_system
              (fresh_clean _ _ _ _ _ _)) as (_ & He & _).
  fold s in He.
  destruct (He 0%nat 1%nat ltac:(lia)) as (-> & -> & _).
  destruct (He 2%nat 1%nat ltac:(lia)) as (-> & _).
  unfold entry, sum_if; simpl. repeat split; lra.
Qed.

(** Limit of C24: the boundary flags must stay what they were.  If a flag is switched on after an assembly, the
    junction's old connections stay in its row. *)
Example C24_switching_a_boundary_flag_on_leaves_old_entries :
  let K := mkSuperlinks 1 (fun _ => 0%nat) (fun _ => 1%nat) (fun _ => 2) (fun _ => -1) zeros (fun _ => 1) (fun _ => -2) zeros
             zeros zeros zeros zeros zeros zeros in
  let asm bc := sparse_matrix_equations 2 bc K no_controls no_controls no_controls (fun _ => 1) zeros zeros zeros 1 in
  s_A (asm (fun j => Nat.eqb j 0) (asm (fun _ => false) fresh_system)) 0%nat 1%nat = -1.
Proof.
  cbv [sparse_matrix_equations numba_create_A_matrix numba_clear_off_diagonals add_off_diagonals set_diagonal
       assemble_controls no_controls c_n k_n k_Ju k_Jd k_bu k_ad fresh_system s_A for_n upd2 Nat.eqb negb andb zeros2].
  lra.
Qed.
