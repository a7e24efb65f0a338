(** Theorems C57 (mass balance of the network) and the limits of C49 (no diffusion). *)
From Verif Require Import Prelude M_Coeffs M_Recurrence M_Assembly M_Step M_Quality S_Superlink S_Network S_Step S_Quality
  L_Forward L_Assembly L_Step L_Sweep L_Quality L_QualityStep L_QualityNet L_QualityMax L_Square L_QualitySolve P_Superlink P_Step P_Quality.

(** ** Totals over the network *)
Definition total (N : network) (sj : arr) (sp sn : nat -> arr) : R :=
  sum_n sj (n_M N) + sum_n (fun k => sum_n (sp k) (n_nk N k + 2) + sum_n (sn k) (n_nk N k + 1)) (n_K N).

(** Constituent mass held by superjunctions, links and end pieces, and junctions: volumes at the end ([next] = true)
    or at the start of the step. *)
Definition vol_j (F : wq_flow) (next : bool) (j : nat) : R := if next then f_V F j else f_Vp F j.
Definition vol_p (N : network) (F : wq_flow) (next : bool) (k j : nat) : R :=
  along (n_nk N k) (n_i1 N k) (n_dxu N) (n_dx N) (n_dxd N) k j *
  (if next then along (n_nk N k) (n_i1 N k) (f_Au F) (f_A F) (f_Ad F) k j
   else along (n_nk N k) (n_i1 N k) (f_Aup F) (f_Ap F) (f_Adp F) k j).
Definition vol_n (N : network) (F : wq_flow) (next : bool) (k j : nat) : R :=
  n_ASI N (n_I1 N k + j)%nat * (if next then f_h F (n_I1 N k + j)%nat else f_hp F (n_I1 N k + j)%nat).
Definition mass (N : network) (F : wq_flow) (next : bool) (c : wq_state) : R :=
  total N (fun j => vol_j F next j * c_j c j) (fun k j => vol_p N F next k j * pieces_of N c k j)
          (fun k j => vol_n N F next k j * junctions_of N c k j).
(** Inflow and reaction rates. *)
Definition inflow (N : network) (c_0j Q_0j c_0I Q_0I : arr) : R :=
  total N (fun j => Q_0j j * c_0j j) (fun _ _ => 0) (fun k j => Q_0I (n_I1 N k + j)%nat * c_0I (n_I1 N k + j)%nat).
Definition reaction (N : network) (P : wq_par) (F : wq_flow) (c : wq_state) : R :=
  total N (fun j => p_Kj P j * vol_j F true j * c_j c j)
          (fun k j => along (n_nk N k) (n_i1 N k) (fun _ => 0) (p_Ki P) (fun _ => 0) k j * vol_p N F true k j * pieces_of N c k j)
          (fun k j => p_KI P (n_I1 N k + j)%nat * vol_n N F true k j * junctions_of N c k j).
(** Change of volume times change of concentration. *)
Definition cross (N : network) (F : wq_flow) (c c' : wq_state) : R :=
  total N (fun j => (vol_j F true j - vol_j F false j) * (c_j c' j - c_j c j))
          (fun k j => (vol_p N F true k j - vol_p N F false k j) * (pieces_of N c' k j - pieces_of N c k j))
          (fun k j => (vol_n N F true k j - vol_n N F false k j) * (junctions_of N c' k j - junctions_of N c k j)).

Lemma total_ext N sj sp sn sj' sp' sn' :
  (forall j, (j < n_M N)%nat -> sj j = sj' j) ->
  (forall k j, (k < n_K N)%nat -> (j <= n_nk N k + 1)%nat -> sp k j = sp' k j) ->
  (forall k j, (k < n_K N)%nat -> (j <= n_nk N k)%nat -> sn k j = sn' k j) ->
  total N sj sp sn = total N sj' sp' sn'.
Proof.
  intros H1 H2 H3. unfold total. f_equal; [apply sum_n_ext; auto|].
  apply sum_n_ext. intros k Hk. f_equal; apply sum_n_ext; intros; [apply H2|apply H3]; auto; lia.
Qed.
Lemma total_plus N a b c a' b' c' :
  total N (fun j => a j + a' j) (fun k j => b k j + b' k j) (fun k j => c k j + c' k j) = total N a b c + total N a' b' c'.
Proof.
  unfold total. rewrite sum_n_plus.
  rewrite (sum_n_ext (fun k => sum_n (fun j => b k j + b' k j) _ + sum_n (fun j => c k j + c' k j) _)
    (fun k => (sum_n (b k) (n_nk N k + 2) + sum_n (c k) (n_nk N k + 1)) + (sum_n (b' k) (n_nk N k + 2) + sum_n (c' k) (n_nk N k + 1))))
    by (intros; rewrite !sum_n_plus; lra).
  rewrite sum_n_plus. lra.
Qed.
Lemma total_scal N x a b c : total N (fun j => x * a j) (fun k j => x * b k j) (fun k j => x * c k j) = x * total N a b c.
Proof.
  unfold total. rewrite Rmult_plus_distr_l, <- !sum_n_scal. f_equal. apply sum_n_ext. intros. rewrite !sum_n_scal. ring.
Qed.

(** Fluxes along a chain telescope. *)
Lemma chain_telescope (up dn : arr) n :
  sum_n (fun j => up j - dn j) (n + 2) + sum_n (fun j => dn j - up (S j)) (n + 1) = up 0%nat - dn (S n).
Proof.
  induction n as [|n IH]; simpl; [lra|].
  replace (n + 2)%nat with (S (S n)) in * by lia. replace (n + 1)%nat with (S n) in * by lia.
  simpl in *. lra.
Qed.

Lemma controls_total C Q v M : ends_in M (t_n C) (t_Ju C) (t_Jd C) -> sum_n (fun j => controls_net C Q v j) M = 0.
Proof.
  intros He. unfold controls_net. rewrite sum_n_minus.
  rewrite !sum_if_total by (intros m Hm; now apply He). lra.
Qed.

(** Mass balance of the step's equations: without prescribed concentrations the stored mass changes by what flows in,
    less what reacts, less the cross term of the linearised storage. *)
Theorem C57_mass_balance N P CO CW CP F c c_bc c_0j Q_0j c_0I Q_0I dt c' :
  dt <> 0 -> q_ends_in N CO CW CP -> (forall j, (j < n_M N)%nat -> p_bc P j = false) ->
  network_transport N P CO CW CP F c c_bc c_0j Q_0j c_0I Q_0I dt c' ->
  mass N F true c' - mass N F false c
  = dt * (inflow N c_0j Q_0j c_0I Q_0I - reaction N P F c') - cross N F c c'.
Proof.
  intros Hdt (E1 & E2 & E3 & E4) Hb [TJ TC].
  (* every storage term *)
  assert (ST : forall V Vp x xp, dt * storage V Vp x xp dt = V * x - Vp * xp + (V - Vp) * (x - xp)).
  { intros. unfold storage. field. auto. }
  pose (C := fun k => superlink_chain N P F c c_0I Q_0I k).
  pose (up := fun k j => face (ch_Qup (C k) j) (left_of (c_j c' (n_Ju N k)) (junctions_of N c' k) j) (pieces_of N c' k j)
                              (ch_D (C k) j) (ch_A (C k) j) (ch_dx (C k) j)).
  pose (dn := fun k j => face (ch_Qdn (C k) j) (pieces_of N c' k j) (right_of (n_nk N k) (c_j c' (n_Jd N k)) (junctions_of N c' k) j)
                              (ch_D (C k) j) (ch_A (C k) j) (ch_dx (C k) j)).
  pose (ju := fun j => sum_if (fun k => Nat.eqb (n_Jd N k) j) (fun k => dn k (S (n_nk N k))) (n_K N)
                       - sum_if (fun k => Nat.eqb (n_Ju N k) j) (fun k => up k 0%nat) (n_K N)
                       + controls_net CO (f_Qo F) (c_j c') j + controls_net CW (f_Qw F) (c_j c') j + controls_net CP (f_Qp F) (c_j c') j).
  assert (Z : total N ju (fun k j => up k j - dn k j) (fun k j => dn k j - up k (S j)) = 0).
  { unfold total, ju.
    rewrite (sum_n_ext (fun k => sum_n (fun j => up k j - dn k j) (n_nk N k + 2) + sum_n (fun j => dn k j - up k (S j)) (n_nk N k + 1))
      (fun k => up k 0%nat - dn k (S (n_nk N k)))) by (intros; apply chain_telescope).
    rewrite !sum_n_plus, !sum_n_minus, !controls_total by auto.
    rewrite !sum_if_total by (intros k Hk; now apply E1). lra. }
  assert (G : total N
     (fun j => (vol_j F true j * c_j c' j + -1 * (vol_j F false j * c_j c j)) + (vol_j F true j - vol_j F false j) * (c_j c' j - c_j c j)
               + dt * (p_Kj P j * vol_j F true j * c_j c' j) + - dt * (Q_0j j * c_0j j))
     (fun k j => (vol_p N F true k j * pieces_of N c' k j + -1 * (vol_p N F false k j * pieces_of N c k j))
               + (vol_p N F true k j - vol_p N F false k j) * (pieces_of N c' k j - pieces_of N c k j)
               + dt * (along (n_nk N k) (n_i1 N k) (fun _ => 0) (p_Ki P) (fun _ => 0) k j * vol_p N F true k j * pieces_of N c' k j)
               + - dt * 0)
     (fun k j => (vol_n N F true k j * junctions_of N c' k j + -1 * (vol_n N F false k j * junctions_of N c k j))
               + (vol_n N F true k j - vol_n N F false k j) * (junctions_of N c' k j - junctions_of N c k j)
               + dt * (p_KI P (n_I1 N k + j)%nat * vol_n N F true k j * junctions_of N c' k j)
               + - dt * (Q_0I (n_I1 N k + j)%nat * c_0I (n_I1 N k + j)%nat))
     = total N (fun j => dt * ju j) (fun k j => dt * (up k j - dn k j)) (fun k j => dt * (dn k j - up k (S j)))).
  { apply total_ext.
    - intros j Hj. specialize (TJ j Hj). rewrite (Hb j Hj) in TJ. unfold superjunction_balance in TJ. unfold vol_j.
      assert (EJ : ju j = storage (f_V F j) (f_Vp F j) (c_j c' j) (c_j c j) dt + p_Kj P j * f_V F j * c_j c' j - Q_0j j * c_0j j).
      { rewrite TJ. unfold ju.
        assert (A1 : sum_if (fun k => Nat.eqb (n_Jd N k) j) (fun k => dn k (S (n_nk N k))) (n_K N)
          = sum_if (fun k => Nat.eqb (n_Jd N k) j)
             (fun k => face (f_Qdd F k) (c_d c' k) (c_j c' (n_Jd N k)) (p_Dd P k) (f_Ad F k) (n_dxd N k)) (n_K N)).
        { apply sum_n_ext. intros k Hk. destruct (Nat.eqb _ _); auto. unfold dn, C, pieces_of, right_of.
          cbn [ch_Qdn ch_D ch_A ch_dx superlink_chain]. rewrite !along_end.
          destruct (Nat.leb_spec (S (n_nk N k)) (n_nk N k)); [lia|reflexivity]. }
        assert (A2 : sum_if (fun k => Nat.eqb (n_Ju N k) j) (fun k => up k 0%nat) (n_K N)
          = sum_if (fun k => Nat.eqb (n_Ju N k) j)
             (fun k => face (f_Quu F k) (c_j c' (n_Ju N k)) (c_u c' k) (p_Du P k) (f_Au F k) (n_dxu N k)) (n_K N)) by reflexivity.
        rewrite A1, A2. lra. }
      rewrite EJ.
      replace (dt * (storage (f_V F j) (f_Vp F j) (c_j c' j) (c_j c j) dt + p_Kj P j * f_V F j * c_j c' j - Q_0j j * c_0j j))
        with (dt * storage (f_V F j) (f_Vp F j) (c_j c' j) (c_j c j) dt + dt * (p_Kj P j * f_V F j * c_j c' j) - dt * (Q_0j j * c_0j j)) by ring.
      rewrite ST. ring.
    - intros k j Hk Hj. destruct (TC k Hk) as [TP _]. specialize (TP j Hj). unfold piece_balance in TP.
      fold (C k) in TP. change (ch_n (C k)) with (n_nk N k) in TP. fold (up k j) in TP. fold (dn k j) in TP. rewrite <- TP.
      rewrite Rmult_plus_distr_l, ST. unfold vol_p, C, pieces_of. cbn [ch_dx ch_A ch_Ap ch_K ch_cp superlink_chain]. ring.
    - intros k j Hk Hj. destruct (TC k Hk) as [_ TN]. specialize (TN j Hj). unfold junction_balance in TN.
      fold (C k) in TN.
      assert (EU : up k (S j) = face (ch_Qup (C k) (j + 1)%nat) (junctions_of N c' k j) (pieces_of N c' k (j + 1)%nat)
                     (ch_D (C k) (j + 1)%nat) (ch_A (C k) (j + 1)%nat) (ch_dx (C k) (j + 1)%nat))
        by (unfold up; replace (j + 1)%nat with (S j) by lia; reflexivity).
      assert (ED : dn k j = face (ch_Qdn (C k) j) (pieces_of N c' k j) (junctions_of N c' k j) (ch_D (C k) j) (ch_A (C k) j) (ch_dx (C k) j)).
      { unfold dn, right_of. destruct (Nat.leb_spec j (n_nk N k)); [reflexivity|lia]. }
      rewrite EU, ED.
      assert (EE : forall x y z w : R, x + y = z + w -> w = x + y - z) by (intros; lra).
      assert (TN' : storage (ch_AS (C k) j * ch_h (C k) j) (ch_AS (C k) j * ch_hp (C k) j) (junctions_of N c' k j) (ch_cIp (C k) j) dt
                    + ch_KI (C k) j * (ch_AS (C k) j * ch_h (C k) j) * junctions_of N c' k j - ch_Q0 (C k) j * ch_c0 (C k) j
                    = face (ch_Qdn (C k) j) (pieces_of N c' k j) (junctions_of N c' k j) (ch_D (C k) j) (ch_A (C k) j) (ch_dx (C k) j)
                      - face (ch_Qup (C k) (j + 1)%nat) (junctions_of N c' k j) (pieces_of N c' k (j + 1)%nat)
                          (ch_D (C k) (j + 1)%nat) (ch_A (C k) (j + 1)%nat) (ch_dx (C k) (j + 1)%nat)) by lra.
      rewrite <- TN'.
      replace (dt * (storage (ch_AS (C k) j * ch_h (C k) j) (ch_AS (C k) j * ch_hp (C k) j) (junctions_of N c' k j) (ch_cIp (C k) j) dt
                    + ch_KI (C k) j * (ch_AS (C k) j * ch_h (C k) j) * junctions_of N c' k j - ch_Q0 (C k) j * ch_c0 (C k) j))
        with (dt * storage (ch_AS (C k) j * ch_h (C k) j) (ch_AS (C k) j * ch_hp (C k) j) (junctions_of N c' k j) (ch_cIp (C k) j) dt
              + dt * (ch_KI (C k) j * (ch_AS (C k) j * ch_h (C k) j) * junctions_of N c' k j) - dt * (ch_Q0 (C k) j * ch_c0 (C k) j)) by ring.
      rewrite ST. unfold vol_n, C, junctions_of. cbn [ch_AS ch_h ch_hp ch_KI ch_Q0 ch_c0 ch_cIp superlink_chain]. ring. }
  rewrite !total_plus, !total_scal in G. rewrite Z in G.
  unfold mass, inflow, reaction, cross. lra.
Qed.
