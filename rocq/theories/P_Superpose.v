(** Property C79: constituents superpose. *)
From Verif Require Import Prelude M_Coeffs M_Recurrence M_Assembly M_Step M_Quality S_Superlink S_Network S_Step S_Quality S_Superpose
  L_Forward L_Assembly L_Step L_Sweep L_Quality L_QualityStep L_QualityNet L_QualityMax L_Square L_QualitySolve P_Superlink P_Step P_Quality P_QualityCases.

Definition combine (a b : R) (c1 c2 : wq_state) : wq_state :=
  mkWq (fun j => a * c_j c1 j + b * c_j c2 j) (fun j => a * c_I c1 j + b * c_I c2 j) (fun j => a * c_i c1 j + b * c_i c2 j)
       (fun j => a * c_u c1 j + b * c_u c2 j) (fun j => a * c_d c1 j + b * c_d c2 j).

Lemma face_combine a b Q x x' y y' D A dx : face Q (a * x + b * x') (a * y + b * y') D A dx = a * face Q x y D A dx + b * face Q x' y' D A dx.
Proof. unfold face, Rdiv. destruct (Rltb 0 Q); ring. Qed.
Lemma storage_combine a b V Vp x x' y y' dt : storage V Vp (a * x + b * x') (a * y + b * y') dt = a * storage V Vp x y dt + b * storage V Vp x' y' dt.
Proof. unfold storage, Rdiv. ring. Qed.
Lemma control_flux_combine a b Q x x' y y' : control_flux Q (a * x + b * x') (a * y + b * y') = a * control_flux Q x y + b * control_flux Q x' y'.
Proof. unfold control_flux. destruct (Rleb 0 Q); ring. Qed.
Lemma sum_if_combine a b q f g h n : (forall k, (k < n)%nat -> h k = a * f k + b * g k) -> sum_if q h n = a * sum_if q f n + b * sum_if q g n.
Proof.
  intros E. unfold sum_if. induction n as [|n IH]; cbn [sum_n]; [ring|]. rewrite IH by (intros; apply E; lia).
  destruct (q n); [rewrite E by lia|]; ring.
Qed.
Lemma controls_net_combine a b C Q v v' j :
  controls_net C Q (fun i => a * v i + b * v' i) j = a * controls_net C Q v j + b * controls_net C Q v' j.
Proof.
  unfold controls_net. rewrite !(sum_if_combine a b _ (fun m => control_flux (Q m) (v (t_Ju C m)) (v (t_Jd C m)))
    (fun m => control_flux (Q m) (v' (t_Ju C m)) (v' (t_Jd C m))) (fun m => control_flux (Q m) (a * v (t_Ju C m) + b * v' (t_Ju C m)) (a * v (t_Jd C m) + b * v' (t_Jd C m))))
    by (intros; apply control_flux_combine). ring.
Qed.
Lemma left_combine a b x x' Nd Nd' j : left_of (a * x + b * x') (fun i => a * Nd i + b * Nd' i) j = a * left_of x Nd j + b * left_of x' Nd' j.
Proof. destruct j; reflexivity. Qed.
Lemma right_combine a b n z z' Nd Nd' j : right_of n (a * z + b * z') (fun i => a * Nd i + b * Nd' i) j = a * right_of n z Nd j + b * right_of n z' Nd' j.
Proof. unfold right_of. destruct (Nat.leb j n); reflexivity. Qed.
Lemma along_combine a b n i1 u u' x x' d d' k j :
  along n i1 (fun i => a * u i + b * u' i) (fun i => a * x i + b * x' i) (fun i => a * d i + b * d' i) k j
  = a * along n i1 u x d k j + b * along n i1 u' x' d' k j.
Proof. unfold along. destruct (Nat.eqb j 0), (Nat.leb j n); reflexivity. Qed.

Lemma combination_pieces N a b c1 c2 c k j : combination N a b c1 c2 c -> (k < n_K N)%nat ->
  along (n_nk N k) (n_i1 N k) (c_u c) (c_i c) (c_d c) k j
  = a * along (n_nk N k) (n_i1 N k) (c_u c1) (c_i c1) (c_d c1) k j + b * along (n_nk N k) (n_i1 N k) (c_u c2) (c_i c2) (c_d c2) k j.
Proof.
  intros [_ _ E1 E2 E3] Hk. unfold along. destruct j as [|j]; simpl; [auto|].
  destruct (Nat.leb_spec (S j) (n_nk N k)) as [L|L]; [|destruct (n_nk N k); auto; destruct (Nat.leb_spec j n); [lia|auto]].
  destruct (n_nk N k) as [|n] eqn:En; [lia|]. destruct (Nat.leb_spec j n); [|lia].
  replace (n_i1 N k + S j - 1)%nat with (n_i1 N k + j)%nat by lia. apply E1; [auto|lia].
Qed.

(** The transport equations are linear in all concentrations together. *)
Lemma transport_combine N P CO CW CP a b i1 i2 i c1 c2 c c1' c2' : combined_inputs N P a b i1 i2 i -> combination N a b c1 c2 c ->
  network_transport N P CO CW CP (i_F i1) c1 (i_bc i1) (i_0j i1) (i_Q0j i1) (i_0I i1) (i_Q0I i1) (i_dt i1) c1' ->
  network_transport N P CO CW CP (i_F i2) c2 (i_bc i2) (i_0j i2) (i_Q0j i2) (i_0I i2) (i_Q0I i2) (i_dt i2) c2' ->
  network_transport N P CO CW CP (i_F i) c (i_bc i) (i_0j i) (i_Q0j i) (i_0I i) (i_Q0I i) (i_dt i) (combine a b c1' c2').
Proof.
  intros [F1 F2 Q1 Q2 R1 R2 D1 D2 Eb Ej EI] Cb [H1 H2] [G1 G2]. rewrite F1, Q1, R1, D1 in *. rewrite F2, Q2, R2, D2 in *. split.
  - intros j Hj. specialize (H1 j Hj). specialize (G1 j Hj). cbn [c_j combine]. destruct (p_bc P j) eqn:B.
    + rewrite Eb, H1, G1 by auto. reflexivity.
    + unfold superjunction_balance in *. cbn [c_j c_u c_d combine]. rewrite !controls_net_combine, Ej, (cb_j _ _ _ _ _ _ Cb), storage_combine by auto.
      rewrite (sum_if_combine a b _ (fun k => face (f_Qdd (i_F i) k) (c_d c1' k) (c_j c1' (n_Jd N k)) (p_Dd P k) (f_Ad (i_F i) k) (n_dxd N k))
        (fun k => face (f_Qdd (i_F i) k) (c_d c2' k) (c_j c2' (n_Jd N k)) (p_Dd P k) (f_Ad (i_F i) k) (n_dxd N k))
        (fun k => face (f_Qdd (i_F i) k) (a * c_d c1' k + b * c_d c2' k) (a * c_j c1' (n_Jd N k) + b * c_j c2' (n_Jd N k)) (p_Dd P k) (f_Ad (i_F i) k) (n_dxd N k))) by (intros; apply face_combine).
      rewrite (sum_if_combine a b _ (fun k => face (f_Quu (i_F i) k) (c_j c1' (n_Ju N k)) (c_u c1' k) (p_Du P k) (f_Au (i_F i) k) (n_dxu N k))
        (fun k => face (f_Quu (i_F i) k) (c_j c2' (n_Ju N k)) (c_u c2' k) (p_Du P k) (f_Au (i_F i) k) (n_dxu N k))
        (fun k => face (f_Quu (i_F i) k) (a * c_j c1' (n_Ju N k) + b * c_j c2' (n_Ju N k)) (a * c_u c1' k + b * c_u c2' k) (p_Du P k) (f_Au (i_F i) k) (n_dxu N k))) by (intros; apply face_combine).
      match type of H1 with ?l = ?r => match type of G1 with ?l' = ?r' => assert (X : a * l + b * l' = a * r + b * r') by (rewrite H1, G1; reflexivity) end end.
      clear H1 G1. lra.
  - intros k Hk. destruct (H2 k Hk) as [A1 A2]. destruct (G2 k Hk) as [B1 B2]. split; intros j Hj.
    + specialize (A1 j Hj). specialize (B1 j Hj). unfold piece_balance in *. unfold pieces_of, combine, junctions_of in *.
      cbn [ch_n ch_Qup ch_Qdn ch_A ch_Ap ch_D ch_dx ch_K ch_cp superlink_chain c_j c_u c_d c_i c_I] in *.
      rewrite (combination_pieces N a b c1 c2 c k j Cb Hk), along_combine, left_combine, right_combine, !face_combine, storage_combine.
      match type of A1 with ?l = ?r => match type of B1 with ?l' = ?r' => assert (X : a * l + b * l' = a * r + b * r') by (rewrite A1, B1; reflexivity) end end.
      clear A1 B1. lra.
    + specialize (A2 j Hj). specialize (B2 j Hj). unfold junction_balance in *. unfold pieces_of, combine, junctions_of in *.
      cbn [ch_n ch_Qup ch_Qdn ch_A ch_Ap ch_D ch_dx ch_K ch_cp ch_AS ch_h ch_hp ch_KI ch_Q0 ch_c0 ch_cIp superlink_chain c_j c_u c_d c_i c_I] in *.
      rewrite !along_combine, !face_combine, (cb_I _ _ _ _ _ _ Cb), storage_combine, EI by auto.
      match type of A2 with ?l = ?r => match type of B2 with ?l' = ?r' => assert (X : a * l + b * l' = a * r + b * r') by (rewrite A2, B2; reflexivity) end end.
      clear A2 B2. lra.
Qed.

Lemma agree_combination N a b c1 c2 c : agree N c (combine a b c1 c2) -> combination N a b c1 c2 c.
Proof.
  intros [Aj Ap An]. constructor; intros.
  - apply Aj; auto.
  - apply (An k j); auto.
  - pose proof (Ap k (S j) H ltac:(lia)) as G. unfold pieces_of, combine in G. cbn [c_u c_i c_d] in G. rewrite along_combine in G.
    rewrite !along_mid in G by auto. exact G.
  - pose proof (Ap k 0%nat H ltac:(lia)) as G. unfold pieces_of in G. rewrite !along_0 in G. exact G.
  - pose proof (Ap k (S (n_nk N k)) H ltac:(lia)) as G. unfold pieces_of in G. rewrite !along_end in G. exact G.
Qed.

(** A mixture of constituents is carried as the same mixture of what each becomes alone: any factors (negative ones too), as long
    as none of the three leaves the limits. *)
Theorem C79_constituents_superpose : forall N P CO CW CP a b lo hi c1 c2 c (l : list (wq_in * wq_in * wq_in)) o1 o2 o,
  well_formed N -> q_ends_in N CO CW CP -> p_min P <= lo -> hi <= p_max P -> (lo <= 0 <= hi \/ no_reaction N P) ->
  within N lo hi c1 -> within N lo hi c2 -> within N lo hi c -> combination N a b c1 c2 c ->
  (forall i1 i2 i, In (i1, i2, i) l -> combined_inputs N P a b i1 i2 i /\ good_input N P CO CW CP i /\
     inputs_within N P lo hi (i_bc i1) (i_0j i1) (i_0I i1) /\ inputs_within N P lo hi (i_bc i2) (i_0j i2) (i_0I i2) /\
     inputs_within N P lo hi (i_bc i) (i_0j i) (i_0I i)) ->
  q_steps N P CO CW CP (map (fun x => fst (fst x)) l) (wq_fresh c1) o1 ->
  q_steps N P CO CW CP (map (fun x => snd (fst x)) l) (wq_fresh c2) o2 ->
  q_steps N P CO CW CP (map snd l) (wq_fresh c) o ->
  combination N a b (ob_c o1) (ob_c o2) (ob_c o).
Proof.
  intros N P CO CW CP a b lo hi c1 c2 c l o1 o2 o HW HE L1 L2 HR.
  assert (G : forall l p1 p2 p o1 o2 o, obj_clean N P CO CW CP p1 -> obj_clean N P CO CW CP p2 -> obj_clean N P CO CW CP p ->
    within N lo hi (ob_c p1) -> within N lo hi (ob_c p2) -> within N lo hi (ob_c p) -> combination N a b (ob_c p1) (ob_c p2) (ob_c p) ->
    (forall i1 i2 i, In (i1, i2, i) l -> combined_inputs N P a b i1 i2 i /\ good_input N P CO CW CP i /\
      inputs_within N P lo hi (i_bc i1) (i_0j i1) (i_0I i1) /\ inputs_within N P lo hi (i_bc i2) (i_0j i2) (i_0I i2) /\
      inputs_within N P lo hi (i_bc i) (i_0j i) (i_0I i)) ->
    q_steps N P CO CW CP (map (fun x => fst (fst x)) l) p1 o1 -> q_steps N P CO CW CP (map (fun x => snd (fst x)) l) p2 o2 ->
    q_steps N P CO CW CP (map snd l) p o -> combination N a b (ob_c o1) (ob_c o2) (ob_c o)).
  { clear c1 c2 c l o1 o2 o. induction l as [|[[i1 i2] i] l IH]; intros p1 p2 p o1 o2 o K1 K2 K W1 W2 W Cb Hl S1 S2 S3; cbn [map fst snd] in *.
    - inversion S1; inversion S2; inversion S3; subst; auto.
    - inversion S1 as [|? ? ? q1 ? T1 U1]; subst. inversion S2 as [|? ? ? q2 ? T2 U2]; subst. inversion S3 as [|? ? ? q ? T U]; subst.
      destruct (Hl i1 i2 i (or_introl eq_refl)) as (Ci & Gi & I1 & I2 & I3).
      pose proof Ci as [F1 F2 Q1 Q2 R1 R2 D1 D2 _ _ _]. destruct Gi as [Hdt Hwet Hcon].
      assert (Gi1 : good_input N P CO CW CP i1) by (constructor; rewrite ?D1, ?F1, ?Q1, ?R1; auto).
      assert (Gi2 : good_input N P CO CW CP i2) by (constructor; rewrite ?D2, ?F2, ?Q2, ?R2; auto).
      assert (Gi : good_input N P CO CW CP i) by (constructor; auto).
      destruct (step_main N P CO CW CP i1 p1 q1 lo hi HW HE Gi1 K1 T1 L1 L2 HR I1 W1) as [X1 Y1].
      destruct (step_main N P CO CW CP i2 p2 q2 lo hi HW HE Gi2 K2 T2 L1 L2 HR I2 W2) as [X2 Y2].
      destruct (step_main N P CO CW CP i p q lo hi HW HE Gi K T L1 L2 HR I3 W) as [X Y].
      apply (IH q1 q2 q o1 o2 o); auto; [exact (step_clean _ _ _ _ _ _ _ _ K1 T1)|exact (step_clean _ _ _ _ _ _ _ _ K2 T2)|exact (step_clean _ _ _ _ _ _ _ _ K T)| |intros; apply Hl; right; auto].
      apply agree_combination. unfold transported in *.
      apply (transport_unique N P CO CW CP (i_F i) (i_0j i) (i_Q0j i) (i_0I i) (i_Q0I i) (i_dt i) Hdt HE Hwet Hcon _ _ _ _ X).
      exact (transport_combine N P CO CW CP a b i1 i2 i _ _ _ _ _ Ci Cb X1 X2). }
  intros W1 W2 W Cb Hl S1 S2 S3. apply (G l (wq_fresh c1) (wq_fresh c2) (wq_fresh c)); auto using fresh_clean_obj.
Qed.

(** In particular the unit of concentration is a convention (b = 0).  And more constituent in the water at the start, in the inflows
    or at the boundaries never lowers a concentration anywhere. *)
Theorem C79_more_never_gives_less : forall N P CO CW CP lo hi c1 c (l : list (wq_in * wq_in)) o1 o,
  well_formed N -> q_ends_in N CO CW CP -> p_min P <= lo -> hi <= p_max P -> (lo <= 0 <= hi \/ no_reaction N P) ->
  within N lo hi c1 -> within N lo hi c -> no_less N c1 c ->
  (forall i1 i, In (i1, i) l -> no_less_inputs N P i1 i /\ good_input N P CO CW CP i /\
     inputs_within N P lo hi (i_bc i1) (i_0j i1) (i_0I i1) /\ inputs_within N P lo hi (i_bc i) (i_0j i) (i_0I i)) ->
  q_steps N P CO CW CP (map fst l) (wq_fresh c1) o1 -> q_steps N P CO CW CP (map snd l) (wq_fresh c) o ->
  no_less N (ob_c o1) (ob_c o).
Proof.
  intros N P CO CW CP lo hi c1 c l o1 o HW HE L1 L2 HR.
  assert (G : forall l p1 p o1 o, obj_clean N P CO CW CP p1 -> obj_clean N P CO CW CP p ->
    within N lo hi (ob_c p1) -> within N lo hi (ob_c p) -> no_less N (ob_c p1) (ob_c p) ->
    (forall i1 i, In (i1, i) l -> no_less_inputs N P i1 i /\ good_input N P CO CW CP i /\
      inputs_within N P lo hi (i_bc i1) (i_0j i1) (i_0I i1) /\ inputs_within N P lo hi (i_bc i) (i_0j i) (i_0I i)) ->
    q_steps N P CO CW CP (map fst l) p1 o1 -> q_steps N P CO CW CP (map snd l) p o -> no_less N (ob_c o1) (ob_c o)).
  { clear c1 c l o1 o. induction l as [|[i1 i] l IH]; intros p1 p o1 o K1 K W1 W Cb Hl S1 S3; cbn [map fst snd] in *.
    - inversion S1; inversion S3; subst; auto.
    - inversion S1 as [|? ? ? q1 ? T1 U1]; subst. inversion S3 as [|? ? ? q ? T U]; subst.
      destruct (Hl i1 i (or_introl eq_refl)) as (Ci & Gi & I1 & I3).
      pose proof Ci as [F1 Q1 R1 D1 Nb Nj NI]. destruct Gi as [Hdt Hwet Hcon].
      assert (Gi1 : good_input N P CO CW CP i1) by (constructor; rewrite ?D1, ?F1, ?Q1, ?R1; auto).
      assert (Gi : good_input N P CO CW CP i) by (constructor; auto).
      destruct (step_main N P CO CW CP i1 p1 q1 lo hi HW HE Gi1 K1 T1 L1 L2 HR I1 W1) as [X1 Y1].
      destruct (step_main N P CO CW CP i p q lo hi HW HE Gi K T L1 L2 HR I3 W) as [X Y].
      apply (IH q1 q o1 o); auto; [exact (step_clean _ _ _ _ _ _ _ _ K1 T1)|exact (step_clean _ _ _ _ _ _ _ _ K T)| |intros; apply Hl; right; auto].
      (* the difference is a constituent of its own *)
      set (d := combine (-1) 1 (ob_c p1) (ob_c p)).
      set (id := mkWqIn (i_F i) (fun j => -1 * i_bc i1 j + 1 * i_bc i j) (fun j => -1 * i_0j i1 j + 1 * i_0j i j) (i_Q0j i)
                   (fun j => -1 * i_0I i1 j + 1 * i_0I i j) (i_Q0I i) (i_dt i)).
      assert (Ci' : combined_inputs N P (-1) 1 i1 i id) by (constructor; cbn; auto).
      assert (Cd : combination N (-1) 1 (ob_c p1) (ob_c p) d) by (constructor; reflexivity).
      pose proof (transport_combine N P CO CW CP (-1) 1 i1 i id _ _ d _ _ Ci' Cd X1 X) as Z. cbn [i_F i_bc i_0j i_Q0j i_0I i_Q0I i_dt id] in Z.
      set (M := Rmax 0 (hi - lo)). pose proof (Rmax_l 0 (hi - lo)) as M0. pose proof (Rmax_r 0 (hi - lo)) as M1. fold M in M0, M1.
      destruct (network_bounds N P CO CW CP (i_F i) d _ _ (i_Q0j i) _ (i_Q0I i) (i_dt i) Hdt HE Hwet Hcon 0 M _ Z) as [E1 E2 E3 E4 E5].
      + destruct I1 as [B1 B2 B3], I3 as [C1 C2 C3]. constructor.
        * intros j Hj Hb. specialize (B1 j Hj Hb). specialize (C1 j Hj Hb). specialize (Nb j Hj Hb). lra.
        * intros j Hj. specialize (B2 j Hj). specialize (C2 j Hj). specialize (Nj j Hj). lra.
        * intros k j Hk Hj. specialize (B3 k j Hk Hj). specialize (C3 k j Hk Hj). specialize (NI k j Hk Hj). lra.
      + destruct W1 as [B1 B2 B3 B4 B5], W as [C1 C2 C3 C4 C5], Cb as [N1 N2 N3 N4 N5]. constructor; unfold d; cbn [combine c_j c_I c_i c_u c_d].
        * intros j Hj. specialize (B1 j Hj). specialize (C1 j Hj). specialize (N1 j Hj). lra.
        * intros k j Hk Hj. specialize (B2 k j Hk Hj). specialize (C2 k j Hk Hj). specialize (N2 k j Hk Hj). lra.
        * intros k j Hk Hj. specialize (B3 k j Hk Hj). specialize (C3 k j Hk Hj). specialize (N3 k j Hk Hj). lra.
        * intros k Hk. specialize (B4 k Hk). specialize (C4 k Hk). specialize (N4 k Hk). lra.
        * intros k Hk. specialize (B5 k Hk). specialize (C5 k Hk). specialize (N5 k Hk). lra.
      + left. lra.
      + cbn [combine c_j c_I c_i c_u c_d] in *. constructor.
        * intros j Hj. specialize (E1 j Hj). lra.
        * intros k j Hk Hj. specialize (E2 k j Hk Hj). lra.
        * intros k j Hk Hj. specialize (E3 k j Hk Hj). lra.
        * intros k Hk. specialize (E4 k Hk). lra.
        * intros k Hk. specialize (E5 k Hk). lra. }
  intros W1 W Cb Hl S1 S3. apply (G l (wq_fresh c1) (wq_fresh c)); auto using fresh_clean_obj.
Qed.

(** Two fronts, of concentrations 4 and 3, in the network of C50 with decay: ten steps with the mixture 1/2 : 2. *)
Example C79_example :
  let P := wq_par_ex (1/100) 1 (fun j => Nat.eqb j 2) in
  exists o1 o2 o, q_steps rest_net P wq_ori wq_weir wq_pump (repeat (wq_in_ex 4) 10) (wq_fresh (wq_front 4)) o1 /\
    q_steps rest_net P wq_ori wq_weir wq_pump (repeat (wq_in_ex 3) 10) (wq_fresh (wq_front 3)) o2 /\
    q_steps rest_net P wq_ori wq_weir wq_pump (repeat (wq_in_ex 8) 10) (wq_fresh (wq_front 8)) o /\
    combination rest_net (1/2) 2 (ob_c o1) (ob_c o2) (ob_c o) /\ no_less rest_net (ob_c o1) (ob_c o) .
Proof.
  intros P.
  assert (Wf : forall x, 0 <= x <= 10 -> within rest_net 0 10 (wq_front x)).
  { intros x Hx. constructor; intros; cbn; unfold zeros; try destruct (Nat.eqb _ _); lra. }
  assert (Ex : forall x, 0 <= x <= 10 -> exists o', q_steps rest_net P wq_ori wq_weir wq_pump (repeat (wq_in_ex x) 10) (wq_fresh (wq_front x)) o').
  { intros x Hx. apply (C50_step_bounds rest_net P wq_ori wq_weir wq_pump _ (wq_front x) 10); try (cbn; lra); auto using wq_covered, wq_ends.
    - apply rest_net_ok.
    - apply Forall_forall. intros i Hi. apply repeat_spec in Hi. subst i. split; [apply wq_good; lra|apply wq_inputs; lra]. }
  destruct (Ex 4 ltac:(lra)) as [o1 S1]. destruct (Ex 3 ltac:(lra)) as [o2 S2]. destruct (Ex 8 ltac:(lra)) as [o S3].
  exists o1, o2, o. split; [exact S1|]. split; [exact S2|]. split; [exact S3|].
  split.
  - apply (C79_constituents_superpose rest_net P wq_ori wq_weir wq_pump (1/2) 2 0 10 (wq_front 4) (wq_front 3) (wq_front 8)
      (repeat (wq_in_ex 4, wq_in_ex 3, wq_in_ex 8) 10)); try (apply Wf; lra); try (cbn; lra); auto using wq_ends; try (left; lra).
    + apply rest_net_ok.
    + constructor; intros; cbn; unfold zeros; try destruct (Nat.eqb _ _); lra.
    + intros i1 i2 i Hi. apply repeat_spec in Hi. injection Hi as -> -> ->.
      split; [constructor; try reflexivity; cbn; intros; lra|]. split; [apply wq_good; lra|].
      split; [apply wq_inputs; lra|]. split; apply wq_inputs; lra.
  - apply (C79_more_never_gives_less rest_net P wq_ori wq_weir wq_pump 0 10 (wq_front 4) (wq_front 8)
      (repeat (wq_in_ex 4, wq_in_ex 8) 10)); try (apply Wf; lra); try (cbn; lra); auto using wq_ends; try (left; lra).
    + apply rest_net_ok.
    + constructor; intros; cbn; unfold zeros; try destruct (Nat.eqb _ _); lra.
    + intros i1 i Hi. apply repeat_spec in Hi. injection Hi as -> ->.
      split; [constructor; try reflexivity; cbn; intros; lra|]. split; [apply wq_good; lra|].
      split; apply wq_inputs; lra.
Qed.
