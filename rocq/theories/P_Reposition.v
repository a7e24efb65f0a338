(** C38 (whole network) and C53: repositioning of mobile junctions. *)
From Verif Require Import Prelude M_Coeffs M_Numerics M_Recurrence M_Step S_Superlink S_Network S_Step
  M_Layout S_Layout L_Layout L_Sort P_Layout.

(** A network whose index tables are the generated ones is well formed, which is what the theorems on a whole step
    ask of it. *)
Theorem C38_generated_network_well_formed N n : (1 <= n)%nat ->
  let T := generated_tables n (n_K N) in
  n_nk N = t_nk T -> n_i1 N = t_i_1k T -> n_I1 N = t_I_1k T -> n_kI N = junction_k n ->
  n_fwdi N = t_forward_I_i T -> n_bwdi N = t_backward_I_i T -> n_isS N = t_is_start T -> n_isE N = t_is_end T ->
  n_L N = (n * n_K N)%nat -> n_J N = ((n + 1) * n_K N)%nat ->
  ends_in (n_M N) (n_K N) (n_Ju N) (n_Jd N) ->
  well_formed N.
Proof.
  intros Hn T E1 E2 E3 E4 E5 E6 E7 E8 E9 E10 He.
  destruct (C38_generated_tables_form_chains n (n_K N) Hn) as [A [B [C [D [F _]]]]]. fold T in A, B, C, D, F.
  constructor.
  - now rewrite E1, E2, E3.
  - now rewrite E1, E2, E3, E4, E5, E6, E7, E8.
  - intros k Hk. rewrite E1, E2, E3, E9, E10. destruct (F k Hk) as [-> _].
    destruct C as [C _], D as [D _]. specialize (C k (n - 1)%nat Hk ltac:(lia)). specialize (D k n Hk ltac:(lia)). lia.
  - exact He.
Qed.

Lemma upd_const (a : arr) p v q : (forall i, a i = q) -> v = q -> forall i, upd a p v i = q.
Proof. intros Ha -> i. unfold upd. destruct (Nat.eqb i p); auto. Qed.

Section Reposition.
Variables (n : nat) (m b0 xs xe : R).

Definition ok (s : chain) : Prop := intact n m b0 xs xe (c_x s) (c_z s) (c_dx s) (c_pos s).

Lemma order_trans (x : arr) : (forall i, (i < n)%nat -> x i <= x (S i)) ->
  forall i j, (i <= j)%nat -> (j <= n)%nat -> x i <= x j.
Proof.
  intros H i j Hij. induction Hij as [|j Hij IH]; intros Hj; [lra|].
  specialize (IH ltac:(lia)). specialize (H j ltac:(lia)). lra.
Qed.

(** Outcome of moving the mobile junction to (x_m, z_m), for x_m strictly inside the pipe. *)
Lemma reposition_to s I_1 H_d zc xc x_m z_m :
  ok s -> xs < x_m < xe ->
  (if Rltb (c_z s n) H_d && Rltb H_d (c_z s O)
   then I_1 = O /\ m <> 0 /\ z_m = H_d /\ x_m = (H_d - b0) / m + xs
   else z_m = zc /\ x_m = xc) ->
  exists s', reposition I_1 n H_d b0 zc xc m s = Some s' /\
    (0 < c_pos s' < n)%nat /\ c_x s' (c_pos s') = x_m /\ c_z s' (c_pos s') = z_m /\
    c_x s' O = xs /\ c_x s' n = xe /\
    (forall i, (i < n)%nat -> c_x s' i <= c_x s' (S i)) /\
    (forall i, (i < n)%nat -> c_dx s' i = c_x s' (S i) - c_x s' i) /\
    (forall i, (i <= n)%nat -> i <> c_pos s' -> exists j, (j <= n)%nat /\ j <> c_pos s /\
       c_x s' i = c_x s j /\ c_z s' i = c_z s j /\ c_h s' i = c_h s j) /\
    (forall j, (j <= n)%nat -> j <> c_pos s -> exists i, (i <= n)%nat /\ i <> c_pos s' /\
       c_x s' i = c_x s j /\ c_z s' i = c_z s j /\ c_h s' i = c_h s j) /\
    (c_pos s' = c_pos s -> c_Q s' = c_Q s) /\
    (forall q, (forall i, c_Q s i = q) -> forall i, c_Q s' i = q) /\
    (forall i j, (i < j)%nat -> (j <= n)%nat -> i <> c_pos s' -> j <> c_pos s' -> c_x s' i < c_x s' j) /\
    (forall lo hi, (forall i, (i <= n)%nat -> lo <= c_h s i <= hi) -> lo <= c_h s' (c_pos s') <= hi) /\
    (exists c, (0 < c <= n)%nat /\ c_x s (c - 1)%nat < x_m <= c_x s c /\
       c_h s' (c_pos s') = interpolated (c_x s (c - 1)%nat) (c_h s (c - 1)%nat) (c_x s c) (c_h s c) x_m).
Proof.
  intros Hok Hin Hzx. destruct Hok as [Hord Hf Hl Hfix [Hp0 Hpn] Hmob Hline Hlen].
  set (p := c_pos s) in *. set (x := upd (c_x s) p x_m). set (ix := argsort (n + 1) x).
  (* facts about the updated positions *)
  assert (Xp : x p = x_m) by apply upd_eq.
  assert (Xo : forall q, q <> p -> x q = c_x s q) by (intros; now apply upd_neq).
  assert (First : nth 0 ix O = O).
  { apply argsort_first; [lia|]. intros q Hq Hq0. rewrite (Xo O) by lia. rewrite Hf.
    destruct (Nat.eq_dec q p) as [->|Hqp]; [rewrite Xp; lra|]. rewrite Xo by auto. rewrite <- Hf. apply Hfix; lia. }
  assert (Last : nth n ix O = n).
  { replace n with (n + 1 - 1)%nat at 1 by lia. apply argsort_last; [lia|]. intros q Hq Hq0. rewrite (Xo n) by lia.
    rewrite Hl. destruct (Nat.eq_dec q p) as [->|Hqp]; [rewrite Xp; lra|]. rewrite Xo by auto. rewrite <- Hl.
    apply Hfix; lia. }
  assert (Hin_p : In p ix).
  { unfold ix. destruct (argsort_surj (n + 1) x p ltac:(lia)) as [i [Hi E]]. rewrite <- E. apply nth_In.
    rewrite argsort_length. exact Hi. }
  destruct (position_spec p ix Hin_p) as [Pn Pl]. unfold ix in Pl. rewrite argsort_length in Pl. fold ix in Pl.
  set (p' := position p ix) in *.
  assert (Hp'0 : p' <> O) by (intros E; rewrite E, First in Pn; lia).
  assert (Hp'n : p' <> n) by (intros E; rewrite E, Last in Pn; lia).
  (* interpolation position *)
  destruct (searchsorted_bracket (c_x s) (n + 1) x_m 0) as [Cle [Clt Cge]].
  set (c := searchsorted (map (c_x s) (seq 0 (n + 1))) x_m) in *. cbn [Nat.add] in Clt, Cge.
  assert (Hc0 : (0 < c)%nat).
  { destruct c as [|c']; [|lia]. specialize (Cge ltac:(lia)). rewrite Hf in Cge. lra. }
  assert (Hcn : (c <= n)%nat).
  { destruct (le_lt_dec c n); auto. assert (E : c = (n + 1)%nat) by lia.
    specialize (Clt n ltac:(lia)). rewrite Hl in Clt. lra. }
  specialize (Cge ltac:(lia)). specialize (Clt (c - 1)%nat ltac:(lia)).
  unfold reposition. fold p.
  assert (Ezx : (if Rltb (c_z s n) H_d && Rltb H_d (c_z s O)
              then if Nat.ltb I_1 (n + 1) then bind (div (H_d - b0) m) (fun q => Some (H_d, q + c_x s I_1)) else None
              else Some (zc, xc)) = Some (z_m, x_m)).
  { destruct (Rltb (c_z s n) H_d && Rltb H_d (c_z s O)).
    - destruct Hzx as [-> [Hm [-> ->]]]. destruct (Nat.ltb_spec 0 (n + 1)); [|lia].
      unfold div. destruct (Reqb_spec m 0); [contradiction|]. cbn [bind]. rewrite Hf. reflexivity.
    - destruct Hzx as [-> ->]. reflexivity. }
  rewrite Ezx. cbn [bind]. clear Ezx. fold c.
  replace (match c with O => n | S c0 => c0 end) with (c - 1)%nat by (destruct c; lia).
  unfold div at 1. destruct (Reqb_spec (c_x s c - c_x s (c - 1)%nat) 0) as [E|_]; [exfalso; lra|]. cbn [bind].
  assert (Hr : c_dx s (p - 1)%nat + c_dx s p <> 0).
  { rewrite (Hlen (p - 1)%nat), (Hlen p) by lia. replace (S (p - 1)) with p by lia.
    pose proof (Hfix (p - 1)%nat (S p) ltac:(lia) ltac:(lia) ltac:(lia) ltac:(lia)). lra. }
  unfold div at 1. destruct (Reqb_spec (c_dx s (p - 1)%nat + c_dx s p) 0) as [E|_]; [contradiction|]. cbn [bind].
  fold x. fold ix. fold p'.
  eexists. split; [reflexivity|]. cbn [c_pos c_x c_z c_h c_dx c_Q].
  split; [lia|]. split; [unfold take; rewrite Pn; exact Xp|].
  split; [unfold take; rewrite Pn; apply upd_eq|].
  split; [unfold take; rewrite First, Xo by lia; exact Hf|].
  split; [unfold take; rewrite Last, Xo by lia; exact Hl|].
  split; [intros i Hi; unfold take; apply (argsort_le (n + 1) x); lia|].
  split; [intros i Hi; reflexivity|].
  assert (Other : forall i, (i <= n)%nat -> i <> p' -> (nth i ix O <= n)%nat /\ nth i ix O <> p).
  { intros i Hi Hne. pose proof (argsort_lt (n + 1) x i ltac:(lia)) as B. fold ix in B. split; [lia|].
    intros E. apply Hne. apply (argsort_inj (n + 1) x); [lia | lia |]. fold ix. now rewrite E, Pn. }
  split.
  { intros i Hi Hne. destruct (Other i Hi Hne) as [B1 B2]. exists (nth i ix O). split; [exact B1|split; [exact B2|]].
    unfold take. rewrite Xo, !upd_neq by auto. auto. }
  split.
  { intros j Hj Hne. destruct (argsort_surj (n + 1) x j ltac:(lia)) as [i [Hi E]]. fold ix in E.
    exists i. split; [lia|]. split; [intros ->; congruence|]. unfold take. rewrite E, Xo, !upd_neq by auto. auto. }
  split.
  { intros ->. rewrite Nat.eqb_refl. reflexivity. }
  split.
  { intros q Hq i. destruct (Nat.eqb p p'); [apply Hq|].
    unfold take. apply upd_const; [exact Hq|]. rewrite !Hq. lra. }
  split.
  { intros i j Hij Hj Hi' Hj'. destruct (Other i ltac:(lia) Hi') as [A1 A2]. destruct (Other j ltac:(lia) Hj') as [B1 B2].
    pose proof (argsort_le (n + 1) x i j ltac:(lia) ltac:(lia)) as Le. fold ix in Le. unfold take.
    rewrite (Xo (nth i ix O)), (Xo (nth j ix O)) in * by auto.
    destruct (Nat.lt_trichotomy (nth i ix O) (nth j ix O)) as [T|[T|T]].
    - apply Hfix; auto.
    - apply (argsort_inj (n + 1) x) in T; lia.
    - pose proof (Hfix _ _ T A1 B2 A2). lra. }
  split.
  { intros lo hi Hh. unfold take. rewrite Pn, upd_eq.
    set (q := (x_m - c_x s (c - 1)%nat) / (c_x s c - c_x s (c - 1)%nat)).
    assert (Hq : 0 <= q <= 1).
    { unfold q. split.
      - apply Rmult_le_pos; [lra | left; apply Rinv_0_lt_compat; lra].
      - apply (Rmult_le_reg_r (c_x s c - c_x s (c - 1)%nat)); [lra|]. unfold Rdiv. rewrite Rmult_assoc, Rinv_l by lra. lra. }
    pose proof (Hh (c - 1)%nat ltac:(lia)). pose proof (Hh c Hcn). nra. }
  { exists c. split; [lia|]. split; [lra|]. unfold take. rewrite Pn, upd_eq. unfold interpolated. field. lra. }
Qed.

(** One call, for the first superlink of the model or a downstream head outside the pipe's range: the pipe stays
    intact with the same ends, slope and fixed junctions, total length is kept, the mobile junction is at the
    downstream head's elevation if that lies between the end inverts, its depth is interpolated between the two old
    junctions around it, depths stay within the range of the old depths and a uniform flow stays uniform. *)
Theorem C53_reposition_keeps_superlink s I_1 H_d zc xc :
  ok s -> xs < xc < xe -> zc = b0 + m * (xc - xs) ->
  (c_z s n < H_d < c_z s O -> I_1 = O) ->
  exists s', reposition I_1 n H_d b0 zc xc m s = Some s' /\ ok s' /\
    sum_n (c_dx s') n = xe - xs /\
    (c_z s n < H_d < c_z s O -> c_z s' (c_pos s') = H_d) /\
    (forall j, (j <= n)%nat -> j <> c_pos s -> exists i, (i <= n)%nat /\ i <> c_pos s' /\
       c_x s' i = c_x s j /\ c_z s' i = c_z s j /\ c_h s' i = c_h s j) /\
    (forall lo hi, (forall i, (i <= n)%nat -> lo <= c_h s i <= hi) -> forall i, (i <= n)%nat -> lo <= c_h s' i <= hi) /\
    (forall q, (forall i, c_Q s i = q) -> forall i, c_Q s' i = q) /\
    (exists c, (0 < c <= n)%nat /\ c_x s (c - 1)%nat < c_x s' (c_pos s') <= c_x s c /\
       c_h s' (c_pos s') =
         interpolated (c_x s (c - 1)%nat) (c_h s (c - 1)%nat) (c_x s c) (c_h s c) (c_x s' (c_pos s'))).
Proof.
  intros Hok Hxc Hzc HI. pose proof Hok as [Hord Hf Hl Hfix [Hp0 Hpn] Hmob Hline Hlen].
  assert (HX : xs < xe) by lra.
  set (mv := Rltb (c_z s n) H_d && Rltb H_d (c_z s O)).
  assert (Emv : mv = true <-> c_z s n < H_d < c_z s O).
  { unfold mv. rewrite andb_true_iff, !Rltb_true. tauto. }
  assert (Hm : mv = true -> m < 0 /\ c_z s O = b0 /\ c_z s n = b0 + m * (xe - xs)).
  { intros E. apply Emv in E. rewrite (Hline n), (Hline O) in * by lia. rewrite Hf, Hl in *.
    split; [nra|]. split; lra. }
  set (z_m := if mv then H_d else zc). set (x_m := if mv then (H_d - b0) / m + xs else xc).
  assert (Hin : xs < x_m < xe).
  { unfold x_m. destruct mv eqn:E; [|exact Hxc]. destruct (Hm eq_refl) as [M0 [M1 M2]].
    pose proof (proj1 Emv eq_refl) as E2. rewrite M1, M2 in E2. split.
    - assert (0 < (H_d - b0) / m); [|lra].
      replace ((H_d - b0) / m) with ((b0 - H_d) * / (- m)) by (field; lra).
      apply Rmult_lt_0_compat; [lra | apply Rinv_0_lt_compat; lra].
    - assert ((H_d - b0) / m < xe - xs); [|lra].
      apply (Rmult_lt_reg_r (- m)); [lra|]. replace ((H_d - b0) / m * - m) with (b0 - H_d) by (field; lra). nra. }
  assert (Hlm : z_m = b0 + m * (x_m - xs)).
  { unfold z_m, x_m. destruct mv eqn:E; [|exact Hzc]. destruct (Hm eq_refl) as [M0 _]. field. lra. }
  assert (Hzx : if mv then I_1 = O /\ m <> 0 /\ z_m = H_d /\ x_m = (H_d - b0) / m + xs else z_m = zc /\ x_m = xc).
  { unfold z_m, x_m. destruct mv eqn:E; [|split; reflexivity]. destruct (Hm eq_refl) as [M0 _].
    split; [apply HI, Emv; reflexivity|]. split; [lra|split; reflexivity]. }
  destruct (reposition_to s I_1 H_d zc xc x_m z_m Hok Hin Hzx)
    as [s' [E [P [Xp [Zp [X0 [Xn [Ord [Len [Oth [Oth' [_ [Qu [Fx [Hh Hc]]]]]]]]]]]]]]].
  exists s'. split; [exact E|].
  assert (Ok' : ok s').
  { constructor; auto.
    - rewrite Xp. exact Hin.
    - intros i Hi. destruct (Nat.eq_dec i (c_pos s')) as [->|Hne]; [rewrite Xp, Zp; exact Hlm|].
      destruct (Oth i Hi Hne) as [j [Hj [_ [-> [-> _]]]]]. apply Hline; auto. }
  split; [exact Ok'|]. split.
  { rewrite (sum_n_ext (c_dx s') (diff (c_x s'))) by (intros i Hi; apply Len; auto).
    rewrite telescope, X0, Xn. reflexivity. }
  split.
  { intros Hmv. apply Emv in Hmv. rewrite Zp. unfold z_m. rewrite Hmv. reflexivity. }
  split; [exact Oth'|]. split; [|split; [exact Qu | rewrite Xp; exact Hc]].
  intros lo hi Hb i Hi. destruct (Nat.eq_dec i (c_pos s')) as [->|Hne]; [now apply Hh|].
  destruct (Oth i Hi Hne) as [j [Hj [_ [_ [_ ->]]]]]. now apply Hb.
Qed.

(** Any number of calls. *)
Fixpoint reposition_many (I_1 : nat) (zc xc : R) (heads : list R) (s : chain) : option chain :=
  match heads with
  | [] => Some s
  | H :: rest => bind (reposition I_1 n H b0 zc xc m s) (reposition_many I_1 zc xc rest)
  end.
Theorem C53_repositions_keep_superlink heads zc xc : xs < xc < xe -> zc = b0 + m * (xc - xs) ->
  forall s, ok s -> exists s', reposition_many 0 zc xc heads s = Some s' /\ ok s' /\ sum_n (c_dx s') n = xe - xs.
Proof.
  intros Hxc Hzc. induction heads as [|H heads IH]; intros s Hok; cbn [reposition_many].
  - exists s. split; [reflexivity|]. split; [exact Hok|].
    destruct Hok as [_ Hf Hl _ _ _ _ Hlen].
    rewrite (sum_n_ext (c_dx s) (diff (c_x s))) by (intros i Hi; apply Hlen; auto).
    rewrite telescope, Hf, Hl. reflexivity.
  - destruct (C53_reposition_keeps_superlink s O H zc xc Hok Hxc Hzc (fun _ => eq_refl)) as [s1 [E [Ok1 _]]].
    rewrite E. cbn [bind]. apply IH, Ok1.
Qed.

(** Every other superlink: as soon as the downstream head lies between its end inverts, the position of its first
    junction is read outside its slice of the array. *)
Theorem C53_later_superlinks_refuted s I_1 H_d zc xc :
  (n < I_1)%nat -> c_z s n < H_d < c_z s O -> reposition I_1 n H_d b0 zc xc m s = None.
Proof.
  intros HI [H1 H2]. unfold reposition. apply Rltb_true in H1, H2. rewrite H1, H2. cbn [andb].
  destruct (Nat.ltb_spec I_1 (n + 1)); [lia | reflexivity].
Qed.

(** With an upstream end length (positions then start at dx_uk = xs > 0) the resting position xc is not measured from
    the start of the chain: the mobile junction leaves the pipe's line. *)
Theorem C53_end_length_refuted s I_1 H_d xc :
  ok s -> xs <> 0 -> m <> 0 -> xs < xc < xe -> ~ (c_z s n < H_d < c_z s O) ->
  exists s', reposition I_1 n H_d b0 (m * xc + b0) xc m s = Some s' /\
    c_z s' (c_pos s') <> b0 + m * (c_x s' (c_pos s') - xs).
Proof.
  intros Hok Hx Hm Hxc Hnm.
  destruct (reposition_to s I_1 H_d (m * xc + b0) xc xc (m * xc + b0) Hok Hxc) as [s' [E [P [Xp [Zp _]]]]].
  { destruct (Rltb (c_z s n) H_d && Rltb H_d (c_z s O)) eqn:E; [|split; reflexivity].
    apply andb_true_iff in E. rewrite !Rltb_true in E. contradiction. }
  exists s'. split; [exact E|]. rewrite Xp, Zp. intros Eq. assert (m * xs = 0) by lra.
  apply Rmult_integral in H. tauto.
Qed.
End Reposition.

(** A chain as constructed with mobile elements (no end lengths) is intact. *)
Theorem C53_constructed_chain_intact n L z_u z_d : (2 <= n)%nat -> 0 < L ->
  let m := slope z_u z_d L 0 0 in let b0 := b_0 z_u z_d L 0 0 in
  exists x z p, mobile_x n L = Some x /\ mobile_z n L m b0 = Some z /\
    intact n m b0 0 L x z (diff x) p /\ 0 < mobile_xc n L < L /\ m * mobile_xc n L + b0 = b0 + m * (mobile_xc n L - 0).
Proof.
  intros Hn HL m b0. destruct (C38_mobile_chain_is_straight n L z_u z_d 0 0 HL ltac:(lra) ltac:(lra)) as [_ G].
  destruct (G Hn) as [x [z [Ex [Ez [X0 [Xn [D [_ [Z [p [P0 [Pn Xp]]]]]]]]]]]].
  exists x, z, p. split; [exact Ex|split; [exact Ez|]].
  pose proof (mobile_inside n L Hn HL) as Hc.
  assert (O1 : forall i, (i < n)%nat -> x i <= x (S i)) by (intros i Hi; specialize (D i Hi); unfold diff in D; lra).
  split; [|split; [exact Hc | ring]]. constructor; auto.
  - intros i j Hij Hj _ _. specialize (D i ltac:(lia)). unfold diff in D.
    pose proof (order_trans n x O1 (S i) j ltac:(lia) Hj). lra.
  - rewrite Xp. exact Hc.
  - intros i Hi. rewrite Z by auto. unfold on_line, b0, b_0, m, slope. field. lra.
Qed.

(** Flow after the mobile junction moves upstream past a fixed junction: five junctions, mobile junction at position 3
    moved between fixed junctions 1 and 2.  The new links 1 and 2 are the two halves of the old link 1, so both should
    carry its flow; the code gives link 2 the flow of the merged links 2 and 3. *)
Theorem C53_flow_after_upstream_shift_refuted :
  exists s s', ok 4 (-1) 4 0 4 s /\ reposition 0 4 (5 / 2) 4 (5 / 2) (3 / 2) (-1) s = Some s' /\
    c_x s' 1%nat = c_x s 1%nat /\ c_x s' 3%nat = c_x s 2%nat /\ c_pos s' = 2%nat /\
    c_Q s' 1%nat = c_Q s 1%nat /\ c_Q s' 2%nat <> c_Q s 1%nat.
Proof.
  set (s := mkChain INR (fun i => 4 - INR i) (fun _ => 1) (fun _ => 1) (fun i => INR i) 3).
  exists s.
  assert (Hs : ok 4 (-1) 4 0 4 s).
  { constructor; cbn [c_x c_z c_dx c_pos s]; auto.
    - intros i _. rewrite S_INR. lra.
    - simpl; lra.
    - intros i j Hij _ _ _. now apply lt_INR.
    - simpl; lra.
    - intros i _. lra.
    - intros i _. rewrite S_INR. lra. }
  assert (Hx : argsort 5 (upd INR 3 (3 / 2)) = [0; 1; 3; 2; 4]%nat).
  { cbv -[Rleb IZR Rdiv Rplus]. cbn.
    repeat (match goal with |- context [Rleb ?a ?b] => destruct (Rleb_spec a b); try (exfalso; lra) end; cbn). reflexivity. }
  assert (Hq : argsort 4 (upd (fun i => INR i) 3 (INR 2)) = [0; 1; 2; 3]%nat).
  { cbv -[Rleb IZR Rdiv Rplus]. cbn.
    repeat (match goal with |- context [Rleb ?a ?b] => destruct (Rleb_spec a b); try (exfalso; lra) end; cbn). reflexivity. }
  eexists. split; [exact Hs|].
  unfold reposition. cbn [c_x c_z c_h c_dx c_Q c_pos s Nat.ltb Nat.leb Nat.add].
  replace (Rltb (4 - INR 4) (5 / 2) && Rltb (5 / 2) (4 - INR 0)) with true by (simpl INR; dR; try (exfalso; lra); reflexivity).
  unfold div at 1. destruct (Reqb_spec (-1) 0); [exfalso; lra|]. cbn [bind].
  replace ((5 / 2 - 4) / -1 + INR 0) with (3 / 2) by (simpl INR; lra).
  replace (searchsorted (map INR (seq 0 5)) (3 / 2)) with 2%nat by (cbn; dR; try (exfalso; lra); reflexivity).
  unfold div at 1. destruct (Reqb_spec (INR 2 - INR 1) 0) as [E|_]; [exfalso; simpl in E; lra|]. cbn [bind].
  unfold div at 1. destruct (Reqb_spec (1 + 1) 0) as [E|_]; [exfalso; lra|]. cbn [bind].
  rewrite Hx. cbn [position Nat.eqb]. split; [reflexivity|]. cbn [c_x c_Q c_pos].
  change (upd (fun i => INR i) 3 (INR 2)) with (upd (fun i : nat => INR i) 3%nat (INR 2)). rewrite Hq.
  unfold take. cbn [nth map Nat.eqb]. unfold upd. cbn [Nat.eqb Nat.sub].
  repeat split; simpl; lra.
Qed.

(** Hypotheses met: a pipe of length 4 falling from 4 to 0 with four links, the third junction mobile. *)
Example C53_example : exists s, ok 4 (-1) 4 0 4 s /\ c_z s 4%nat < 5 / 2 < c_z s 0%nat.
Proof.
  destruct C53_flow_after_upstream_shift_refuted as [s [s' [Hs _]]]. exists s. split; [exact Hs|].
  destruct Hs as [_ Hf Hl _ _ _ Hline _]. rewrite (Hline 4%nat), (Hline 0%nat), Hf, Hl by lia. lra.
Qed.
