(** Properties C77 and C78: two models in one, and a model measured from another datum; witnesses. *)
From Coq Require Import ZArith.
From Verif Require Import Prelude M_Numerics M_Coeffs M_Recurrence M_Assembly M_Step M_Geometry M_Storage M_Controls M_Simulation M_Model
  S_Numerics S_Geometry S_Superlink S_Network S_Step S_Simulation S_Model S_Object S_Replay S_Mirror S_Embed L_Forward L_Backward L_Internals L_Coeffs L_Step
  P_Assembly P_Superlink P_Wellposed P_Step P_Limits P_Simulation
  L_Model L_Gauss P_Model P_Replay L_Relate P_Resume P_Object L_Mirror L_MirrorStep L_MirrorObject P_Mirror P_MirrorCases L_Embed L_EmbedObject P_Embed.

(** ** The datum *)
Definition same_place (c : R) : place := mkPlace (fun x => x) (fun x => x) (fun x => x) (fun x => x) (fun x => x) c.
Lemma found_same n : found (fun x => x) n n.
Proof. split; auto. Qed.
Lemma closed_same n M bc J : closed_at (fun x => x) (fun x => x) n n M bc J.
Proof. intros x j Hx _ _ _. exists x. auto. Qed.

Section Datum.
Variable c : R.
Variable D : design.
Local Notation N := (d_net D).
Hypothesis HD : sound D.
Hypothesis HT : tabled D.
Hypothesis Hch : chained D.
Hypothesis Hmk : link_marks N.
Variables slv slv' : mat -> arr -> option arr.
Hypothesis Hslv : solver (n_M N) slv.
Hypothesis Hslv' : solver (n_M N) slv'.

Lemma raised_sound : sound (raise_design c D).
Proof. destruct HD as [[W1 W2 W3 W4] Z Mn Ln Nd En St Or We Pu]. constructor; auto. constructor; auto. Qed.
Lemma raised_embeds : embedded_design (same_place c) D (raise_design c D).
Proof.
  constructor; auto.
  - constructor; auto; try apply found_same; try apply closed_same; cbn; auto 15.
  - split; [apply found_same|]. split; [apply closed_same|]. split; [apply closed_same|]. cbn. auto 15.
  - split; [apply found_same|]. split; [apply closed_same|]. split; [apply closed_same|]. cbn. auto 15.
  - split; [apply found_same|]. split; [apply closed_same|]. split; [apply closed_same|]. cbn. auto 15.
Qed.
Lemma raised_state st : embedded_state (same_place c) N (d_net (raise_design c D)) st (raise_hstate c st).
Proof. constructor; cbn; auto. intros k j _ _. reflexivity. Qed.

(** C78: raise every elevation of a model (inverts of superjunctions and of superlink ends), every prescribed head and every
    head of the initial and of the loaded states by c.  Then every history of steps (with any number of iterations and any
    tolerance), saves and loads gives heads higher by c, and the same clock, depths, flows and control flows. *)
Theorem C78_datum_is_a_convention : forall (m : object) l,
  healthy D m -> (forall a, In a l -> allowed D a) ->
  exists r r', perform_all D slv l m = Some r /\ perform_all (raise_design c D) slv' (map (raise_action c) l) (raise_object c m) = Some r' /\
    let st := b_st (m_body r) in
    let st' := b_st (m_body r') in
    m_t r' = m_t r /\
    (forall j, (j < n_M N)%nat -> h_H st' j = h_H st j + c) /\
    (forall k, (k < n_K N)%nat -> h_Qu st' k = h_Qu st k /\ h_Qd st' k = h_Qd st k) /\
    (forall k j, (k < n_K N)%nat -> (j <= n_nk N k)%nat -> h_h st' (n_I1 N k + j)%nat = h_h st (n_I1 N k + j)%nat) /\
    (forall k j, (k < n_K N)%nat -> (j < n_nk N k)%nat -> h_Q st' (n_i1 N k + j)%nat = h_Q st (n_i1 N k + j)%nat) /\
    (forall o, (o < o_n (d_or D))%nat -> b_Qo (m_body r') o = b_Qo (m_body r) o) /\
    (forall w, (w < w_n (d_we D))%nat -> b_Qw (m_body r') w = b_Qw (m_body r) w) /\
    (forall p, (p < p_n (d_pu D))%nat -> b_Qp (m_body r') p = b_Qp (m_body r) p).
Proof.
  intros m l (W & Rc & Ws) Hl.
  destruct (C77_only_what_is_connected_matters (same_place c) D (raise_design c D) slv slv' HD raised_sound HT raised_embeds Hslv Hslv'
              m (raise_object c m) l (map (raise_action c) l)) as (r & r' & E & E' & T & [S1 S2 S3 S4] & [C1 C2 C3]).
  - split; [|split]; auto.
  - split; [exact W|]. split; [exact Rc|exact Ws].
  - constructor; cbn; auto.
    + split; [reflexivity|]. split; [apply raised_state|constructor; auto].
    + split; [apply raised_state|constructor; auto].
  - clear -l. induction l as [|a l IH]; cbn [map]; constructor; auto. destruct a as [i dt n tol| |t v|]; cbn; try constructor.
    + constructor; cbn; auto. intros k j _ _. reflexivity.
    + right. right. intros j Hj. exists j. auto.
    + split; [apply raised_state|constructor; auto].
  - exact Hl.
  - intros a Ha. apply in_map_iff in Ha. destruct Ha as (a0 & <- & H0). specialize (Hl _ H0). destruct a0 as [i dt n tol| |t v|]; cbn in *; auto.
  - exists r, r'. split; [exact E|]. split; [exact E'|]. cbn in *. auto 12.
Qed.
End Datum.

(** ** Two models in one *)
Lemma joined_l {A} n (f f2 : nat -> A) x : (x < n)%nat -> joined n f f2 x = f x.
Proof. intros H. unfold joined. destruct (Nat.ltb_spec x n); [reflexivity|lia]. Qed.
Lemma joined_r {A} n (f f2 : nat -> A) x : joined n f f2 (n + x) = f2 x.
Proof. unfold joined. destruct (Nat.ltb_spec (n + x) n); [lia|]. f_equal. lia. Qed.
Lemma split_at n n2 x : (x < n + n2)%nat -> (x < n)%nat \/ exists y, (y < n2)%nat /\ x = (n + y)%nat.
Proof. intros H. destruct (Nat.lt_ge_cases x n); [auto|]. right. exists (x - n)%nat. lia. Qed.
(** Whatever is joined to a junction of one of the two models belongs to it. *)
Lemma joined_found_l n n2 : found (fun x => x) n (n + n2).
Proof. split; intros; [lia|auto]. Qed.
Lemma joined_found_r n n2 : found (fun x => n + x)%nat n2 (n + n2).
Proof. split; intros; lia. Qed.
Lemma joined_closed_l n n2 M bc J J2 : closed_at (fun x => x) (fun x => x) n (n + n2) M bc (joined n J (fun x => M + J2 x)%nat).
Proof.
  intros x j Hx Hj _ E. destruct (split_at n n2 x Hx) as [|(y & Hy & ->)]; [exists x; auto|]. rewrite joined_r in E. lia.
Qed.
Lemma joined_closed_r n n2 M M2 bc J J2 : (forall x, (x < n)%nat -> (J x < M)%nat) ->
  closed_at (fun x => n + x)%nat (fun x => M + x)%nat n2 (n + n2) M2 bc (joined n J (fun x => M + J2 x)%nat).
Proof.
  intros HJ x j Hx Hj _ E. destruct (split_at n n2 x Hx) as [Hl|(y & Hy & ->)]; [|exists y; auto]. rewrite joined_l in E by auto.
  specialize (HJ x Hl). lia.
Qed.
Lemma joined_ends M M2 n n2 Ju Jd Ju2 Jd2 : ends_in M n Ju Jd -> ends_in M2 n2 Ju2 Jd2 ->
  ends_in (M + M2) (n + n2) (joined n Ju (fun x => M + Ju2 x)%nat) (joined n Jd (fun x => M + Jd2 x)%nat).
Proof.
  intros H H2 x Hx. destruct (split_at n n2 x Hx) as [Hl|(y & Hy & ->)].
  - rewrite !joined_l by auto. specialize (H x Hl). lia.
  - rewrite !joined_r. specialize (H2 y Hy). lia.
Qed.

Section Beside.
Variables D D2 : design.
Local Notation N := (d_net D).
Local Notation N2 := (d_net D2).
Hypothesis HD : sound D.
Hypothesis HD2 : sound D2.
Hypothesis HT : tabled D.
Hypothesis HT2 : tabled D2.
Hypothesis Hch : chained D.
Hypothesis Hch2 : chained D2.
Hypothesis Hmk : link_marks N.
Hypothesis Hmk2 : link_marks N2.
Hypothesis Hop : same_options N N2.
Let B := beside D D2.

Lemma beside_well_formed : well_formed (beside_network N N2).
Proof.
  destruct (sd_wf _ HD) as [[L1 L2] Ch Rg En]. destruct (sd_wf _ HD2) as [[L1' L2'] Ch' Rg' En'].
  constructor; cbn [beside_network n_K n_nk n_i1 n_I1 n_kI n_fwdi n_bwdi n_isS n_isE n_L n_J n_M n_Ju n_Jd].
  - split.
    + intros k Hk. destruct (split_at _ _ _ Hk) as [H|(y & Hy & ->)]; [rewrite joined_l by auto; auto|rewrite joined_r; auto].
    + intros k k' Hkk Hk'. destruct (split_at _ _ _ Hk') as [H'|(y' & Hy' & ->)].
      * rewrite !joined_l by lia. apply L2; auto.
      * rewrite !joined_r. destruct (Nat.lt_ge_cases k (n_K N)) as [H|H].
        -- rewrite !joined_l by auto. specialize (Rg k H). lia.
        -- replace k with (n_K N + (k - n_K N))%nat by lia. rewrite !joined_r. specialize (L2' (k - n_K N)%nat y' ltac:(lia) Hy'). lia.
  - intros k j Hk Hj. destruct (split_at _ _ _ Hk) as [H|(y & Hy & ->)].
    + rewrite joined_l in Hj by auto. rewrite !(joined_l (n_K N)) by auto. specialize (Rg k H). rewrite !joined_l by lia. apply Ch; auto.
    + rewrite joined_r in Hj. rewrite !(joined_r (n_K N)). rewrite <- Nat.add_assoc, !joined_r.
      destruct (Ch' y j Hy Hj) as (C1 & C2 & C3 & C4 & C5). split; [lia|]. split; [auto|]. split; [auto|].
      split; intros X; [specialize (C4 X)|specialize (C5 X)]; lia.
  - intros k Hk. destruct (split_at _ _ _ Hk) as [H|(y & Hy & ->)].
    + rewrite !joined_l by auto. specialize (Rg k H). lia.
    + rewrite !joined_r. specialize (Rg' y Hy). lia.
  - apply joined_ends; auto.
Qed.

Lemma beside_sound : sound B.
Proof.
  destruct HD as [Wf Z Mn Ln Nd En St Or We Pu]. destruct HD2 as [Wf' Z' Mn' Ln' Nd' En' St' Or' We' Pu'].
  constructor; cbn; auto.
  - apply beside_well_formed.
  - intros i Hi. destruct (split_at _ _ _ Hi) as [H|(y & Hy & ->)]; [rewrite !joined_l by auto; auto|rewrite !joined_r; auto].
  - intros i Hi. destruct (split_at _ _ _ Hi) as [H|(y & Hy & ->)]; [rewrite !joined_l by auto; auto|rewrite !joined_r; auto].
  - intros i Hi. destruct (split_at _ _ _ Hi) as [H|(y & Hy & ->)]; [rewrite !joined_l by auto; auto|rewrite !joined_r; auto].
  - intros i Hi. destruct (split_at _ _ _ Hi) as [H|(y & Hy & ->)]; [rewrite !joined_l by auto; auto|rewrite !joined_r; auto].
  - split; [apply joined_ends; [apply Or|apply Or']|].
    intros i Hi. destruct (split_at _ _ _ Hi) as [H|(y & Hy & ->)]; [rewrite !joined_l by auto; apply Or; auto|rewrite !joined_r; apply Or'; auto].
  - apply joined_ends; auto.
  - split; [apply joined_ends; [apply Pu|apply Pu']|].
    intros i Hi. destruct (split_at _ _ _ Hi) as [H|(y & Hy & ->)]; [rewrite !joined_l by auto; apply Pu; auto|rewrite !joined_r; apply Pu'; auto].
Qed.

Lemma beside_chained : chained B.
Proof.
  intros k j Hk Hj. cbn in *. destruct (split_at _ _ _ Hk) as [H|(y & Hy & ->)].
  - rewrite joined_l in Hj by auto. rewrite !(joined_l (n_K N)) by auto. destruct (wf_range _ (sd_wf _ HD) k H). rewrite joined_l by lia. apply Hch; auto.
  - rewrite joined_r in Hj. rewrite !(joined_r (n_K N)), <- !Nat.add_assoc, joined_r. rewrite Hch2; auto.
Qed.
Lemma beside_marks : link_marks (d_net B).
Proof.
  intros k j Hk Hj. cbn in *. destruct (split_at _ _ _ Hk) as [H|(y & Hy & ->)].
  - rewrite joined_l in Hj by auto. rewrite !(joined_l (n_K N)) by auto. destruct (wf_range _ (sd_wf _ HD) k H). rewrite !joined_l by lia. apply Hmk; auto.
  - rewrite joined_r in Hj. rewrite !(joined_r (n_K N)), <- !Nat.add_assoc, !joined_r. apply Hmk2; auto.
Qed.

Lemma beside_first : embedded_design first_part D B.
Proof.
  constructor; auto using beside_chained.
  - constructor; auto using beside_marks; cbn.
    + apply joined_found_l.
    + apply joined_found_l.
    + apply joined_closed_l.
    + apply joined_closed_l.
    + intros j Hj. rewrite !joined_l by auto. split; [auto|]. split; [lra|auto].
    + intros k Hk. destruct (wf_ends _ (sd_wf _ HD) k Hk). rewrite !joined_l by auto. repeat split; lra.
    + intros k j Hk Hj. destruct (wf_range _ (sd_wf _ HD) k Hk). rewrite !(joined_l (n_K N)) by auto. rewrite !joined_l by lia. repeat split.
    + intros k j Hk Hj. destruct (wf_range _ (sd_wf _ HD) k Hk). rewrite !(joined_l (n_K N)) by auto. rewrite !joined_l by lia. reflexivity.
  - intros k j Hk Hj. cbn. destruct (wf_range _ (sd_wf _ HD) k Hk). rewrite !(joined_l (n_K N)) by auto. rewrite !joined_l by lia. reflexivity.
  - intros j Hj. cbn. rewrite joined_l by auto. reflexivity.
  - split; [apply joined_found_l|]. split; [apply joined_closed_l|]. split; [apply joined_closed_l|].
    intros x Hx. cbn in *. rewrite !joined_l by auto. repeat split.
  - split; [apply joined_found_l|]. split; [apply joined_closed_l|]. split; [apply joined_closed_l|].
    intros x Hx. cbn in *. rewrite !joined_l by auto. repeat split.
  - split; [apply joined_found_l|]. split; [apply joined_closed_l|]. split; [apply joined_closed_l|].
    intros x Hx. cbn in *. rewrite !joined_l by auto. repeat split.
Qed.

Lemma beside_second : embedded_design (second_part D) D2 B.
Proof.
  destruct Hop as (O1 & O2 & O3 & O4 & O5).
  constructor; auto using beside_chained.
  - constructor; auto using beside_marks; cbn.
    + apply joined_found_r.
    + apply joined_found_r.
    + apply joined_closed_r. intros x Hx. apply (wf_ends _ (sd_wf _ HD) x Hx).
    + apply joined_closed_r. intros x Hx. apply (wf_ends _ (sd_wf _ HD) x Hx).
    + intros j Hj. rewrite !joined_r by auto. split; [auto|]. split; [lra|auto].
    + intros k Hk. rewrite !joined_r. repeat split; lra.
    + intros k j Hk Hj. rewrite !(joined_r (n_K N)), <- !Nat.add_assoc, !joined_r. repeat split.
    + intros k j Hk Hj. rewrite !(joined_r (n_K N)), <- !Nat.add_assoc, !joined_r. reflexivity.
  - intros k j Hk Hj. cbn. rewrite !(joined_r (n_K N)), <- !Nat.add_assoc, !joined_r. reflexivity.
  - intros j Hj. cbn. rewrite joined_r. reflexivity.
  - destruct (sd_or _ HD) as [Or _].
    split; [apply joined_found_r|]. split; [apply joined_closed_r; intros; now apply Or|]. split; [apply joined_closed_r; intros; now apply Or|].
    intros x Hx. cbn in *. rewrite !joined_r. repeat split.
  - pose proof (sd_we _ HD) as Or.
    split; [apply joined_found_r|]. split; [apply joined_closed_r; intros; now apply Or|]. split; [apply joined_closed_r; intros; now apply Or|].
    intros x Hx. cbn in *. rewrite !joined_r. repeat split.
  - destruct (sd_pu _ HD) as [Or _].
    split; [apply joined_found_r|]. split; [apply joined_closed_r; intros; now apply Or|]. split; [apply joined_closed_r; intros; now apply Or|].
    intros x Hx. cbn in *. rewrite !joined_r. repeat split.
Qed.

Lemma beside_state_first st st2 : embedded_state first_part N (d_net B) st (beside_hstate N st st2).
Proof.
  constructor; cbn.
  - intros j Hj. rewrite joined_l by auto. lra.
  - intros k Hk. rewrite !joined_l by auto. auto.
  - intros k j Hk Hj. cbn. destruct (wf_range _ (sd_wf _ HD) k Hk). rewrite (joined_l (n_K N)) by auto. rewrite joined_l by lia. reflexivity.
  - intros k j Hk Hj. destruct (wf_range _ (sd_wf _ HD) k Hk). rewrite (joined_l (n_K N)) by auto. rewrite joined_l by lia. reflexivity.
Qed.
Lemma beside_state_second st st2 : embedded_state (second_part D) N2 (d_net B) st2 (beside_hstate N st st2).
Proof.
  constructor; cbn.
  - intros j Hj. rewrite joined_r. lra.
  - intros k Hk. rewrite !joined_r. auto.
  - intros k j Hk Hj. cbn. rewrite (joined_r (n_K N)), <- Nat.add_assoc, joined_r. reflexivity.
  - intros k j Hk Hj. rewrite (joined_r (n_K N)), <- Nat.add_assoc, joined_r. reflexivity.
Qed.
Lemma beside_saved_first v v2 : embedded_saved first_part D B v (beside_saved D v v2).
Proof. split; [apply beside_state_first|]. constructor; intros; cbn; now rewrite joined_l. Qed.
Lemma beside_saved_second v v2 : embedded_saved (second_part D) D2 B v2 (beside_saved D v v2).
Proof. split; [apply beside_state_second|]. constructor; intros; cbn; now rewrite joined_r. Qed.
Lemma beside_watered st st2 : watered D st -> watered D2 st2 -> watered B (beside_hstate N st st2).
Proof.
  intros W W2 i Hi. cbn in *. destruct (split_at _ _ _ Hi) as [H|(y & Hy & ->)].
  - pose proof (tb_Ik _ HT i H). rewrite !(joined_l (n_L N)) by auto. rewrite !joined_l by lia. auto.
  - rewrite !(joined_r (n_L N)), <- !Nat.add_assoc, !joined_r. auto.
Qed.

Variables slv slv2 slv' : mat -> arr -> option arr.
Hypothesis Hslv : solver (n_M N) slv.
Hypothesis Hslv2 : solver (n_M N2) slv2.
Hypothesis Hslv' : solver (n_M N + n_M N2) slv'.
Hypothesis HM : (1 <= n_M N)%nat.
Hypothesis HM2 : (1 <= n_M N2)%nat.

(** C77: two models put into one.  Each part does what it does alone, whatever happens in the other one (with one pass per step,
    as by default, or a fixed number of passes). *)
Theorem C77_side_by_side : forall (m m2 : object) (l : list (action * action * action)),
  healthy D m -> healthy D2 m2 -> m_t m2 = m_t m -> fst (m_saved m2) = fst (m_saved m) ->
  (forall a a2 a', In (a, a2, a') l -> beside_action D a a2 a' /\ allowed D a /\ allowed D2 a2) ->
  exists r r2 r',
    perform_all D slv (map (fun x => fst (fst x)) l) m = Some r /\
    perform_all D2 slv2 (map (fun x => snd (fst x)) l) m2 = Some r2 /\
    perform_all (beside D D2) slv' (map snd l) (beside_object D m m2) = Some r' /\
    embedded_view first_part D (beside D D2) r r' /\ embedded_view (second_part D) D2 (beside D D2) r2 r'.
Proof.
  intros m m2 l (W & Rc & Ws) (W2 & Rc2 & Ws2) Et Es Hl. fold B.
  assert (Hb : healthy B (beside_object D m m2)).
  { split; [apply beside_watered; auto|]. split; [constructor|apply beside_watered; auto]. }
  assert (Al : forall a', In a' (map snd l) -> allowed B a').
  { intros a' Ha. apply in_map_iff in Ha. destruct Ha as ([[a a2] b] & <- & Hin). cbn [snd]. destruct (Hl _ _ _ Hin) as (Hx & A1 & A2).
    destruct Hx as [i i2 dt n tol _| |t v v2|]; cbn [allowed] in *; auto; [|apply beside_watered; auto].
    destruct A1 as (T1 & P1 & Q1). destruct A2 as (T2 & P2 & Q2). split; [auto|]. cbn. split.
    - intros p Hp. destruct (split_at _ _ _ Hp) as [H|(y & Hy & ->)]; [rewrite joined_l by auto; auto|rewrite joined_r; auto].
    - intros p Hp. destruct (split_at _ _ _ Hp) as [H|(y & Hy & ->)]; [rewrite !joined_l by auto; auto|rewrite !joined_r; auto]. }
  destruct (C77_only_what_is_connected_matters first_part D B slv slv' HD beside_sound HT beside_first Hslv Hslv' m (beside_object D m m2)
    (map (fun x => fst (fst x)) l) (map snd l)) as (r & r' & E & E' & V); auto.
  - split; auto.
  - constructor; cbn; auto.
    + split; [reflexivity|]. split; [apply beside_state_first|]. constructor; intros; cbn; now rewrite joined_l.
    + intros k Hk. now rewrite joined_l.
    + intros k Hk. now rewrite joined_l.
    + apply beside_saved_first.
  - clear Al Hb. induction l as [|[[a a2] b] l IH]; cbn [map fst snd]; constructor; [|apply IH; intros; apply Hl; now right].
    destruct (Hl a a2 b (or_introl eq_refl)) as (Hx & _). destruct Hx as [i i2 dt n tol Hn| |t v v2|]; constructor; auto using beside_saved_first.
    + constructor; cbn; intros; try (now rewrite joined_l by auto); try (rewrite joined_l by auto; lra).
      intros k j Hk Hj. cbn. destruct (wf_range _ (sd_wf _ HD) k Hk). rewrite (joined_l (n_K N)) by auto. rewrite joined_l by lia. reflexivity.
    + destruct Hn; [left; auto|right; left; auto].
  - intros a Ha. apply in_map_iff in Ha. destruct Ha as ([[a0 a2] b] & <- & Hin). apply (Hl _ _ _ Hin).
  - destruct (C77_only_what_is_connected_matters (second_part D) D2 B slv2 slv' HD2 beside_sound HT2 beside_second Hslv2 Hslv' m2 (beside_object D m m2)
      (map (fun x => snd (fst x)) l) (map snd l)) as (r2 & r2' & E2 & E2' & V2); auto.
    + split; auto.
    + constructor; cbn; auto.
      * split; [cbn; auto|]. split; [apply beside_state_second|]. constructor; intros; cbn; now rewrite joined_r.
      * intros k Hk. now rewrite joined_r.
      * intros k Hk. now rewrite joined_r.
      * apply beside_saved_second.
    + clear Al Hb E E'. induction l as [|[[a a2] b] l IH]; cbn [map fst snd]; constructor; [|apply IH; intros; apply Hl; now right].
      destruct (Hl a a2 b (or_introl eq_refl)) as (Hx & _). destruct Hx as [i i2 dt n tol Hn| |t v v2|]; constructor; auto using beside_saved_second.
      * constructor; cbn; intros; try (now rewrite joined_r); try (rewrite joined_r; lra).
        intros k j Hk Hj. cbn. rewrite (joined_r (n_K N)), <- Nat.add_assoc, joined_r. reflexivity.
      * destruct Hn; [left; auto|right; left; auto].
    + intros a Ha. apply in_map_iff in Ha. destruct Ha as ([[a0 a2] b] & <- & Hin). apply (Hl _ _ _ Hin).
    + rewrite E' in E2'. injection E2' as <-. exists r, r2, r'. auto.
Qed.
End Beside.

(** ** Witnesses *)
Lemma straight_tabled : tabled straight.
Proof. destruct flat_tabled as [T1 T2 T3]. constructor; auto. Qed.
Lemma straight_chained : chained straight.
Proof. intros k j Hk Hj. apply (md_Ik _ _ _ turned_mirrors k j Hk Hj). Qed.
Lemma straight_marks : link_marks rest_net.
Proof. exact (mn_marks _ _ _ (md_net _ _ _ turned_mirrors)). Qed.
Lemma straight_watered : watered straight flow_state.
Proof. intros i Hi. simpl in Hi. cbn [flow_state h_h straight with_net demo d_Ik]. unfold rest_bed. do 5 (destruct i as [|i]; [simpl; lra|]). lia. Qed.
Lemma straight_healthy : healthy straight (starting flow_state).
Proof. split; [exact straight_watered|]. split; [constructor|exact straight_watered]. Qed.

(** The network of C58 with water flowing, an orifice, a weir, a pump and a prescribed head, 100 m higher: after iterated steps,
    a save and a rollback its heads are 100 m higher, the pump delivers the same. *)
Example C78_example :
  sound straight /\ tabled straight /\ chained straight /\ link_marks rest_net /\ healthy straight (starting flow_state) /\
  (forall a, In a (tour 4) -> allowed straight a) /\
  exists r r', perform_all straight (gauss 3) (tour 4) (starting flow_state) = Some r /\
    perform_all (raise_design 100 straight) (gauss 3) (map (raise_action 100) (tour 4)) (raise_object 100 (starting flow_state)) = Some r' /\
    h_H (b_st (m_body r')) 2%nat = h_H (b_st (m_body r)) 2%nat + 100 /\
    h_Q (b_st (m_body r')) 4%nat = h_Q (b_st (m_body r)) 4%nat /\ b_Qp (m_body r') 0%nat = b_Qp (m_body r) 0%nat.
Proof.
  assert (A : forall a, In a (tour 4) -> allowed straight a).
  { intros a Ha. simpl in Ha. destruct Ha as [<-|[<-|[<-|[<-|[<-|[]]]]]]; simpl; auto; (split; [lra|split; simpl; intros; lra]). }
  split; [exact straight_sound|]. split; [exact straight_tabled|]. split; [exact straight_chained|]. split; [exact straight_marks|].
  split; [exact straight_healthy|]. split; [exact A|].
  destruct (C78_datum_is_a_convention 100 straight straight_sound straight_tabled straight_chained straight_marks (gauss 3) (gauss 3) (gauss_solver 3) (gauss_solver 3)
    (starting flow_state) (tour 4) straight_healthy A) as (r & r' & E & E' & _ & S1 & _ & _ & S4 & _ & _ & S7).
  exists r, r'. split; [exact E|]. split; [exact E'|]. split; [apply S1; simpl; lia|].
  split; [exact (S4 1%nat 1%nat ltac:(simpl; lia) ltac:(cbn; lia))|apply S7; simpl; lia].
Qed.

(** That network and the one of C58 in one model, with different lateral inflows: the two parts do what they do alone. *)
Definition outing : list (action * action * action) :=
  let step dt n := (Step (lateral 4) dt n 0, Step demo_inputs dt n 0, Step (beside_inputs straight (lateral 4) demo_inputs) dt n 0) in
  [step 60 1%nat; (Save, Save, Save); step 30 3%nat; (Restore, Restore, Restore); step 10 2%nat].
Example C77_side_by_side_example :
  sound straight /\ sound demo /\ sound (beside straight demo) /\ same_options rest_net rest_net /\
  (forall a a2 a', In (a, a2, a') outing -> beside_action straight a a2 a' /\ allowed straight a /\ allowed demo a2) /\
  exists r r2 r', perform_all straight (gauss 3) (map (fun x => fst (fst x)) outing) (starting flow_state) = Some r /\
    perform_all demo (gauss 3) (map (fun x => snd (fst x)) outing) demo_object = Some r2 /\
    perform_all (beside straight demo) (gauss 6) (map snd outing) (beside_object straight (starting flow_state) demo_object) = Some r' /\
    h_H (b_st (m_body r')) 1%nat = h_H (b_st (m_body r)) 1%nat /\ h_H (b_st (m_body r')) 4%nat = h_H (b_st (m_body r2)) 1%nat /\
    h_Q (b_st (m_body r')) 9%nat = h_Q (b_st (m_body r2)) 4%nat /\ b_Qp (m_body r') 1%nat = b_Qp (m_body r2) 0%nat.
Proof.
  assert (Td : tabled demo) by (destruct flat_tabled as [T1 T2 T3]; constructor; auto).
  assert (Cd : chained demo) by (intros k j Hk Hj; apply (md_Ik _ _ _ turned_mirrors k j Hk Hj)).
  assert (Op : same_options rest_net rest_net) by (repeat split).
  assert (Wd : watered demo rest_state).
  { intros i Hi. simpl in Hi. cbn [rest_state h_h demo d_Ik]. unfold rest_bed. do 5 (destruct i as [|i]; [simpl; lra|]). lia. }
  assert (Hd : healthy demo demo_object) by (split; [exact Wd|split; [constructor|exact Wd]]).
  assert (A : forall a a2 a', In (a, a2, a') outing -> beside_action straight a a2 a' /\ allowed straight a /\ allowed demo a2).
  { intros a a2 a' Ha. simpl in Ha. destruct Ha as [Ha|[Ha|[Ha|[Ha|[Ha|[]]]]]]; injection Ha as <- <- <-; simpl;
      (split; [constructor; auto; right; lra|]); auto; (split; (split; [lra|split; simpl; intros; lra])). }
  split; [exact straight_sound|]. split; [exact demo_sound|].
  split; [exact (beside_sound straight demo straight_sound demo_sound)|]. split; [exact Op|]. split; [exact A|].
  destruct (C77_side_by_side straight demo straight_sound demo_sound straight_tabled Td straight_chained Cd straight_marks straight_marks Op
    (gauss 3) (gauss 3) (gauss 6) (gauss_solver 3) (gauss_solver 3) (gauss_solver 6) ltac:(simpl; lia) ltac:(simpl; lia)
    (starting flow_state) demo_object outing straight_healthy Hd eq_refl eq_refl A) as (r & r2 & r' & E & E2 & E' & (_ & [S1 _ _ _] & _) & (_ & [T1 _ _ T4] & [_ _ T5])).
  exists r, r2, r'. split; [exact E|]. split; [exact E2|]. split; [exact E'|].
  pose proof (S1 1%nat ltac:(simpl; lia)) as X1. pose proof (T1 1%nat ltac:(simpl; lia)) as X2. cbn in X1, X2. rewrite Rplus_0_r in X1, X2.
  split; [exact X1|]. split; [exact X2|]. split; [exact (T4 1%nat 1%nat ltac:(simpl; lia) ltac:(cbn; lia))|exact (T5 0%nat ltac:(simpl; lia))].
Qed.

(** A model cut at a superjunction with a prescribed head: the second superlink and the weir of the network, numbered anew (the
    superjunctions backwards) and measured from a datum 5 m higher. *)
Definition held_net : network :=
  let n := rest_net in
  mkNetwork (n_K n) (n_nk n) (n_i1 n) (n_I1 n) (n_Ju n) (n_Jd n) (n_L n) (n_J n) (n_kI n) (n_fwdi n) (n_bwdi n) (n_isS n) (n_isE n)
    (n_lstart n) (n_lend n) (n_dx n) (n_n n) (n_sf n) (n_So n) (n_Ac n) (n_C n) (n_ctrl n) (n_ASI n) (n_dxu n) (n_dxd n) (n_Cu n) (n_Cd n)
    (n_zu n) (n_zd n) (n_nu n) (n_nd n) (n_sfu n) (n_sfd n) (n_Su n) (n_Sd n) (n_M n) (fun j => Nat.eqb j 1) (n_zj n) (n_maxj n) (n_min n) (n_maxk n)
    (n_end_o n) (n_bcm n) (n_damp n) (n_back n).
Definition no_pumps : pumps := mkPumps 0 (fun x => x) (fun x => x) zeros zeros zeros zeros zeros zeros.
Definition held : design :=
  mkDesign held_net (d_Ik demo) (d_sec demo) (d_ell demo) (d_store demo) (d_or demo) (d_ocode demo) (d_o1 demo) (d_o2 demo) (d_o3 demo) (d_we demo) no_pumps.
Definition piece_network : network :=
  mkNetwork 1 (fun _ => 2%nat) (fun _ => 0%nat) (fun _ => 0%nat) (fun _ => 1%nat) (fun _ => 0%nat) 2 3 (fun _ => 0%nat) (fun I => I) (fun I => (I - 1)%nat)
    (fun I => Nat.eqb I 0) (fun I => Nat.eqb I 2) (fun i => Nat.eqb i 0) (fun i => Nat.eqb i 1)
    (fun _ => 10) (fun _ => 1/100) (fun _ => 0%nat) (fun _ => 1/10) (fun _ => 1) (fun _ => 1/2) (fun _ => false) (fun _ => 0)
    (fun _ => 1) (fun _ => 1) (fun _ => 1/2) (fun _ => 1) (fun _ => -3) (fun _ => -5) (fun _ => 1/100) (fun _ => 1/100) (fun _ => 0%nat) (fun _ => 0%nat)
    (fun _ => 0) (fun _ => 0) 2 (fun j => Nat.eqb j 1) (fun _ => -5) (fun _ => 100) (1/1000) (fun _ => 50) false BCz true true.
Definition piece : design :=
  mkDesign piece_network (fun i => i) (fun _ => d_sec demo 3%nat) (d_ell demo) (fun j => match j with O => d_store demo 2 | _ => d_store demo 1 end)
    (mkOrifices 0 (fun x => x) (fun x => x) zeros zeros zeros zeros zeros (fun _ => false)) (fun _ => 1%nat) zeros zeros zeros
    (mkWeirs 1 (fun _ => 1%nat) (fun _ => 0%nat) (fun _ => 1) (fun _ => 1) (fun _ => 2) (fun _ => 1) (fun _ => 1) (fun _ => 1)) no_pumps.
Definition cut : place := mkPlace (fun j => (2 - j)%nat) (fun _ => 1%nat) (fun x => x) (fun x => x) (fun x => x) 5.
Definition piece_state : hstate :=
  mkHState (fun _ => 5) (fun _ => 1/10) (fun _ => 3/10) (fun I => 10 - rest_bed (4 + I)%nat) (fun i => 1/5 + INR (3 + i)%nat / 100).
Definition piece_inputs : inputs :=
  mkInputs (fun _ => -4) (fun _ => 1/10) (fun I => if Nat.eqb I 0 then 1/20 else 0) (fun _ => 1/2) (fun _ => 1/2) (fun _ => 1).

Lemma held_sound : sound held.
Proof.
  destruct demo_sound as [[W1 W2 W3 W4] Z Mn Ln Nd En St Or We Pu]. constructor; auto; [constructor; auto|].
  split; [intros k Hk; simpl in Hk; lia|intros p Hp; simpl in Hp; lia].
Qed.
Lemma piece_sound : sound piece.
Proof.
  constructor; try reflexivity.
  - constructor.
    + split; intros; simpl in *; lia.
    + intros [|k] j Hk Hj; simpl in Hk; [|lia]. cbn in *. repeat split; auto; intros; lia.
    + simpl; intros; lia.
    + intros k Hk; simpl; lia.
  - simpl; lra.
  - intros i Hi. split; [apply (sd_links _ demo_sound 3%nat); simpl; lia|]. simpl. repeat split; try lra; try lia; try discriminate.
  - simpl; intros; lra.
  - simpl; intros; lra.
  - intros j Hj. destruct j as [|j]; [exact (sd_store _ demo_sound 2%nat ltac:(simpl; lia))|exact (sd_store _ demo_sound 1%nat ltac:(simpl; lia))].
  - split; [intros k Hk; simpl in Hk; lia|intros o Ho; simpl in Ho; lia].
  - intros k Hk; simpl in *; lia.
  - split; [intros k Hk; simpl in Hk; lia|intros o Ho; simpl in Ho; lia].
Qed.
Lemma cut_embeds : embedded_design cut piece held.
Proof.
  assert (Hj : found (fun j => (2 - j)%nat) 2 3) by (split; intros; lia).
  constructor.
  - constructor; try reflexivity; auto.
    + split; intros; simpl in *; lia.
    + intros x j Hx Lj Hb E. simpl in *. destruct j as [|j]; [|destruct j; [discriminate|lia]]. lia.
    + intros x j Hx Lj Hb E. simpl in *. destruct j as [|j]; [|destruct j; [discriminate|lia]]. exists 0%nat. lia.
    + intros [|k] j Hk Hl; simpl in Hk; [|lia]. cbn in *. do 2 (destruct j as [|j]; [split; reflexivity|]). lia.
    + exact straight_marks.
    + intros j Lj. simpl in Lj. do 2 (destruct j as [|j]; [cbn; repeat split; lra|]). lia.
    + intros [|k] Hk; simpl in Hk; [|lia]. cbn. repeat split; lra.
    + intros [|k] j Hk Hl; simpl in Hk; [|lia]. cbn in *. do 2 (destruct j as [|j]; [repeat split|]). lia.
  - intros [|k] j Hk Hl; simpl in Hk; [|lia]. cbn. lia.
  - intros k j Hk Hl. exact (straight_chained k j Hk Hl).
  - intros [|k] j Hk Hl; simpl in Hk; [|lia]. cbn in *. do 2 (destruct j as [|j]; [reflexivity|]). lia.
  - intros j Lj. simpl in Lj. do 2 (destruct j as [|j]; [reflexivity|]). lia.
  - split; [split; intros; simpl in *; lia|]. split; [|split; [|intros x Hx; simpl in Hx; lia]];
      intros x j Hx Lj Hb E; simpl in *; destruct j as [|j]; try (destruct j; [discriminate|lia]); lia.
  - split; [split; intros; simpl in *; lia|]. split; [|split]; try (intros x j Hx Lj Hb E; exists x; auto).
    intros x Hx. cbn. repeat split.
  - split; [split; intros; simpl in *; lia|]. split; [|split]; try (intros x j Hx Lj Hb E; simpl in Hx; lia). intros x Hx. simpl in Hx. lia.
Qed.

Example C77_example :
  sound piece /\ sound held /\ tabled piece /\ embedded_design cut piece held /\
  exists r r', perform_all piece (gauss 2) [Step piece_inputs 60 4 0; Save; Step piece_inputs 30 1 (1/100); Restore; Step piece_inputs 10 1 1] (starting piece_state) = Some r /\
    perform_all held (gauss 3) [Step (lateral 4) 60 4 0; Save; Step (lateral 4) 30 1 (1/100); Restore; Step (lateral 4) 10 1 1] (starting flow_state) = Some r' /\
    h_H (b_st (m_body r')) 2%nat = h_H (b_st (m_body r)) 0%nat + 5 /\ h_h (b_st (m_body r')) 5%nat = h_h (b_st (m_body r)) 1%nat /\
    h_Q (b_st (m_body r')) 4%nat = h_Q (b_st (m_body r)) 1%nat /\ b_Qw (m_body r') 0%nat = b_Qw (m_body r) 0%nat.
Proof.
  assert (Tp : tabled piece).
  { constructor; simpl; intros; try lia. do 2 (destruct i as [|i]; [simpl; auto; right; lia|]). lia. }
  assert (S : embedded_state cut piece_network held_net piece_state flow_state).
  { constructor; cbn.
    - intros; lra.
    - intros; lra.
    - intros [|k] j Hk Hl; simpl in Hk; [|lia]. reflexivity.
    - intros [|k] j Hk Hl; simpl in Hk; [|lia]. reflexivity. }
  assert (C : embedded_controlled cut piece zeros zeros zeros zeros zeros zeros) by (constructor; reflexivity).
  assert (Wp : watered piece piece_state).
  { intros i Hi. simpl in Hi. cbn [piece_state h_h piece d_Ik]. unfold rest_bed. do 2 (destruct i as [|i]; [simpl; lra|]). lia. }
  assert (Hp : healthy piece (starting piece_state)) by (split; [exact Wp|split; [constructor|exact Wp]]).
  assert (Hh : healthy held (starting flow_state)) by (split; [exact straight_watered|split; [constructor|exact straight_watered]]).
  assert (I : embedded_inputs cut piece held piece_inputs (lateral 4)).
  { constructor; cbn; intros; auto; try lra. intros [|k] j Hk Hl; simpl in Hk; [|lia]. cbn in *. do 3 (destruct j as [|j]; [reflexivity|]). lia. }
  split; [exact piece_sound|]. split; [exact held_sound|]. split; [exact Tp|]. split; [exact cut_embeds|].
  destruct (C77_only_what_is_connected_matters cut piece held (gauss 2) (gauss 3) piece_sound held_sound Tp cut_embeds (gauss_solver 2) (gauss_solver 3)
    (starting piece_state) (starting flow_state)
    [Step piece_inputs 60 4 0; Save; Step piece_inputs 30 1 (1/100); Restore; Step piece_inputs 10 1 1]
    [Step (lateral 4) 60 4 0; Save; Step (lateral 4) 30 1 (1/100); Restore; Step (lateral 4) 10 1 1]) as (r & r' & E & E' & _ & [S1 _ S3 S4] & [_ C2 _]); auto.
  - constructor; cbn; auto; [split; [reflexivity|split; auto]|split; auto].
  - repeat apply Forall2_cons; try apply Forall2_nil; constructor; auto; [right; left; simpl; split; [lra|lia]|left; auto|left; auto].
  - intros a Ha. simpl in Ha. destruct Ha as [<-|[<-|[<-|[<-|[<-|[]]]]]]; simpl; auto; (split; [lra|split; simpl; intros; lia]).
  - intros a Ha. simpl in Ha. destruct Ha as [<-|[<-|[<-|[<-|[<-|[]]]]]]; simpl; auto; (split; [lra|split; simpl; intros; try lia; lra]).
  - exists r, r'. split; [exact E|]. split; [exact E'|]. split; [exact (S1 0%nat ltac:(simpl; lia))|].
    split; [exact (S3 0%nat 1%nat ltac:(simpl; lia) ltac:(cbn; lia))|]. split; [exact (S4 0%nat 1%nat ltac:(simpl; lia) ltac:(cbn; lia))|].
    exact (C2 0%nat ltac:(simpl; lia)).
Qed.
