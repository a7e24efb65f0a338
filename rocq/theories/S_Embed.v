(** Specification vocabulary for C77 and C78: one model is found again inside another one.  Superjunctions, superlinks and
    controls of the first appear in the second under other numbers, all its elevations are measured from another datum, and the
    second may contain more: nothing else of it is connected to the part, except at superjunctions with a prescribed head. *)
From Verif Require Import Prelude M_Coeffs M_Recurrence M_Step M_Controls M_Simulation M_Model S_Superlink S_Network S_Step S_Model S_Mirror.

(** Where the parts of the first model are found in the second, and the elevation of the second model's datum below the first's. *)
Record place : Type := mkPlace {
  pj : nat -> nat; pk : nat -> nat; po : nat -> nat; pw : nat -> nat; pp : nat -> nat; pz : R }.

(** n elements are found among n' elements, each at its own place. *)
Definition found (f : nat -> nat) (n n' : nat) : Prop :=
  (forall x, (x < n)%nat -> (f x < n')%nat) /\ (forall x y, (x < n)%nat -> (y < n)%nat -> f x = f y -> x = y).
(** Whatever ends at a superjunction of the part with free head belongs to the part. *)
Definition closed_at (f fj : nat -> nat) (n n' M : nat) (bc : nat -> bool) (J' : nat -> nat) : Prop :=
  forall x' j, (x' < n')%nat -> (j < M)%nat -> bc j = false -> J' x' = fj j -> exists x, (x < n)%nat /\ f x = x'.

Record embedded_network (F : place) (N N' : network) : Prop := mkEN {
  en_j : found (pj F) (n_M N) (n_M N'); en_k : found (pk F) (n_K N) (n_K N');
  en_cu : closed_at (pk F) (pj F) (n_K N) (n_K N') (n_M N) (n_bc N) (n_Ju N');
  en_cd : closed_at (pk F) (pj F) (n_K N) (n_K N') (n_M N) (n_bc N) (n_Jd N');
  en_min : n_min N' = n_min N; en_end_o : n_end_o N' = n_end_o N; en_bcm : n_bcm N' = n_bcm N;
  en_damp : n_damp N' = n_damp N; en_back : n_back N' = n_back N;
  en_marks : link_marks N; en_marks' : link_marks N';
  en_sup : forall j, (j < n_M N)%nat ->
    n_bc N' (pj F j) = n_bc N j /\ n_zj N' (pj F j) = n_zj N j + pz F /\ n_maxj N' (pj F j) = n_maxj N j;
  en_ends : forall k, (k < n_K N)%nat -> let k' := pk F k in
    n_nk N' k' = n_nk N k /\ n_maxk N' k' = n_maxk N k /\
    n_Ju N' k' = pj F (n_Ju N k) /\ n_Jd N' k' = pj F (n_Jd N k) /\
    n_zu N' k' = n_zu N k + pz F /\ n_zd N' k' = n_zd N k + pz F /\
    n_Cu N' k' = n_Cu N k /\ n_Cd N' k' = n_Cd N k /\ n_dxu N' k' = n_dxu N k /\ n_dxd N' k' = n_dxd N k;
  en_links : forall k j, (k < n_K N)%nat -> (j < n_nk N k)%nat ->
    let i' := (n_i1 N' (pk F k) + j)%nat in
    let i := (n_i1 N k + j)%nat in
    n_dx N' i' = n_dx N i /\ n_n N' i' = n_n N i /\ n_sf N' i' = n_sf N i /\ n_Ac N' i' = n_Ac N i /\
    n_C N' i' = n_C N i /\ n_ctrl N' i' = n_ctrl N i /\ n_So N' i' = n_So N i;
  en_nodes : forall k j, (k < n_K N)%nat -> (j <= n_nk N k)%nat ->
    n_ASI N' (n_I1 N' (pk F k) + j)%nat = n_ASI N (n_I1 N k + j)%nat }.

(** Values at internal junctions in the two numberings. *)
Definition embedded_nodes (F : place) (N N' : network) (x x' : arr) : Prop :=
  forall k j, (k < n_K N)%nat -> (j <= n_nk N k)%nat -> x' (n_I1 N' (pk F k) + j)%nat = x (n_I1 N k + j)%nat.

(** The same water: heads from the other datum, equal depths and flows. *)
Record embedded_state (F : place) (N N' : network) (st st' : hstate) : Prop := mkES {
  es_H : forall j, (j < n_M N)%nat -> h_H st' (pj F j) = h_H st j + pz F;
  es_Qe : forall k, (k < n_K N)%nat -> h_Qu st' (pk F k) = h_Qu st k /\ h_Qd st' (pk F k) = h_Qd st k;
  es_h : embedded_nodes F N N' (h_h st) (h_h st');
  es_Q : forall k j, (k < n_K N)%nat -> (j < n_nk N k)%nat -> h_Q st' (n_i1 N' (pk F k) + j)%nat = h_Q st (n_i1 N k + j)%nat }.

Record embedded_geometry (F : place) (N N' : network) (G G' : geometry) : Prop := mkEG {
  eg_links : forall k j, (k < n_K N)%nat -> (j < n_nk N k)%nat ->
    let i' := (n_i1 N' (pk F k) + j)%nat in
    let i := (n_i1 N k + j)%nat in
    g_A G' i' = g_A G i /\ g_R G' i' = g_R G i /\ g_B G' i' = g_B G i;
  eg_ends : forall k, (k < n_K N)%nat -> let k' := pk F k in
    g_Au G' k' = g_Au G k /\ g_Ad G' k' = g_Ad G k /\ g_Bu G' k' = g_Bu G k /\ g_Bd G' k' = g_Bd G k;
  eg_store : forall j, (j < n_M N)%nat -> g_Asj G' (pj F j) = g_Asj G j }.

(** ** Whole objects *)
Definition embedded_orifices (F : place) (D D' : design) : Prop :=
  let O := d_or D in
  let O' := d_or D' in
  found (po F) (o_n O) (o_n O') /\
  closed_at (po F) (pj F) (o_n O) (o_n O') (n_M (d_net D)) (n_bc (d_net D)) (o_Ju O') /\
  closed_at (po F) (pj F) (o_n O) (o_n O') (n_M (d_net D)) (n_bc (d_net D)) (o_Jd O') /\
  forall x, (x < o_n O)%nat -> let x' := po F x in
    o_Ju O' x' = pj F (o_Ju O x) /\ o_Jd O' x' = pj F (o_Jd O x) /\ o_C O' x' = o_C O x /\ o_z O' x' = o_z O x /\
    o_tau O' x' = o_tau O x /\ o_ymax O' x' = o_ymax O x /\ o_oneway O' x' = o_oneway O x /\
    d_ocode D' x' = d_ocode D x /\ d_o1 D' x' = d_o1 D x /\ d_o2 D' x' = d_o2 D x /\ d_o3 D' x' = d_o3 D x.
Definition embedded_weirs (F : place) (D D' : design) : Prop :=
  let W := d_we D in
  let W' := d_we D' in
  found (pw F) (w_n W) (w_n W') /\
  closed_at (pw F) (pj F) (w_n W) (w_n W') (n_M (d_net D)) (n_bc (d_net D)) (w_Ju W') /\
  closed_at (pw F) (pj F) (w_n W) (w_n W') (n_M (d_net D)) (n_bc (d_net D)) (w_Jd W') /\
  forall x, (x < w_n W)%nat -> let x' := pw F x in
    w_Ju W' x' = pj F (w_Ju W x) /\ w_Jd W' x' = pj F (w_Jd W x) /\ w_z W' x' = w_z W x /\ w_ymax W' x' = w_ymax W x /\
    w_L W' x' = w_L W x /\ w_s W' x' = w_s W x /\ w_Cr W' x' = w_Cr W x /\ w_Ct W' x' = w_Ct W x.
Definition embedded_pumps (F : place) (D D' : design) : Prop :=
  let P := d_pu D in
  let P' := d_pu D' in
  found (pp F) (p_n P) (p_n P') /\
  closed_at (pp F) (pj F) (p_n P) (p_n P') (n_M (d_net D)) (n_bc (d_net D)) (p_Ju P') /\
  closed_at (pp F) (pj F) (p_n P) (p_n P') (n_M (d_net D)) (n_bc (d_net D)) (p_Jd P') /\
  forall x, (x < p_n P)%nat -> let x' := pp F x in
    p_Ju P' x' = pj F (p_Ju P x) /\ p_Jd P' x' = pj F (p_Jd P x) /\ p_z P' x' = p_z P x /\ p_max P' x' = p_max P x /\
    p_min P' x' = p_min P x /\ p_a P' x' = p_a P x /\ p_b P' x' = p_b P x /\ p_c P' x' = p_c P x.

(** The links of a superlink lie between its internal junctions, in order. *)
Definition chained (D : design) : Prop :=
  forall k j, (k < n_K (d_net D))%nat -> (j < n_nk (d_net D) k)%nat -> d_Ik D (n_i1 (d_net D) k + j)%nat = (n_I1 (d_net D) k + j)%nat.

Record embedded_design (F : place) (D D' : design) : Prop := mkED {
  ed_net : embedded_network F (d_net D) (d_net D');
  ed_Ik : chained D; ed_Ik' : chained D';
  ed_sec : forall k j, (k < n_K (d_net D))%nat -> (j < n_nk (d_net D) k)%nat ->
    d_sec D' (n_i1 (d_net D') (pk F k) + j)%nat = d_sec D (n_i1 (d_net D) k + j)%nat;
  ed_store : forall j, (j < n_M (d_net D))%nat -> d_store D' (pj F j) = d_store D j;
  ed_or : embedded_orifices F D D'; ed_we : embedded_weirs F D D'; ed_pu : embedded_pumps F D D' }.

(** Flows in controls are the same. *)
Record embedded_controlled (F : place) (D : design) (Qo Qw Qp Qo' Qw' Qp' : arr) : Prop := mkEC {
  ec_o : forall o, (o < o_n (d_or D))%nat -> Qo' (po F o) = Qo o;
  ec_w : forall w, (w < w_n (d_we D))%nat -> Qw' (pw F w) = Qw w;
  ec_p : forall p, (p < p_n (d_pu D))%nat -> Qp' (pp F p) = Qp p }.

(** What a user reads: clock, heads, depths, flows and control flows of the part. *)
Definition embedded_view (F : place) (D D' : design) (m m' : object) : Prop :=
  m_t m' = m_t m /\ embedded_state F (d_net D) (d_net D') (b_st (m_body m)) (b_st (m_body m')) /\
  embedded_controlled F D (b_Qo (m_body m)) (b_Qw (m_body m)) (b_Qp (m_body m)) (b_Qo (m_body m')) (b_Qw (m_body m')) (b_Qp (m_body m')).
Definition embedded_saved (F : place) (D D' : design) (v v' : saved) : Prop :=
  embedded_state F (d_net D) (d_net D') (v_st v) (v_st v') /\ embedded_controlled F D (v_Qo v) (v_Qw v) (v_Qp v) (v_Qo v') (v_Qw v') (v_Qp v').

(** Two objects at the same point: what they show, what they saved last, and the indicators of submerged ends. *)
Record embedded_object (F : place) (D D' : design) (m m' : object) : Prop := mkEO {
  eo_view : embedded_view F D D' m m';
  eo_thu : forall k, (k < n_K (d_net D))%nat -> b_thu (m_body m') (pk F k) = b_thu (m_body m) k;
  eo_thd : forall k, (k < n_K (d_net D))%nat -> b_thd (m_body m') (pk F k) = b_thd (m_body m) k;
  eo_time : fst (m_saved m') = fst (m_saved m);
  eo_saved : embedded_saved F D D' (snd (m_saved m)) (snd (m_saved m')) }.

(** The same inputs to the part, prescribed heads measured from the other datum; any inputs elsewhere. *)
Record embedded_inputs (F : place) (D D' : design) (i i' : inputs) : Prop := mkEI {
  ei_Q0 : embedded_nodes F (d_net D) (d_net D') (i_Q0 i) (i_Q0 i');
  ei_Hbc : forall j, (j < n_M (d_net D))%nat -> n_bc (d_net D) j = true -> i_Hbc i' (pj F j) = i_Hbc i j + pz F;
  ei_Qin : forall j, (j < n_M (d_net D))%nat -> n_bc (d_net D) j = false -> i_Qin i' (pj F j) = i_Qin i j;
  ei_uo : forall o, (o < o_n (d_or D))%nat -> i_uo i' (po F o) = i_uo i o;
  ei_uw : forall w, (w < w_n (d_we D))%nat -> i_uw i' (pw F w) = i_uw i w;
  ei_up : forall p, (p < p_n (d_pu D))%nat -> i_up i' (pp F p) = i_up i p }.

(** The number of passes of a step does not depend on the rest of the model: one pass (the default), no stopping before the
    last pass, or no other superjunctions. *)
Definition own_passes (F : place) (D D' : design) (n : nat) (tol : R) : Prop :=
  (n <= 1)%nat \/ (tol <= 0 /\ (1 <= n_M (d_net D))%nat) \/
  (forall j', (j' < n_M (d_net D'))%nat -> exists j, (j < n_M (d_net D))%nat /\ pj F j = j').

Inductive embedded_action (F : place) (D D' : design) : action -> action -> Prop :=
| ea_step i i' dt n tol : embedded_inputs F D D' i i' -> own_passes F D D' n tol -> embedded_action F D D' (Step i dt n tol) (Step i' dt n tol)
| ea_save : embedded_action F D D' Save Save
| ea_load t v v' : embedded_saved F D D' v v' -> embedded_action F D D' (Load t v) (Load t v')
| ea_restore : embedded_action F D D' Restore Restore.

(** ** C78: one model measured from another datum, c below the first *)
Definition raise_network (c : R) (N : network) : network :=
  mkNetwork (n_K N) (n_nk N) (n_i1 N) (n_I1 N) (n_Ju N) (n_Jd N) (n_L N) (n_J N) (n_kI N) (n_fwdi N) (n_bwdi N) (n_isS N) (n_isE N)
    (n_lstart N) (n_lend N) (n_dx N) (n_n N) (n_sf N) (n_So N) (n_Ac N) (n_C N) (n_ctrl N) (n_ASI N) (n_dxu N) (n_dxd N) (n_Cu N) (n_Cd N)
    (fun k => n_zu N k + c) (fun k => n_zd N k + c) (n_nu N) (n_nd N) (n_sfu N) (n_sfd N) (n_Su N) (n_Sd N) (n_M N) (n_bc N)
    (fun j => n_zj N j + c) (n_maxj N) (n_min N) (n_maxk N) (n_end_o N) (n_bcm N) (n_damp N) (n_back N).
Definition raise_design (c : R) (D : design) : design :=
  mkDesign (raise_network c (d_net D)) (d_Ik D) (d_sec D) (d_ell D) (d_store D) (d_or D) (d_ocode D) (d_o1 D) (d_o2 D) (d_o3 D) (d_we D) (d_pu D).
Definition raise_hstate (c : R) (st : hstate) : hstate := mkHState (fun j => h_H st j + c) (h_Qu st) (h_Qd st) (h_h st) (h_Q st).
Definition raise_saved (c : R) (v : saved) : saved :=
  mkSaved (raise_hstate c (v_st v)) (v_Qo v) (v_Qw v) (v_Qp v) (v_A v) (v_Au v) (v_Ad v) (v_As v) (v_V v).
Definition raise_body (c : R) (b : body) : body :=
  mkBody (raise_hstate c (b_st b)) (b_Qo b) (b_Qw b) (b_Qp b) (b_gl b) (b_gu b) (b_gd b) (b_As b) (b_Vs b) (b_Ao b) (b_thu b) (b_thd b)
    (b_cf b) (b_sys b).
Definition raise_object (c : R) (m : object) : object :=
  mkModel (m_t m) (m_ic m) (raise_body c (m_body m)) (fst (m_saved m), raise_saved c (snd (m_saved m))).
Definition raise_inputs (c : R) (i : inputs) : inputs :=
  mkInputs (fun j => i_Hbc i j + c) (i_Qin i) (i_Q0 i) (i_uo i) (i_uw i) (i_up i).
Definition raise_action (c : R) (a : action) : action :=
  match a with Step i dt n tol => Step (raise_inputs c i) dt n tol | Save => Save | Load t v => Load t (raise_saved c v) | Restore => Restore end.

(** ** C77: two models in one, the elements of the second numbered after those of the first *)
Definition joined {A : Type} (n : nat) (f f2 : nat -> A) (x : nat) : A := if Nat.ltb x n then f x else f2 (x - n)%nat.
Definition beside_network (N N2 : network) : network :=
  let K := joined (A := R) (n_K N) in
  let L := joined (A := R) (n_L N) in
  let J := joined (A := R) (n_J N) in
  let M := joined (A := R) (n_M N) in
  let past (n : nat) (f : nat -> nat) x := (n + f x)%nat in
  mkNetwork (n_K N + n_K N2) (joined (n_K N) (n_nk N) (n_nk N2)) (joined (n_K N) (n_i1 N) (past (n_L N) (n_i1 N2)))
    (joined (n_K N) (n_I1 N) (past (n_J N) (n_I1 N2))) (joined (n_K N) (n_Ju N) (past (n_M N) (n_Ju N2))) (joined (n_K N) (n_Jd N) (past (n_M N) (n_Jd N2)))
    (n_L N + n_L N2) (n_J N + n_J N2) (joined (n_J N) (n_kI N) (past (n_K N) (n_kI N2)))
    (joined (n_J N) (n_fwdi N) (past (n_L N) (n_fwdi N2))) (joined (n_J N) (n_bwdi N) (past (n_L N) (n_bwdi N2)))
    (joined (n_J N) (n_isS N) (n_isS N2)) (joined (n_J N) (n_isE N) (n_isE N2))
    (joined (n_L N) (n_lstart N) (n_lstart N2)) (joined (n_L N) (n_lend N) (n_lend N2))
    (L (n_dx N) (n_dx N2)) (L (n_n N) (n_n N2)) (joined (n_L N) (n_sf N) (n_sf N2)) (L (n_So N) (n_So N2)) (L (n_Ac N) (n_Ac N2)) (L (n_C N) (n_C N2))
    (joined (n_L N) (n_ctrl N) (n_ctrl N2)) (J (n_ASI N) (n_ASI N2))
    (K (n_dxu N) (n_dxu N2)) (K (n_dxd N) (n_dxd N2)) (K (n_Cu N) (n_Cu N2)) (K (n_Cd N) (n_Cd N2)) (K (n_zu N) (n_zu N2)) (K (n_zd N) (n_zd N2))
    (K (n_nu N) (n_nu N2)) (K (n_nd N) (n_nd N2)) (joined (n_K N) (n_sfu N) (n_sfu N2)) (joined (n_K N) (n_sfd N) (n_sfd N2))
    (K (n_Su N) (n_Su N2)) (K (n_Sd N) (n_Sd N2)) (n_M N + n_M N2) (joined (n_M N) (n_bc N) (n_bc N2)) (M (n_zj N) (n_zj N2)) (M (n_maxj N) (n_maxj N2))
    (n_min N) (K (n_maxk N) (n_maxk N2)) (n_end_o N) (n_bcm N) (n_damp N) (n_back N).
Definition beside (D D2 : design) : design :=
  let n := n_M (d_net D) in
  let past (f : nat -> nat) x := (n + f x)%nat in
  let O := d_or D in let O2 := d_or D2 in let W := d_we D in let W2 := d_we D2 in let P := d_pu D in let P2 := d_pu D2 in
  let o := joined (A := R) (o_n O) in
  let w := joined (A := R) (w_n W) in
  let p := joined (A := R) (p_n P) in
  mkDesign (beside_network (d_net D) (d_net D2)) (joined (n_L (d_net D)) (d_Ik D) (fun i => (n_J (d_net D) + d_Ik D2 i)%nat))
    (joined (n_L (d_net D)) (d_sec D) (d_sec D2)) (d_ell D) (joined n (d_store D) (d_store D2))
    (mkOrifices (o_n O + o_n O2) (joined (o_n O) (o_Ju O) (past (o_Ju O2))) (joined (o_n O) (o_Jd O) (past (o_Jd O2)))
       (o (o_A O) (o_A O2)) (o (o_C O) (o_C O2)) (o (o_z O) (o_z O2)) (o (o_tau O) (o_tau O2)) (o (o_ymax O) (o_ymax O2))
       (joined (o_n O) (o_oneway O) (o_oneway O2)))
    (joined (o_n O) (d_ocode D) (d_ocode D2)) (o (d_o1 D) (d_o1 D2)) (o (d_o2 D) (d_o2 D2)) (o (d_o3 D) (d_o3 D2))
    (mkWeirs (w_n W + w_n W2) (joined (w_n W) (w_Ju W) (past (w_Ju W2))) (joined (w_n W) (w_Jd W) (past (w_Jd W2)))
       (w (w_z W) (w_z W2)) (w (w_ymax W) (w_ymax W2)) (w (w_L W) (w_L W2)) (w (w_s W) (w_s W2)) (w (w_Cr W) (w_Cr W2)) (w (w_Ct W) (w_Ct W2)))
    (mkPumps (p_n P + p_n P2) (joined (p_n P) (p_Ju P) (past (p_Ju P2))) (joined (p_n P) (p_Jd P) (past (p_Jd P2)))
       (p (p_z P) (p_z P2)) (p (p_max P) (p_max P2)) (p (p_min P) (p_min P2)) (p (p_a P) (p_a P2)) (p (p_b P) (p_b P2)) (p (p_c P) (p_c P2))).
(** Options that hold for a whole model. *)
Definition same_options (N N2 : network) : Prop :=
  n_min N2 = n_min N /\ n_end_o N2 = n_end_o N /\ n_bcm N2 = n_bcm N /\ n_damp N2 = n_damp N /\ n_back N2 = n_back N.
(** The first model stands where it was, the second after it. *)
Definition first_part : place := mkPlace (fun x => x) (fun x => x) (fun x => x) (fun x => x) (fun x => x) 0.
Definition second_part (D : design) : place :=
  let past n x := (n + x)%nat in
  mkPlace (past (n_M (d_net D))) (past (n_K (d_net D))) (past (o_n (d_or D))) (past (w_n (d_we D))) (past (p_n (d_pu D))) 0.
Definition beside_hstate (N : network) (st st2 : hstate) : hstate :=
  mkHState (joined (n_M N) (h_H st) (h_H st2)) (joined (n_K N) (h_Qu st) (h_Qu st2)) (joined (n_K N) (h_Qd st) (h_Qd st2))
    (joined (n_J N) (h_h st) (h_h st2)) (joined (n_L N) (h_Q st) (h_Q st2)).
Definition beside_saved (D : design) (v v2 : saved) : saved :=
  let N := d_net D in
  mkSaved (beside_hstate N (v_st v) (v_st v2)) (joined (o_n (d_or D)) (v_Qo v) (v_Qo v2)) (joined (w_n (d_we D)) (v_Qw v) (v_Qw v2))
    (joined (p_n (d_pu D)) (v_Qp v) (v_Qp v2)) (joined (n_L N) (v_A v) (v_A v2)) (joined (n_K N) (v_Au v) (v_Au v2))
    (joined (n_K N) (v_Ad v) (v_Ad v2)) (joined (n_M N) (v_As v) (v_As v2)) (joined (n_M N) (v_V v) (v_V v2)).
Definition beside_body (D : design) (b b2 : body) : body :=
  let N := d_net D in
  mkBody (beside_hstate N (b_st b) (b_st b2)) (joined (o_n (d_or D)) (b_Qo b) (b_Qo b2)) (joined (w_n (d_we D)) (b_Qw b) (b_Qw b2))
    (joined (p_n (d_pu D)) (b_Qp b) (b_Qp b2)) (joined (n_L N) (b_gl b) (b_gl b2)) (joined (n_K N) (b_gu b) (b_gu b2)) (joined (n_K N) (b_gd b) (b_gd b2))
    (joined (n_M N) (b_As b) (b_As b2)) (joined (n_M N) (b_Vs b) (b_Vs b2)) (joined (o_n (d_or D)) (b_Ao b) (b_Ao b2))
    (joined (n_K N) (b_thu b) (b_thu b2)) (joined (n_K N) (b_thd b) (b_thd b2)) (b_cf b) M_Assembly.fresh_system.
(** A newly built object (its matrix not yet written) for both models, at the first one's clock. *)
Definition beside_object (D : design) (m m2 : object) : object :=
  mkModel (m_t m) (m_ic m) (beside_body D (m_body m) (m_body m2)) (fst (m_saved m), beside_saved D (snd (m_saved m)) (snd (m_saved m2))).
Definition beside_inputs (D : design) (i i2 : inputs) : inputs :=
  let N := d_net D in
  mkInputs (joined (n_M N) (i_Hbc i) (i_Hbc i2)) (joined (n_M N) (i_Qin i) (i_Qin i2)) (joined (n_J N) (i_Q0 i) (i_Q0 i2))
    (joined (o_n (d_or D)) (i_uo i) (i_uo i2)) (joined (w_n (d_we D)) (i_uw i) (i_uw i2)) (joined (p_n (d_pu D)) (i_up i) (i_up i2)).
(** The same calls made on both, with inputs for each (one pass per step, as by default, or a fixed number of passes). *)
Inductive beside_action (D : design) : action -> action -> action -> Prop :=
| ba_step i i2 dt n tol : (n <= 1)%nat \/ tol <= 0 -> beside_action D (Step i dt n tol) (Step i2 dt n tol) (Step (beside_inputs D i i2) dt n tol)
| ba_save : beside_action D Save Save Save
| ba_load t v v2 : beside_action D (Load t v) (Load t v2) (Load t (beside_saved D v v2))
| ba_restore : beside_action D Restore Restore Restore.
