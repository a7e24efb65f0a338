(** Property C90: a simulation covers its data, and its progress bar shows the share of the period done. *)
From Coq Require Import ZArith.
From Verif Require Import Prelude M_Numerics M_Coeffs S_Numerics L_Interp L_Forward.
From Verif Require Import M_Progress.

(** ** Rounding *)

Lemma round_near x : Rabs (IZR (round_half_even x) - x) <= 1/2.
Proof.
  unfold round_half_even; destruct (base_fp x) as [H0 H1]; unfold frac_part in *; set (n := Int_part x) in *.
  destruct (Rltb_spec (x - IZR n) (1/2)); [apply Rabs_le; lra|].
  destruct (Rltb_spec (1/2) (x - IZR n)); [rewrite plus_IZR; apply Rabs_le; lra|].
  destruct (Z.even n); rewrite ?plus_IZR; apply Rabs_le; lra.
Qed.

Lemma round_bounds x : x - 1/2 <= IZR (round_half_even x) <= x + 1/2.
Proof.
  pose proof (round_near x) as H; pose proof (Rle_abs (IZR (round_half_even x) - x)).
  pose proof (Rle_abs (- (IZR (round_half_even x) - x))); rewrite Rabs_Ropp in *; lra.
Qed.

Lemma round_mono x y : x <= y -> (round_half_even x <= round_half_even y)%Z.
Proof.
  intros H; destruct (Z_le_gt_dec (round_half_even x) (round_half_even y)) as [L|L]; auto; exfalso.
  assert (Hi : (round_half_even y + 1 <= round_half_even x)%Z) by lia; apply IZR_le in Hi; rewrite plus_IZR in Hi.
  pose proof (round_bounds x); pose proof (round_bounds y).
  assert (x = y) by lra; subst y; lia.
Qed.

Lemma round_int k : round_half_even (IZR k) = k.
Proof.
  pose proof (round_bounds (IZR k)) as [A B]; set (r := round_half_even (IZR k)) in *.
  assert (r < k + 1)%Z by (apply lt_IZR; rewrite plus_IZR; lra).
  assert (k < r + 1)%Z by (apply lt_IZR; rewrite plus_IZR; lra); lia.
Qed.

Lemma round_ge k x : IZR k <= x -> (k <= round_half_even x)%Z.
Proof. intros H; apply round_mono in H; rewrite round_int in H; exact H. Qed.
Lemma round_le k x : x <= IZR k -> (round_half_even x <= k)%Z.
Proof. intros H; apply round_mono in H; rewrite round_int in H; exact H. Qed.

(** ** Start and end *)

Lemma list_min_spec l : forall x, In (list_min x l) (x :: l) /\ forall y, In y (x :: l) -> list_min x l <= y.
Proof.
  induction l as [|a l IH]; intros x; cbn [list_min].
  - split; [now left|]; intros y [<-|[]]; lra.
  - destruct (IH (Rmin x a)) as [Hin Hle]; split.
    + destruct Hin as [E|E]; [|now right; right].
      unfold Rmin in E |- *; destruct (Rle_dec x a); [left|right; left]; exact E.
    + intros y [<-|[<-|Hy]].
      * apply Rle_trans with (Rmin x a); [apply Hle; now left|apply Rmin_l].
      * apply Rle_trans with (Rmin x a); [apply Hle; now left|apply Rmin_r].
      * apply Hle; now right.
Qed.

Lemma list_max_spec l : forall x, In (list_max x l) (x :: l) /\ forall y, In y (x :: l) -> y <= list_max x l.
Proof.
  induction l as [|a l IH]; intros x; cbn [list_max].
  - split; [now left|]; intros y [<-|[]]; lra.
  - destruct (IH (Rmax x a)) as [Hin Hle]; split.
    + destruct Hin as [E|E]; [|now right; right].
      unfold Rmax in E |- *; destruct (Rle_dec x a); [right; left|left]; exact E.
    + intros y [<-|[<-|Hy]].
      * apply Rle_trans with (Rmax x a); [apply Rmax_l|apply Hle; now left].
      * apply Rle_trans with (Rmax x a); [apply Rmax_r|apply Hle; now left].
      * apply Hle; now right.
Qed.

(** [x] is one of the times of the tables. *)
Definition dated (tables : list (list R)) (x : R) : Prop := exists tb, In tb tables /\ In x tb.
Lemma dated_concat tables x : In x (concat tables) <-> dated tables x.
Proof.
  rewrite in_concat; unfold dated; tauto.
Qed.

(** C90: without [t_start] and [t_end], the simulation starts at the first time of any table, the clock is set there, and it ends
    at the last time of any table.  Without tables it starts at the model's clock and does not end. *)
Theorem C90_covers_the_data (clock : R) (tables : list (list R)) :
  ((exists x, dated tables x) ->
     exists a e, begin_session clock tables None None = mkSession a a (Finite e) 0 /\
       dated tables a /\ dated tables e /\ forall x, dated tables x -> a <= x <= e) /\
  ((forall x, ~ dated tables x) -> begin_session clock tables None None = mkSession clock clock Infinite 0).
Proof.
  unfold begin_session; split.
  - intros [x Hx]; destruct (concat tables) as [|y l] eqn:E.
    { apply dated_concat in Hx; rewrite E in Hx; destruct Hx. }
    exists (list_min y l), (list_max y l); split; [reflexivity|].
    destruct (list_min_spec l y) as [A B]; destruct (list_max_spec l y) as [C D]; rewrite <- E in *.
    split; [now apply dated_concat|]; split; [now apply dated_concat|].
    intros z Hz; apply dated_concat in Hz; split; [now apply B|now apply D].
  - intros H; destruct (concat tables) as [|y l] eqn:E; [reflexivity|].
    exfalso; apply (H y); apply dated_concat; rewrite E; now left.
Qed.

(** C90 fails for a start given by the user: whatever it is, the clock stays where it was. *)
Theorem C90_given_start_refuted (clock a : R) (tables : list (list R)) (e : option ending) :
  a <> clock -> ss_start (begin_session clock tables (Some a) e) = a /\ ss_t (begin_session clock tables (Some a) e) = clock /\
    ss_t (begin_session clock tables (Some a) e) <> a.
Proof. intros H; unfold begin_session; cbn [ss_start ss_t]; repeat split; auto. Qed.

(** ** The bar *)

(** Share of the period from [a] to [e] done at [t]. *)
Definition share (a e t : R) : R := (Rmin t e - a) / (e - a).
Lemma share_bounds a e t : a < e -> a <= t -> 0 <= share a e t <= 1.
Proof.
  intros He Ht; unfold share; assert (Rmin t e <= e) by apply Rmin_r.
  assert (a <= Rmin t e) by (apply Rmin_glb; lra); split.
  - apply Rmult_le_pos; [lra|]; left; apply Rinv_0_lt_compat; lra.
  - apply Rmult_le_reg_r with (e - a); [lra|]; unfold Rdiv; rewrite Rmult_assoc, Rinv_l; lra.
Qed.
Lemma share_mono a e t t' : a < e -> t <= t' -> share a e t <= share a e t'.
Proof.
  intros He Ht; unfold share; apply Rmult_le_compat_r; [left; apply Rinv_0_lt_compat; lra|].
  assert (Rmin t e <= Rmin t' e); [|lra].
  unfold Rmin; destruct (Rle_dec t e), (Rle_dec t' e); lra.
Qed.
Lemma share_end a e t : a < e -> e <= t -> share a e t = 1.
Proof. intros He Ht; unfold share; rewrite Rmin_right by lra; field; lra. Qed.

(** [n] cells filled, then the rest of 50. *)
Definition bar_of (n : nat) : list bool := repeat true n ++ repeat false (50 - n).

Lemma print_eq use s e : ss_end s = Finite e -> ss_start s < e ->
  print_progress use s =
    (let cur := searchsorted (checkpoints s) (ss_t s) in
     if use && Nat.eqb cur (ss_seen s) then Some (s, None)
     else Some (if use then mkSession (ss_t s) (ss_start s) (ss_end s) cur else s,
            Some (let r := share (ss_start s) e (ss_t s) in let n := round_half_even (50 * r) in
                  mkPrinted (repeat true (Z.to_nat n) ++ repeat false (Z.to_nat (50 - n))) (IZR (round_half_even (1000 * r)) / 10)))).
Proof.
  intros He Hs; unfold print_progress; cbv zeta; rewrite He.
  destruct (use && _)%bool; [reflexivity|].
  assert (Em : (if Rltb e (ss_t s) then e else ss_t s) = Rmin (ss_t s) e).
  { destruct (Rltb_spec e (ss_t s)); [rewrite Rmin_right|rewrite Rmin_left]; lra. }
  rewrite Em, div_nz by lra; reflexivity.
Qed.

Lemma print_fin use t a e k : a < e -> print_progress use (mkSession t a (Finite e) k) =
    (let cur := searchsorted (checkpoints (mkSession t a (Finite e) k)) t in
     if use && Nat.eqb cur k then Some (mkSession t a (Finite e) k, None)
     else Some (if use then mkSession t a (Finite e) cur else mkSession t a (Finite e) k,
            Some (let r := share a e t in let n := round_half_even (50 * r) in
                  mkPrinted (repeat true (Z.to_nat n) ++ repeat false (Z.to_nat (50 - n))) (IZR (round_half_even (1000 * r)) / 10)))).
Proof. intros H; exact (print_eq use (mkSession t a (Finite e) k) e eq_refl H). Qed.

(** C90: during the period the bar never raises and has 50 cells; the number of those filled is within half a cell, and the
    percentage within a twentieth, of the share of the period done; both are full at the end. *)
Theorem C90_bar_shows_the_share (use : bool) (s : session) (e : R) : ss_end s = Finite e -> ss_start s < e -> ss_start s <= ss_t s ->
  exists s' p, print_progress use s = Some (s', p) /\ (use = false -> p <> None) /\
    forall q, p = Some q -> exists n : nat, (n <= 50)%nat /\ pr_bar q = bar_of n /\ length (pr_bar q) = 50%nat /\
      Rabs (INR n - 50 * share (ss_start s) e (ss_t s)) <= 1/2 /\
      Rabs (pr_pct q - 100 * share (ss_start s) e (ss_t s)) <= 1/20 /\ 0 <= pr_pct q <= 100 /\
      (e <= ss_t s -> n = 50%nat /\ pr_pct q = 100).
Proof.
  intros He Hs Ht; rewrite (print_eq use s e He Hs); cbv zeta.
  destruct (use && _)%bool eqn:Eu.
  { exists s, None; split; [reflexivity|]; split; [|discriminate].
    intros ->; discriminate. }
  eexists _, _; split; [reflexivity|]; split; [discriminate|].
  intros q Hq; apply (f_equal (fun o => match o with Some x => x | None => q end)) in Hq; cbv beta iota in Hq; subst q; cbn [pr_bar pr_pct].
  pose proof (share_bounds _ e (ss_t s) Hs Ht) as [S0 S1]; pose proof (fun X => share_end (ss_start s) e (ss_t s) Hs X) as Send.
  set (r := share (ss_start s) e (ss_t s)) in *.
  assert (N0 : (0 <= round_half_even (50 * r))%Z) by (apply round_ge; lra).
  assert (N1 : (round_half_even (50 * r) <= 50)%Z) by (apply round_le; lra).
  assert (P0 : (0 <= round_half_even (1000 * r))%Z) by (apply round_ge; lra).
  assert (P1 : (round_half_even (1000 * r) <= 1000)%Z) by (apply round_le; lra).
  assert (Eb : Z.to_nat (50 - round_half_even (50 * r)) = (50 - Z.to_nat (round_half_even (50 * r)))%nat) by lia.
  exists (Z.to_nat (round_half_even (50 * r))); rewrite Eb.
  split; [lia|]; split; [reflexivity|]; split.
  { rewrite app_length, !repeat_length; lia. }
  split. { rewrite INR_IZR_INZ, Z2Nat.id by exact N0; apply round_near. }
  split. { pose proof (round_bounds (1000 * r)); apply Rabs_le; lra. }
  split. { apply IZR_le in P0; apply IZR_le in P1; lra. }
  intros H; rewrite (Send H), !Rmult_1_r, (round_int 50), (round_int 1000); split; [reflexivity|lra].
Qed.

(** C90: what is printed later shows no less. *)
Theorem C90_bar_does_not_go_back (u u' : bool) (s s1 s2 s3 : session) (e : R) (p q : printed) :
  ss_end s = Finite e -> ss_start s < e -> ss_start s <= ss_t s ->
  ss_end s2 = Finite e -> ss_start s2 = ss_start s -> ss_t s <= ss_t s2 ->
  print_progress u s = Some (s1, Some p) -> print_progress u' s2 = Some (s3, Some q) ->
  exists n m, (n <= m)%nat /\ pr_bar p = bar_of n /\ pr_bar q = bar_of m /\ pr_pct p <= pr_pct q.
Proof.
  intros He Hs Ht He2 Hs2 Htt; rewrite (print_eq u s e He Hs), (print_eq u' s2 e He2) by lra; cbv zeta.
  destruct (u && _)%bool; [discriminate|]; destruct (u' && _)%bool; [discriminate|].
  intros Hp Hq; apply (f_equal (fun o => match o with Some (_, Some x) => x | _ => p end)) in Hp; cbv beta iota in Hp; subst p.
  apply (f_equal (fun o => match o with Some (_, Some x) => x | _ => q end)) in Hq; cbv beta iota in Hq; subst q.
  cbn [pr_bar pr_pct]; rewrite Hs2.
  pose proof (share_mono (ss_start s) e _ _ Hs Htt) as M.
  pose proof (share_bounds _ e (ss_t s) Hs Ht) as [S0 S1].
  assert (Ht2 : ss_start s <= ss_t s2) by lra; pose proof (share_bounds _ e (ss_t s2) Hs Ht2) as [T0 T1].
  set (r := share (ss_start s) e (ss_t s)) in *; set (r2 := share (ss_start s) e (ss_t s2)) in *.
  assert (N0 : (0 <= round_half_even (50 * r))%Z) by (apply round_ge; lra).
  assert (N1 : (round_half_even (50 * r2) <= 50)%Z) by (apply round_le; lra).
  assert (N2 : (round_half_even (50 * r) <= round_half_even (50 * r2))%Z) by (apply round_mono; lra).
  assert (P2 : (round_half_even (1000 * r) <= round_half_even (1000 * r2))%Z) by (apply round_mono; lra).
  exists (Z.to_nat (round_half_even (50 * r))), (Z.to_nat (round_half_even (50 * r2))); split; [lia|].
  unfold bar_of; split; [do 2 f_equal; lia|]; split; [do 2 f_equal; lia|].
  apply IZR_le in P2; lra.
Qed.

(** ** A whole run *)

Lemma ss_mono xs t t' : t <= t' -> (searchsorted xs t <= searchsorted xs t')%nat.
Proof.
  intros H; induction xs as [|a l IH]; cbn [searchsorted]; [lia|].
  destruct (Rltb_spec a t), (Rltb_spec a t'); try lia; lra.
Qed.

Lemma checkpoints_length s : (length (checkpoints s) <= 50)%nat.
Proof. unfold checkpoints; destruct (ss_end s); [rewrite map_length, seq_length|simpl]; lia. Qed.

Lemma ss_all xs t : (forall x, In x xs -> x < t) -> searchsorted xs t = length xs.
Proof.
  induction xs as [|a l IH]; cbn [searchsorted length]; intros H; [reflexivity|].
  destruct (Rltb_spec a t); [rewrite IH; [reflexivity|]; intros; apply H; now right|].
  exfalso; specialize (H a (or_introl eq_refl)); lra.
Qed.

Lemma checkpoint_le s e x : ss_end s = Finite e -> ss_start s < e -> In x (checkpoints s) -> x <= e.
Proof.
  intros He Hs; unfold checkpoints; rewrite He, in_map_iff; intros (i & <- & Hi); apply in_seq in Hi.
  assert (Hi' : (i <= 49)%nat) by lia; apply le_INR in Hi'.
  replace (INR 49) with 49 in Hi' by (rewrite INR_IZR_INZ; reflexivity).
  assert (INR i * ((e - ss_start s) / 49) <= 49 * ((e - ss_start s) / 49)); [|lra].
  apply Rmult_le_compat_r; lra.
Qed.

Lemma past_end s e : ss_end s = Finite e -> ss_start s < e -> e < ss_t s -> searchsorted (checkpoints s) (ss_t s) = 50%nat.
Proof.
  intros He Hs Ht; rewrite ss_all.
  - unfold checkpoints; rewrite He, map_length, seq_length; reflexivity.
  - intros x Hx; pose proof (checkpoint_le s e x He Hs Hx); lra.
Qed.

Lemma not_past s e : ss_end s = Finite e -> ss_start s < e -> ss_t s <= e -> (searchsorted (checkpoints s) (ss_t s) <= 49)%nat.
Proof.
  intros He Hs Ht; destruct (le_lt_dec (searchsorted (checkpoints s) (ss_t s)) 49) as [L|L]; auto; exfalso.
  assert (Hn : nth_error (checkpoints s) 49 = Some e).
  { unfold checkpoints; rewrite He; rewrite (map_nth_error _ 49 (seq 0 50) (d := 49%nat) eq_refl); f_equal.
    replace (INR 49) with 49 by (rewrite INR_IZR_INZ; reflexivity); field. }
  pose proof (ss_lt (checkpoints s) (ss_t s) 49 e L Hn); lra.
Qed.

(** The clock goes from [t0] on through [ts] without going back. *)
Fixpoint clockwise (t0 : R) (ts : list R) : Prop := match ts with [] => True | t :: ts => t0 <= t /\ clockwise t ts end.

Lemma watch_facts e ts : forall s, ss_end s = Finite e -> ss_start s < e -> ss_start s <= ss_t s -> clockwise (ss_t s) ts ->
  (ss_seen s <= searchsorted (checkpoints s) (ss_t s))%nat ->
  exists s' ps, watch s ts = Some (s', ps) /\ (length ps + ss_seen s <= 50)%nat /\
    ((ss_seen s < 50)%nat -> (exists t, In t ts /\ e < t) -> exists p ps', ps = ps' ++ [p] /\ pr_bar p = bar_of 50 /\ pr_pct p = 100).
Proof.
  induction ts as [|t ts IH]; intros s He Hs Ht Hc Hseen.
  { exists s, []; split; [reflexivity|]; cbn [length].
    pose proof (ss_le_length (checkpoints s) (ss_t s)); pose proof (checkpoints_length s); split; [lia|]; intros _ (t & [] & _). }
  destruct Hc as [H0 Hc]; cbn [watch]; set (s1 := mkSession t (ss_start s) (ss_end s) (ss_seen s)).
  assert (He1 : ss_end s1 = Finite e) by exact He; assert (Hs1 : ss_start s1 < e) by exact Hs.
  assert (Ht1 : ss_start s1 <= ss_t s1) by (cbn [ss_start ss_t s1]; lra).
  assert (Eck : checkpoints s1 = checkpoints s) by reflexivity.
  assert (Hm : (ss_seen s <= searchsorted (checkpoints s1) t)%nat).
  { rewrite Eck; etransitivity; [exact Hseen|apply ss_mono; exact H0]. }
  pose proof (ss_le_length (checkpoints s1) t); pose proof (checkpoints_length s1).
  destruct (C90_bar_shows_the_share true s1 e He1 Hs1 Ht1) as (s' & p & Ep & _ & Hp).
  pose proof Ep as Ep'; rewrite (print_eq true s1 e He1 Hs1) in Ep'; cbv zeta in Ep'; cbn [andb] in Ep'.
  rewrite Ep; cbn [bind].
  destruct (Nat.eqb_spec (searchsorted (checkpoints s1) (ss_t s1)) (ss_seen s1)) as [E|E].
  - assert (E' : s' = s1 /\ p = None) by (split; congruence); destruct E' as [-> ->].
    destruct (IH s1 He1 Hs1 Ht1 Hc) as (s'' & ps & Ew & Hlen & Hlast); [cbn [ss_t ss_seen s1]; lia|].
    rewrite Ew; exists s'', ps; split; [reflexivity|]; split; [exact Hlen|].
    intros Hlt (t' & Hin & Hbig); apply Hlast; [exact Hlt|].
    destruct Hin as [<-|Hin]; [|now exists t'].
    exfalso; assert (Hb : e < ss_t s1) by exact Hbig; pose proof (past_end s1 e He1 Hs1 Hb); cbn [ss_seen s1] in E; lia.
  - set (s2 := mkSession (ss_t s1) (ss_start s1) (ss_end s1) (searchsorted (checkpoints s1) (ss_t s1))) in *.
    assert (E' : s' = s2) by congruence; destruct p as [p|]; [|discriminate]; subst s'.
    destruct (IH s2 He1 Hs1 Ht1 Hc) as (s'' & ps & Ew & Hlen & Hlast); [cbn [ss_t ss_seen s2]; apply Nat.le_refl|].
    rewrite Ew; exists s'', (p :: ps); split; [reflexivity|]; cbn [ss_seen s2 ss_t s1] in Hlen, Hlast, E |- *.
    cbn [length]; split; [lia|]; intros Hlt (t' & Hin & Hbig).
    destruct (Rlt_le_dec e t) as [Hb|Hb].
    + assert (E50 : searchsorted (checkpoints s1) t = 50%nat) by (apply (past_end s1 e He1 Hs1 Hb)).
      assert (ps = []) as -> by (destruct ps; [reflexivity|cbn [length] in Hlen; lia]).
      exists p, []; split; [reflexivity|].
      destruct (Hp p eq_refl) as (n & _ & Hbar & _ & _ & _ & _ & Hend).
      destruct Hend as [-> Hpct]; [cbn [ss_t s1]; lra|]; split; assumption.
    + assert (Hlt' : (searchsorted (checkpoints s1) t < 50)%nat).
      { pose proof (not_past s1 e He1 Hs1 Hb); cbn [ss_t s1] in *; lia. }
      destruct Hin as [<-|Hin]; [lra|].
      destruct (Hlast Hlt' (ex_intro _ t' (conj Hin Hbig))) as (q & ps' & -> & Hq).
      exists q, (p :: ps'); split; [reflexivity|exact Hq].
Qed.

(** C90: refreshed after every step, however many, the bar is printed at most 50 times, and a run that goes beyond the end
    finishes with a full bar at 100 %. *)
Theorem C90_run_of_the_bar (a e : R) (ts : list R) : a < e -> clockwise a ts ->
  exists s' ps, watch (mkSession a a (Finite e) 0) ts = Some (s', ps) /\ (length ps <= 50)%nat /\
    ((exists t, In t ts /\ e < t) -> exists p ps', ps = ps' ++ [p] /\ pr_bar p = bar_of 50 /\ pr_pct p = 100).
Proof.
  intros Hae Hc; destruct (watch_facts e ts (mkSession a a (Finite e) 0) eq_refl Hae (Rle_refl a) Hc) as (s' & ps & E & L & F).
  - cbn [ss_seen]; lia.
  - exists s', ps; split; [exact E|]; cbn [ss_seen] in L, F; split; [lia|]; intros H; apply F; [lia|exact H].
Qed.

(** C90 fails for a run that stops exactly at the end: the last bar printed can be short of 100 %. *)
Lemma Rltb_T x y : x < y -> Rltb x y = true. Proof. apply Rltb_true. Qed.
Lemma Rltb_F x y : y <= x -> Rltb x y = false. Proof. apply Rltb_false. Qed.
Lemma checkpoints_49 t k : checkpoints (mkSession t 0 (Finite 49) k) = map INR (seq 0 50).
Proof. unfold checkpoints; cbn [ss_end ss_start]; apply map_ext; intros i; field. Qed.
Lemma ss_map (n : nat) : forall (k m : nat) t, (k <= m)%nat -> (m < k + n)%nat -> INR m < t -> t <= INR m + 1 -> searchsorted (map INR (seq k n)) t = (m - k + 1)%nat.
Proof.
  induction n as [|n IH]; intros k m t H1 H2 H3 H4; [lia|]; cbn [seq map searchsorted].
  assert (INR k <= INR m) by (apply le_INR; lia); rewrite Rltb_T by lra.
  destruct (Nat.eq_dec k m) as [<-|D].
  - destruct n as [|n]; cbn [seq map searchsorted]; [lia|].
    rewrite Rltb_F by (rewrite S_INR; lra); lia.
  - rewrite (IH (S k) m t); try lia; assumption.
Qed.

Theorem C90_ends_at_100_refuted : exists ts s' p, clockwise 0 ts /\ last ts 0 = 49 /\
  watch (begin_session 0 [[0; 49]] None None) ts = Some (s', [p]) /\ pr_pct p < 100.
Proof.
  assert (Eb : begin_session 0 [[0; 49]] None None = mkSession 0 0 (Finite 49) 0).
  { unfold begin_session; cbn [concat app list_min list_max]; unfold Rmin, Rmax.
    destruct (Rle_dec 0 49); [|lra]; reflexivity. }
  assert (H48 : INR 48 = 48) by (rewrite INR_IZR_INZ; reflexivity).
  assert (A : forall t k, 48 < t -> t <= 49 -> searchsorted (checkpoints (mkSession t 0 (Finite 49) k)) t = 49%nat).
  { intros t k B C; rewrite checkpoints_49, (ss_map 50 0 48 t); [reflexivity|lia|lia|lra|lra]. }
  exists [97/2; 49].
  eexists _, _; split; [cbn [clockwise]; lra|]; split; [reflexivity|].
  rewrite Eb; cbn [watch ss_start ss_end ss_seen].
  split.
  - rewrite (print_fin true) by lra; cbv zeta; cbn [ss_t ss_seen andb].
    rewrite A by lra; cbn [Nat.eqb bind ss_start ss_end ss_seen].
    rewrite (print_fin true) by lra; cbv zeta; cbn [ss_t ss_seen andb].
    rewrite A by lra; cbn [Nat.eqb bind]; reflexivity.
  - cbn [pr_pct ss_start]; pose proof (round_bounds (1000 * share 0 49 (97/2))) as [_ B].
    assert (Es : share 0 49 (97/2) = 97/98) by (unfold share; rewrite Rmin_left by lra; field).
    cbv zeta; cbn [ss_t ss_start]; rewrite Es in *; lra.
Qed.

(** C90 fails when a table has a single time: the bar raises once that time is passed. *)
Theorem C90_single_time_refuted (clock a t : R) : a < t ->
  watch (begin_session clock [[a]] None None) [t] = None.
Proof.
  intros H; unfold begin_session; cbn [concat app list_min list_max watch ss_start ss_end ss_seen].
  unfold print_progress; cbv zeta; cbn [ss_t ss_end ss_start ss_seen].
  assert (E : searchsorted (checkpoints (mkSession t a (Finite a) 0)) t = 50%nat).
  { rewrite ss_all.
    - unfold checkpoints; cbn [ss_end]; rewrite map_length, seq_length; reflexivity.
    - unfold checkpoints; cbn [ss_end ss_start]; intros x; rewrite in_map_iff; intros (i & <- & _).
      replace (a - a) with 0 by ring; unfold Rdiv; rewrite Rmult_0_l, Rmult_0_r; lra. }
  rewrite E; cbn [Nat.eqb andb]; rewrite Rltb_T by exact H; unfold div.
  replace (a - a) with 0 by ring; destruct (Reqb_spec 0 0); [reflexivity|lra].
Qed.

(** C90 fails while the clock is before a start given by the user: the bar is longer than 50 cells and the percentage negative. *)
Theorem C90_before_start_refuted : exists s' p, print_progress false (begin_session 0 [] (Some 10) (Some (Finite 20))) = Some (s', Some p) /\
  length (pr_bar p) = 100%nat /\ pr_pct p = - 100.
Proof.
  unfold begin_session; cbn [concat].
  eexists _, _; split.
  - rewrite (print_fin false) by lra; reflexivity.
  - cbn [ss_start ss_t pr_bar pr_pct]; cbv zeta; cbn [ss_start ss_t pr_bar pr_pct].
    assert (Es : share 10 20 0 = -1) by (unfold share; rewrite Rmin_left by lra; field).
    rewrite Es; replace (50 * -1) with (IZR (-50)) by lra; replace (1000 * -1) with (IZR (-1000)) by lra; rewrite !round_int; cbn.
    split; [reflexivity|lra].
Qed.

(** A run past the end: two tables, three steps. *)
Example C90_example : exists s' ps p ps', watch (begin_session 7 [[0; 5]; [2; 49]] None None) [10; 48; 50] = Some (s', ps) /\
  ps = ps' ++ [p] /\ pr_pct p = 100.
Proof.
  assert (Eb : begin_session 7 [[0; 5]; [2; 49]] None None = mkSession 0 0 (Finite 49) 0).
  { unfold begin_session; cbn [concat app list_min list_max]; rewrite (Rmin_left 0 5), (Rmin_left 0 2), (Rmin_left 0 49) by lra.
    rewrite (Rmax_right 0 5), (Rmax_left 5 2), (Rmax_right 5 49) by lra; reflexivity. }
  rewrite Eb; destruct (C90_run_of_the_bar 0 49 [10; 48; 50]) as (s' & ps & E & _ & F); [lra|cbn [clockwise]; lra|].
  destruct F as (p & ps' & Ep & _ & Hp); [exists 50; split; [simpl; tauto|lra]|].
  now exists s', ps, p, ps'.
Qed.
