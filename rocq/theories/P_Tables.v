(** Properties C87, C88: what the user's tables say is what the model computes with. *)
From Coq Require Import Permutation.
From Verif Require Import Prelude M_Numerics M_Coeffs M_Step M_Geometry M_Storage M_Controls M_Simulation M_Model M_Layout M_Banded M_Forcing
  L_Sort P_Permute.
From Verif Require Import M_Tables.

(** ** Reading tables *)

(** Rows are labelled by their positions (the default index of pandas); superlinks end at rows of the table. *)
Definition by_position (J : junction_table) : Prop := forall r, (r < jt_n J)%nat -> jt_label J r = r.
Definition ends_listed (J : junction_table) (S : superlink_table) : Prop :=
  forall k, (k < lt_n S)%nat -> (lt_0 S k < jt_n J)%nat /\ (lt_1 S k < jt_n J)%nat.

Lemma filter_one (n r : nat) : (r < n)%nat -> filter (fun x => Nat.eqb x r) (seq 0 n) = [r].
Proof.
  intros Hr. assert (G : forall m s, filter (fun x => Nat.eqb x r) (seq s m) = if (Nat.leb s r && Nat.ltb r (s + m))%bool then [r] else []).
  { induction m as [|m IH]; intros s; cbn [seq filter].
    - destruct (Nat.leb_spec s r), (Nat.ltb_spec r (s + 0)); auto; lia.
    - rewrite IH. destruct (Nat.eqb_spec s r) as [->|Hn].
      + destruct (Nat.leb_spec (S r) r); [lia|]. destruct (Nat.leb_spec r r); [|lia]. destruct (Nat.ltb_spec r (r + S m)); [|lia]. reflexivity.
      + destruct (Nat.leb_spec (S s) r), (Nat.leb_spec s r), (Nat.ltb_spec r (S s + m)), (Nat.ltb_spec r (s + S m)); auto; lia. }
  rewrite G. destruct (Nat.ltb_spec r (0 + n)); [|lia]. reflexivity.
Qed.
Lemma loc_row J r : by_position J -> (r < jt_n J)%nat -> loc_z J r = Some (jt_z J r).
Proof.
  intros HL Hr. unfold loc_z.
  assert (E : filter (fun x => Nat.eqb (jt_label J x) r) (seq 0 (jt_n J)) = filter (fun x => Nat.eqb x r) (seq 0 (jt_n J))).
  { apply filter_ext_in. intros x Hx. apply in_seq in Hx. rewrite HL by lia. reflexivity. }
  rewrite E, filter_one by auto. reflexivity.
Qed.

(** Does superlink k, as drawn, rise from its first to its second end? *)
Definition rises (J : junction_table) (S : superlink_table) (k : nat) : Prop :=
  jt_z J (lt_0 S k) + lt_in S k < jt_z J (lt_1 S k) + lt_out S k.

(** C87: the rule: a superlink that rises is connected the other way round; nothing else about it changes.  Construction
    succeeds on every table of this kind. *)
Theorem C87_direction_rule : forall J S, by_position J -> ends_listed J S ->
  exists S', orient J S = Some S' /\ lt_n S' = lt_n S /\ lt_in S' = lt_in S /\ lt_out S' = lt_out S /\ lt_Q0 S' = lt_Q0 S /\
    lt_j0 S' = lt_j0 S /\ lt_j1 S' = lt_j1 S /\
    forall k, (k < lt_n S)%nat ->
      (rises J S k -> lt_0 S' k = lt_1 S k /\ lt_1 S' k = lt_0 S k) /\
      (~ rises J S k -> lt_0 S' k = lt_0 S k /\ lt_1 S' k = lt_1 S k).
Proof.
  intros J S HL HE. unfold orient.
  assert (G : forall n, (n <= lt_n S)%nat -> exists S', for_opt n (orient_one J) S = Some S' /\ lt_n S' = lt_n S /\ lt_in S' = lt_in S /\ lt_out S' = lt_out S /\
    lt_Q0 S' = lt_Q0 S /\ lt_j0 S' = lt_j0 S /\ lt_j1 S' = lt_j1 S /\
    (forall k, (k < n)%nat -> (rises J S k -> lt_0 S' k = lt_1 S k /\ lt_1 S' k = lt_0 S k) /\ (~ rises J S k -> lt_0 S' k = lt_0 S k /\ lt_1 S' k = lt_1 S k)) /\
    (forall k, (n <= k)%nat -> lt_0 S' k = lt_0 S k /\ lt_1 S' k = lt_1 S k)).
  { induction n as [|n IH]; intros Hn; cbn [for_opt].
    - exists S. repeat split; auto; intros; lia.
    - destruct IH as (S1 & E & A1 & A2 & A3 & A4 & A5 & A6 & A7 & A8); [lia|]. rewrite E.
      destruct (A8 n (le_n n)) as [B0 B1]. destruct (HE n ltac:(lia)) as [R0 R1].
      unfold orient_one. rewrite B0, B1, A2, A3, !loc_row by auto. cbn [bind].
      destruct (Rltb_spec (jt_z J (lt_0 S n) + lt_in S n) (jt_z J (lt_1 S n) + lt_out S n)) as [L|L].
      + eexists. split; [reflexivity|]. cbn [lt_n lt_in lt_out lt_Q0 lt_j0 lt_j1 lt_0 lt_1]. repeat (split; [auto; congruence|]). split.
        * intros k Hk. unfold upd. destruct (Nat.eqb_spec k n) as [->|]; [|apply A7; lia]. split; [auto|intros X; elim X; exact L].
        * intros k Hk. unfold upd. destruct (Nat.eqb_spec k n); [lia|]. apply A8. lia.
      + exists S1. repeat (split; [auto; congruence|]). split.
        * intros k Hk. destruct (Nat.eq_dec k n) as [->|]; [|apply A7; lia]. split; [intros X; elim L; exact X|auto].
        * intros k Hk. apply A8. lia. }
  destruct (G (lt_n S) (le_n _)) as (S' & E & A). exists S'. split; [exact E|]. intuition.
Qed.

(** The pipe of row k in the user's tables: each end is at a junction and has an invert.  [same_pipe]: the constructed superlink
    joins the same two ends, in one order or the other. *)
Definition ends_of (J : junction_table) (S : superlink_table) (k : nat) : (nat * R) * (nat * R) :=
  ((lt_0 S k, jt_z J (lt_0 S k) + lt_in S k), (lt_1 S k, jt_z J (lt_1 S k) + lt_out S k)).
Definition same_pipe (J : junction_table) (S S' : superlink_table) (k : nat) : Prop :=
  exists zu zd, end_inverts J S' k = Some (zu, zd) /\
    (((lt_0 S' k, zu), (lt_1 S' k, zd)) = ends_of J S k \/ ((lt_1 S' k, zd), (lt_0 S' k, zu)) = ends_of J S k).
(** The constructed superlink does not rise. *)
Definition falls (J : junction_table) (S' : superlink_table) (k : nat) : Prop :=
  exists zu zd, end_inverts J S' k = Some (zu, zd) /\ zd <= zu.

(** C87: a superlink that is drawn falling, or whose two offsets are equal, keeps its ends and falls (or is level). *)
Theorem C87_pipe_is_kept : forall J S S' k, by_position J -> ends_listed J S -> orient J S = Some S' -> (k < lt_n S)%nat ->
  ~ rises J S k \/ lt_in S k = lt_out S k -> same_pipe J S S' k /\ falls J S' k.
Proof.
  intros J S S' k HL HE E Hk Hc. destruct (C87_direction_rule J S HL HE) as (S2 & E2 & _ & Ei & Eo & _ & _ & _ & R). rewrite E in E2. injection E2 as <-.
  destruct (HE k Hk) as [R0 R1]. destruct (R k Hk) as [Ru Rd]. unfold same_pipe, falls, end_inverts, ends_of. rewrite Ei, Eo.
  destruct (Rlt_dec (jt_z J (lt_0 S k) + lt_in S k) (jt_z J (lt_1 S k) + lt_out S k)) as [L|L].
  - destruct Hc as [Hc|Hc]; [elim Hc; exact L|]. destruct (Ru L) as [-> ->].
    destruct (Nat.ltb_spec (lt_1 S k) (jt_n J)); [|lia]. destruct (Nat.ltb_spec (lt_0 S k) (jt_n J)); [|lia]. cbn [andb]. rewrite Hc. split.
    + eexists _, _. split; [reflexivity|]. right. reflexivity.
    + eexists _, _. split; [reflexivity|]. lra.
  - destruct (Rd L) as [-> ->].
    destruct (Nat.ltb_spec (lt_0 S k) (jt_n J)); [|lia]. destruct (Nat.ltb_spec (lt_1 S k) (jt_n J)); [|lia]. cbn [andb]. split.
    + eexists _, _. split; [reflexivity|]. left. reflexivity.
    + eexists _, _. split; [reflexivity|]. lra.
Qed.

(** A pipe from a junction at 0 m to a junction at 1 m, 2 m above its bottom; it starts with 3 m3/s. *)
Definition up_J : junction_table :=
  mkJT 2 (fun r => r) (fun r => r) (fun r => match r with O => 0 | _ => 1 end) (fun _ => 1) (fun _ => false) (fun r => (100 + r)%nat).
Definition up_S (a b : R) : superlink_table := mkLT 1 (fun _ => 0%nat) (fun _ => 1%nat) (fun _ => a) (fun _ => b) (fun _ => 3) (fun _ => 0%nat) (fun _ => 4%nat).
Lemma up_orient a b S' : a < 1 + b -> orient up_J (up_S a b) = Some S' ->
  lt_0 S' 0%nat = 1%nat /\ lt_1 S' 0%nat = 0%nat /\ lt_in S' = lt_in (up_S a b) /\ lt_out S' = lt_out (up_S a b) /\
  lt_Q0 S' = lt_Q0 (up_S a b) /\ lt_j0 S' = lt_j0 (up_S a b) /\ lt_j1 S' = lt_j1 (up_S a b).
Proof.
  intros H E. destruct (C87_direction_rule up_J (up_S a b)) as (S2 & E2 & _ & Ei & Eo & Eq & E0 & E1 & R).
  - intros r Hr. reflexivity.
  - intros k Hk. simpl. lia.
  - rewrite E in E2. injection E2 as <-. destruct (R 0%nat ltac:(simpl; lia)) as [Ru _]. destruct (Ru ltac:(unfold rises; simpl; lra)) as [X Y].
    rewrite X, Y. repeat split; auto.
Qed.
Lemma up_listed a b : by_position up_J /\ ends_listed up_J (up_S a b).
Proof. split; [intros r Hr; reflexivity|intros k Hk; simpl; lia]. Qed.

(** C87: in general the ends are not kept: the junctions are exchanged, the offsets are not. *)
Theorem C87_ends_are_kept_refuted :
  ~ (forall J S S' k, by_position J -> ends_listed J S -> orient J S = Some S' -> (k < lt_n S)%nat -> same_pipe J S S' k).
Proof.
  intros X. destruct (up_listed 0 2) as [HL HE]. destruct (C87_direction_rule up_J (up_S 0 2) HL HE) as (S' & E & _).
  destruct (X up_J (up_S 0 2) S' 0%nat HL HE E ltac:(simpl; lia)) as (zu & zd & I & P).
  destruct (up_orient 0 2 S' ltac:(lra) E) as (E0 & E1 & Ei & Eo & _). unfold end_inverts in I. rewrite E0, E1, Ei, Eo in I. simpl in I.
  injection I as <- <-. unfold ends_of in P. rewrite E0, E1 in P. simpl in P.
  destruct P as [P|P]; injection P; intros; lra.
Qed.
(** C87: nor does the turned superlink always fall: this one still rises, by 1 m. *)
Theorem C87_superlinks_fall_refuted :
  ~ (forall J S S' k, by_position J -> ends_listed J S -> orient J S = Some S' -> (k < lt_n S)%nat -> falls J S' k).
Proof.
  intros X. destruct (up_listed 0 2) as [HL HE]. destruct (C87_direction_rule up_J (up_S 0 2) HL HE) as (S' & E & _).
  destruct (X up_J (up_S 0 2) S' 0%nat HL HE E ltac:(simpl; lia)) as (zu & zd & I & P).
  destruct (up_orient 0 2 S' ltac:(lra) E) as (E0 & E1 & Ei & Eo & _). unfold end_inverts in I. rewrite E0, E1, Ei, Eo in I. simpl in I.
  injection I as <- <-. lra.
Qed.
(** C87: the initial flow of a superlink, counted from its first to its second junction as drawn, changes its sign when the
    superlink is turned. *)
Definition flow_from (S : superlink_table) (k j : nat) : R := if Nat.eqb (lt_0 S k) j then lt_Q0 S k else - lt_Q0 S k.
Theorem C87_initial_flow_refuted :
  ~ (forall J S S' k, by_position J -> ends_listed J S -> orient J S = Some S' -> (k < lt_n S)%nat ->
       lt_in S k = lt_out S k -> flow_from S' k (lt_0 S k) = flow_from S k (lt_0 S k)).
Proof.
  intros X. destruct (up_listed 0 0) as [HL HE]. destruct (C87_direction_rule up_J (up_S 0 0) HL HE) as (S' & E & _).
  specialize (X up_J (up_S 0 0) S' 0%nat HL HE E ltac:(simpl; lia) eq_refl).
  destruct (up_orient 0 0 S' ltac:(lra) E) as (E0 & E1 & _ & _ & Eq & _). unfold flow_from in X. rewrite E0, Eq in X. simpl in X. lra.
Qed.
(** C87: where the user supplies the internal junctions, a turned superlink joins its first internal junction to the other
    superjunction. *)
Definition joined (S : superlink_table) (k : nat) : list (nat * nat) := [(lt_0 S k, lt_j0 S k); (lt_1 S k, lt_j1 S k)].
Theorem C87_supplied_internals_refuted :
  ~ (forall J S S' k, by_position J -> ends_listed J S -> orient J S = Some S' -> (k < lt_n S)%nat ->
       lt_in S k = lt_out S k -> Permutation (joined S' k) (joined S k)).
Proof.
  intros X. destruct (up_listed 0 0) as [HL HE]. destruct (C87_direction_rule up_J (up_S 0 0) HL HE) as (S' & E & _).
  specialize (X up_J (up_S 0 0) S' 0%nat HL HE E ltac:(simpl; lia) eq_refl).
  destruct (up_orient 0 0 S' ltac:(lra) E) as (E0 & E1 & _ & _ & _ & Ej & Ek). unfold joined in X. rewrite E0, E1, Ej, Ek in X. simpl in X.
  apply (Permutation_in (1%nat, 0%nat)) in X; [|now left]. destruct X as [X|[X|[]]]; discriminate.
Qed.

(** C87: a superlink drawn upwards with equal offsets is turned and falls from 3/2 to 1/2. *)
Example C87_example :
  by_position up_J /\ ends_listed up_J (up_S (1/2) (1/2)) /\ rises up_J (up_S (1/2) (1/2)) 0 /\
  exists S', orient up_J (up_S (1/2) (1/2)) = Some S' /\ lt_0 S' 0%nat = 1%nat /\ end_inverts up_J S' 0 = Some (1 + 1/2, 0 + 1/2).
Proof.
  destruct (up_listed (1/2) (1/2)) as [HL HE]. split; [exact HL|]. split; [exact HE|]. split; [unfold rises; simpl; lra|].
  destruct (C87_direction_rule up_J (up_S (1/2) (1/2)) HL HE) as (S' & E & _). exists S'. split; [exact E|].
  destruct (up_orient (1/2) (1/2) S' ltac:(lra) E) as (E0 & E1 & Ei & Eo & _). split; [exact E0|].
  unfold end_inverts. rewrite E0, E1, Ei, Eo. reflexivity.
Qed.
