(** Specification vocabulary for the least-squares reconstruction of internal depths. *)
From Verif Require Import Prelude M_LeastSquares.

(** Links and junctions are numbered consecutively, superlink by superlink, from upstream to downstream: superlink k
    has [nk k >= 1] links and [nk k + 1] junctions, and the tables say so. *)
Record contiguous (T : chain) : Prop := mkContiguous {
  ct_links : forall k, (k < c_NK T)%nat -> (1 <= c_nk T k)%nat;
  ct_NL : c_NL T = nsum (c_nk T) (c_NK T);
  ct_NJ : c_NJ T = nsum (fun k => c_nk T k + 1)%nat (c_NK T);
  ct_first : forall k, (k < c_NK T)%nat -> c_i1 T k = nsum (c_nk T) k /\ c_I1 T k = nsum (fun k => c_nk T k + 1)%nat k;
  ct_junction : forall k j, (k < c_NK T)%nat -> (j <= c_nk T k)%nat ->
    c_kI T (c_I1 T k + j)%nat = k /\ c_start T (c_I1 T k + j)%nat = Nat.eqb j 0 /\
    c_end T (c_I1 T k + j)%nat = Nat.eqb j (c_nk T k);
  ct_link : forall k j, (k < c_NK T)%nat -> (j < c_nk T k)%nat ->
    c_ki T (c_i1 T k + j)%nat = k /\ c_Ik T (c_i1 T k + j)%nat = (c_I1 T k + j)%nat /\
    c_lstart T (c_i1 T k + j)%nat = Nat.eqb j 0 /\ c_lend T (c_i1 T k + j)%nat = Nat.eqb (j + 1) (c_nk T k) }.

(** Sum over the links of the squared difference between the flow computed from upstream, U h_{j+1} + V + W h_0, and
    the flow computed from downstream, X h_j + Y + Z h_n. *)
Definition disagreement (U V W X Y Z : arr) (n : nat) (h : arr) : R :=
  sum_n (fun j => (U j * h (j + 1)%nat + V j + W j * h O - (X j * h j + Y j + Z j * h n)) ^ 2) n.

(** What a linear solver and a non-negative least-squares solver return, when they return. *)
From Verif Require Import S_Network.
Definition sound_solver (lin : nat -> mat -> arr -> option arr) : Prop :=
  forall n A b x, lin n A b = Some x -> solves n A b x.
Definition residual2 (rows cols : nat) (A : mat) (b x : arr) : R :=
  sum_n (fun r => (sum_n (fun c => A r c * x c) cols - b r) ^ 2) rows.
Definition sound_nnls (nnls : nat -> nat -> mat -> arr -> option arr) : Prop :=
  forall rows cols A b x, nnls rows cols A b = Some x ->
    (forall c, (c < cols)%nat -> 0 <= x c) /\
    (forall y, (forall c, (c < cols)%nat -> 0 <= y c) -> residual2 rows cols A b x <= residual2 rows cols A b y).
