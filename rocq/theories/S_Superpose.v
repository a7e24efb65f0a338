(** Specification for C79: concentrations as sums of others. *)
From Verif Require Import Prelude M_Step M_Quality.

(** Every concentration of [c] is a times that of [c1] plus b times that of [c2]. *)
Record combination (N : network) (a b : R) (c1 c2 c : wq_state) : Prop := mkCombination {
  cb_j : forall j, (j < n_M N)%nat -> c_j c j = a * c_j c1 j + b * c_j c2 j;
  cb_I : forall k j, (k < n_K N)%nat -> (j <= n_nk N k)%nat ->
           c_I c (n_I1 N k + j)%nat = a * c_I c1 (n_I1 N k + j)%nat + b * c_I c2 (n_I1 N k + j)%nat;
  cb_i : forall k j, (k < n_K N)%nat -> (j < n_nk N k)%nat ->
           c_i c (n_i1 N k + j)%nat = a * c_i c1 (n_i1 N k + j)%nat + b * c_i c2 (n_i1 N k + j)%nat;
  cb_u : forall k, (k < n_K N)%nat -> c_u c k = a * c_u c1 k + b * c_u c2 k;
  cb_d : forall k, (k < n_K N)%nat -> c_d c k = a * c_d c1 k + b * c_d c2 k }.

(** The same water and the same step, and so combined inflow and prescribed concentrations. *)
Record combined_inputs (N : network) (P : wq_par) (a b : R) (i1 i2 i : wq_in) : Prop := mkCombined {
  ci_F1 : i_F i1 = i_F i; ci_F2 : i_F i2 = i_F i;
  ci_Qj1 : i_Q0j i1 = i_Q0j i; ci_Qj2 : i_Q0j i2 = i_Q0j i;
  ci_QI1 : i_Q0I i1 = i_Q0I i; ci_QI2 : i_Q0I i2 = i_Q0I i;
  ci_dt1 : i_dt i1 = i_dt i; ci_dt2 : i_dt i2 = i_dt i;
  ci_bc : forall j, (j < n_M N)%nat -> p_bc P j = true -> i_bc i j = a * i_bc i1 j + b * i_bc i2 j;
  ci_j : forall j, (j < n_M N)%nat -> i_0j i j = a * i_0j i1 j + b * i_0j i2 j;
  ci_I : forall k j, (k < n_K N)%nat -> (j <= n_nk N k)%nat ->
           i_0I i (n_I1 N k + j)%nat = a * i_0I i1 (n_I1 N k + j)%nat + b * i_0I i2 (n_I1 N k + j)%nat }.

(** No concentration of [c] is below that of [c1], and none of the given ones of [i] below that of [i1]. *)
Record no_less (N : network) (c1 c : wq_state) : Prop := mkNoLess {
  nl_j : forall j, (j < n_M N)%nat -> c_j c1 j <= c_j c j;
  nl_I : forall k j, (k < n_K N)%nat -> (j <= n_nk N k)%nat -> c_I c1 (n_I1 N k + j)%nat <= c_I c (n_I1 N k + j)%nat;
  nl_i : forall k j, (k < n_K N)%nat -> (j < n_nk N k)%nat -> c_i c1 (n_i1 N k + j)%nat <= c_i c (n_i1 N k + j)%nat;
  nl_u : forall k, (k < n_K N)%nat -> c_u c1 k <= c_u c k;
  nl_d : forall k, (k < n_K N)%nat -> c_d c1 k <= c_d c k }.
Record no_less_inputs (N : network) (P : wq_par) (i1 i : wq_in) : Prop := mkNoLessInputs {
  ni_F : i_F i1 = i_F i; ni_Qj : i_Q0j i1 = i_Q0j i; ni_QI : i_Q0I i1 = i_Q0I i; ni_dt : i_dt i1 = i_dt i;
  ni_bc : forall j, (j < n_M N)%nat -> p_bc P j = true -> i_bc i1 j <= i_bc i j;
  ni_j : forall j, (j < n_M N)%nat -> i_0j i1 j <= i_0j i j;
  ni_I : forall k j, (k < n_K N)%nat -> (j <= n_nk N k)%nat -> i_0I i1 (n_I1 N k + j)%nat <= i_0I i (n_I1 N k + j)%nat }.
