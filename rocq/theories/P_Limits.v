(** Property C31: limits on heads and depths after any number of steps. *)
From Verif Require Import Prelude M_Coeffs M_Recurrence M_Assembly M_Step S_Superlink S_Network S_Step L_Internals P_Step.

(** Any number of steps (or of iterations inside a step): each with its own coefficients, whatever they are, and with any
    head vector returned by the linear solver, whether it solves the system or not. *)
Definition run (N : network) (history : list (setup * arr)) (st : hstate) : hstate :=
  fold_left (fun st e => solve_step N (fst e) st (snd e)) history st.

Record within_limits (N : network) (st : hstate) : Prop := mkWithin {
  wl_heads : forall j, 0 <= n_maxj N j -> n_zj N j <= h_H st j <= n_zj N j + n_maxj N j;
  wl_depths : forall I, n_min N <= h_h st I;
  wl_interior : forall k j, (k < n_K N)%nat -> n_min N <= n_maxk N k -> (1 <= j)%nat -> (j < n_nk N k)%nat ->
    h_h st (n_I1 N k + j)%nat <= n_maxk N k }.

Lemma limit_head_range z m H : 0 <= m -> z <= limit_head z m H <= z + m.
Proof.
  intros Hm. unfold limit_head. unfold Rmin, Rmax.
  destruct (Rle_dec H z); destruct (Rle_dec _ (z + m)); lra.
Qed.

Lemma solve_step_within N u st H_sol :
  layout (n_K N) (n_nk N) (n_i1 N) (n_I1 N) -> within_limits N (solve_step N u st H_sol).
Proof.
  intros Hl. constructor; unfold solve_step.
  - intros j Hj. cbn [h_H]. apply limit_head_range; auto.
  - intros I. cbn [h_h]. unfold solve_internals.
    destruct (numba_solve_internals _ _ _ _ _ _ _ _ _ _ _ _) as [h' Q']. cbn [fst].
    destruct (Rltb_spec (h' I) (n_min N)); lra.
  - intros k j Hk Hlim Hj1 Hj2. cbn [h_h]. unfold solve_internals.
    destruct (numba_solve_internals _ _ _ _ _ _ _ _ _ _ _ _) as [h' Q'] eqn:E. cbn [fst].
    destruct (numba_solve_internals_eqs _ _ _ _ _ _ _ _ _ _ _ _ _ _ Hl E k Hk) as [_ _ _ Eh _].
    rewrite (Eh j Hj1 Hj2).
    match goal with |- context [limit_depth ?a ?b ?x] => pose proof (limit_depth_range a b x Hlim) as X end.
    destruct (Rltb_spec (limit_depth (n_min N) (n_maxk N k)
       (h_i_b (Q' (n_i1 N k + j)%nat)
          (snd (solve_superlink_depths (u_hu u k) (u_hd u k)
                  (fst (solve_superlink_flows (flow_coeffs N u k) (limit_head (n_zj N (n_Ju N k)) (n_maxj N (n_Ju N k)) (H_sol (n_Ju N k)))
                          (limit_head (n_zj N (n_Jd N k)) (n_maxj N (n_Jd N k)) (H_sol (n_Jd N k)))))
                  (snd (solve_superlink_flows (flow_coeffs N u k) (limit_head (n_zj N (n_Ju N k)) (n_maxj N (n_Ju N k)) (H_sol (n_Ju N k)))
                          (limit_head (n_zj N (n_Jd N k)) (n_maxj N (n_Jd N k)) (H_sol (n_Jd N k)))))
                  (limit_head (n_zj N (n_Ju N k)) (n_maxj N (n_Ju N k)) (H_sol (n_Ju N k)))
                  (limit_head (n_zj N (n_Jd N k)) (n_maxj N (n_Jd N k)) (H_sol (n_Jd N k)))))
          (bX (u_b u) (n_I1 N k + j)%nat) (bY (u_b u) (n_I1 N k + j)%nat) (bZ (u_b u) (n_I1 N k + j)%nat))) (n_min N)); lra.
Qed.

(** After at least one step, from any state, with any coefficients and solver outputs: heads lie between the invert
    and the invert plus the maximum depth, all internal depths are at least the minimum depth, and depths strictly
    inside a superlink at most its maximum depth. *)
Theorem C31_limits_hold_after_any_history :
  forall N history st,
  layout (n_K N) (n_nk N) (n_i1 N) (n_I1 N) -> history <> [] -> within_limits N (run N history st).
Proof.
  intros N history st Hl Hne. unfold run.
  destruct (exists_last Hne) as (hs & (u & H_sol) & ->). rewrite fold_left_app. simpl.
  apply solve_step_within; auto.
Qed.

(** The limits never touch admissible heads: within the limits the solver's head is kept. *)
Theorem C31_admissible_heads_are_kept :
  forall N history st u H_sol j,
  n_zj N j <= H_sol j <= n_zj N j + n_maxj N j ->
  h_H (run N (history ++ [(u, H_sol)]) st) j = H_sol j.
Proof.
  intros N history st u H_sol j Hj. unfold run. rewrite fold_left_app. simpl.
  unfold limit_head. unfold Rmin, Rmax. destruct (Rle_dec (H_sol j) (n_zj N j)); destruct (Rle_dec _ _); lra.
Qed.

(** Witness: the network of C28 and a wild solver output. *)
Example C31_example :
  exists st', within_limits rest_net st' /\ h_H st' 0%nat = n_zj rest_net 0%nat.
Proof.
  set (u0 := mkSetup (mkMom zeros zeros zeros zeros) zeros zeros (mkFwd zeros zeros zeros zeros)
                (mkBwd zeros zeros zeros zeros) (fun _ => mkHead 0 0 0) (fun _ => mkHead 0 0 0)).
  exists (run rest_net [(u0, fun _ => -1000)] rest_state). split.
  - apply C31_limits_hold_after_any_history; [|discriminate].
    apply rest_net_ok.
  - simpl. unfold limit_head, Rmin, Rmax. simpl. destruct (Rle_dec _ _); destruct (Rle_dec _ _); lra.
Qed.
