(** Model of the coupling between the hydraulic object and the water-quality object
    (pipedream_solver/nquality.py 228-281, 1648-1762, 98-226, 945-1000): what the water-quality model reads from the
    hydraulic one, and the two advanced in turn.

    Simplifications.  As in the models of the two objects.  A division of a numpy array by 0 gives inf or nan without
    raising; here such an entry is Coq's quotient, so statements assume the divisor is not 0. *)
From Verif Require Import Prelude M_Numerics M_Coeffs M_Recurrence M_Assembly M_Step M_Geometry M_Storage M_Controls M_Simulation M_Model M_Quality.

(** The code and first dimension the hydraulic model keeps for a section (nsuperlink.py:321-322): irregular and unknown
    shapes have code 0. *)
Definition code_of (c : xsection) : nat := match c with Regular s => shape s | Irregular _ _ _ _ _ => 0%nat end.
Definition dim_of (c : xsection) : R := match c with Regular s => g1 s | Irregular _ _ _ _ _ => 0 end.

(** nquality.py:1651-1660, one entry of the array computation: area of a circular section of diameter d filled to y. *)
Definition circle_area (d y : R) : R :=
  let y := if Rltb y 0 then 0 else y in
  let y := if Rltb d y then d else y in
  let r := d / 2 in
  let phi := y / r in
  let phi := if Rltb phi 0 then 0 else phi in
  let phi := if Rltb 2 phi then 2 else phi in
  let theta := acos (1 - phi) in
  r ^ 2 * (theta - cos theta * sin theta).
(** nquality.py:1684-1697 (repeated at 1699-1711, 1725-1738, 1739-1751): the same with scalars, which raises when d = 0. *)
Definition circle_area_scalar (d y : R) : option R :=
  let y := if Rltb y 0 then 0 else if Rltb d y then d else y in
  let r := d / 2 in
  do phi <- div y r;
  let phi := if Rltb phi 0 then 0 else if Rltb 2 phi then 2 else phi in
  let theta := acos (1 - phi) in
  Some (r ^ 2 * (theta - cos theta * sin theta)).

(** nquality.py:1648-1664 [geometry_WQ1]: areas of all links, by the shape code of link 0. *)
Definition link_area (code : nat) (d B h0 h1 : R) : option R :=
  match code with
  | 1%nat => Some (circle_area d (/ 2 * (h0 + h1)))
  | 3%nat => Some (B * / 2 * (h0 + h1))
  | _ => None
  end.
(** nquality.py:1682-1716, 1723-1752: area of an end piece; [s]: sum of the depths at its two sides. *)
Definition end_area (code : nat) (d B s : R) : option R :=
  match code with
  | 1%nat => circle_area_scalar d (/ 2 * s)
  | 3%nat => Some (B * / 2 * s)
  | _ => None
  end.

(** One superlink's entries of [geometry_WQ2]. *)
Record end_in : Type := mkEndIn {
  ei_Quu : R; ei_Qud : R; ei_Au : R; ei_Aup : R; ei_Qdu : R; ei_Qdd : R; ei_Ad : R; ei_Adp : R }.

Section Import.
Variable D : design.
Local Notation N := (d_net D).

(** nquality.py:1666-1754 [geometry_WQ2], superlink k.  The diameter is that of link k (not of a link of superlink k),
    and the depth on the junction's side is measured from the junction's invert. *)
Definition end_import (b : body) (sv : hstate) (dt : R) (k : nat) : option end_in :=
  let st := b_st b in
  let code := code_of (d_sec D 0) in
  let d := dim_of (d_sec D k) in
  let Ju := n_Ju N k in
  let Jd := n_Jd N k in
  let I1 := n_I1 N k in
  let IN := (n_I1 N k + n_nk N k)%nat in
  let Bu := gm_B (b_gu b k) in
  let Bd := gm_B (b_gd b k) in
  do quu <- div (/ 2 * Bu * n_dxu N k * (h_H st Ju - h_H sv Ju)) dt;
  do qud <- div (/ 2 * Bu * n_dxu N k * (h_h st I1 - h_h sv I1)) dt;
  do au <- end_area code d Bu (h_H st Ju - n_zj N Ju + h_h st I1);
  do aup <- end_area code d Bu (h_H sv Ju - n_zj N Ju + h_h sv I1);
  do qdu <- div (/ 2 * Bd * n_dxd N k * (h_h st IN - h_h sv IN)) dt;
  do qdd <- div (/ 2 * Bd * n_dxd N k * (h_H st Jd - h_H sv Jd)) dt;
  do ad <- end_area code d Bd (h_H st Jd - n_zj N Jd + h_h st IN);
  do adp <- end_area code d Bd (h_H sv Jd - n_zj N Jd + h_h sv IN);
  Some (mkEndIn (h_Qu st k + quu) (h_Qu st k - qud) au aup (h_Qd st k + qdu) (h_Qd st k - qdd) ad adp).

(** nquality.py:1756-1762 [Q_ik_up_dn], link i. *)
Definition face_up (b : body) (sv : hstate) (dt : R) (i : nat) : R :=
  h_Q (b_st b) i + / 2 * gm_B (b_gl b i) * n_dx N i * (h_h (b_st b) (d_Ik D i) - h_h sv (d_Ik D i)) / dt.
Definition face_dn (b : body) (sv : hstate) (dt : R) (i : nat) : R :=
  h_Q (b_st b) i - / 2 * gm_B (b_gl b i) * n_dx N i * (h_h (b_st b) (d_Ik D i + 1)%nat - h_h sv (d_Ik D i + 1)%nat) / dt.

(** nquality.py:228-281 [import_hydraulic_states]: current attributes of the hydraulic object and the state it saved at
    the start of its last step.  The previous area of a link is the one of the last geometry computation (252). *)
Definition import_flow (dt : R) (m : object) : option wq_flow :=
  let b := m_body m in
  let st := b_st b in
  let sv := v_st (snd (m_saved m)) in
  if Nat.eqb (n_L N) 0 then None else
  do a <- all_entries (n_L N) zeros (fun i =>
            link_area (code_of (d_sec D 0)) (dim_of (d_sec D i)) (gm_B (b_gl b i))
                      (h_h st (d_Ik D i)) (h_h st (d_Ik D i + 1)%nat));
  do e <- all_entries (n_K N) (fun _ => mkEndIn 0 0 0 0 0 0 0 0) (end_import b sv dt);
  Some (mkFlowIn (face_up b sv dt) (face_dn b sv dt) a (fun i => gm_A (b_gl b i))
                 (fun k => ei_Quu (e k)) (fun k => ei_Qud (e k)) (fun k => ei_Au (e k)) (fun k => ei_Aup (e k))
                 (fun k => ei_Qdu (e k)) (fun k => ei_Qdd (e k)) (fun k => ei_Ad (e k)) (fun k => ei_Adp (e k))
                 (h_h st) (h_h sv)
                 (fun j => b_As b j * (h_H st j - n_zj N j)) (fun j => b_As b j * (h_H sv j - n_zj N j))
                 (b_Qo b) (b_Qw b) (b_Qp b)).

(** The controls as the water-quality model indexes them (nquality.py:149-157). *)
Definition orifices_of : wq_ctl := mkCtl (o_n (d_or D)) (o_Ju (d_or D)) (o_Jd (d_or D)).
Definition weirs_of : wq_ctl := mkCtl (w_n (d_we D)) (w_Ju (d_we D)) (w_Jd (d_we D)).
Definition pumps_of : wq_ctl := mkCtl (p_n (d_pu D)) (p_Ju (d_pu D)) (p_Jd (d_pu D)).

(** Concentrations of the inflows and at boundaries given to one water-quality step. *)
Record doses : Type := mkDoses { x_bc : arr; x_0j : arr; x_0I : arr }.

(** nquality.py:945-1000: the argument of a water-quality step taken after a hydraulic step with inputs [i]; the inflows
    default to those of the hydraulic model (982-985). *)
Definition quality_input (i : inputs) (x : doses) (dt : R) (F : wq_flow) : wq_in :=
  mkWqIn F (x_bc x) (x_0j x) (i_Qin i) (x_0I x) (i_Q0 i) dt.

(** One coupled step: the hydraulic object is advanced in [n] passes at most, then the water-quality object reads its
    state and is advanced over the same time step. *)
Inductive coupled_step (slv : mat -> arr -> option arr) (P : wq_par) (i : inputs) (x : doses) (dt : R) (n : nat) (tol : R)
          (m : object) (o : wq_obj) : object -> wq_obj -> Prop :=
| coupled_intro m' p F o' :
    object_step D slv i dt n tol m = Some (m', p) -> import_flow dt m' = Some F ->
    q_step N P orifices_of weirs_of pumps_of (quality_input i x dt F) o o' ->
    coupled_step slv P i x dt n tol m o m' o'.
End Import.
