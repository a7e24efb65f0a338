(** Model of orifices, weirs and pumps (pipedream_solver/nsuperlink.py 1534-1613, 2645-2676, 2716-2957), one element each;
    the code's array masks become conditionals in the same order. *)
From Verif Require Import Prelude M_Coeffs M_Recurrence M_Assembly.

(** [omega[H_u >= H_d] = 1.0] (2728-2729, 2777-2778, 2833-2834, 2879-2880). *)
Definition omega (H_u H_d : R) : R := if Rleb H_d H_u then 1 else 0.
(** [(-1) ** (1 - omega)] for omega in {0, 1}. *)
Definition flip (w : R) : R := if Reqb w 1 then 1 else -1.

(** nsuperlink.py:2647-2654 [gamma_o]. *)
Definition gamma_o (Q A C : R) : R := safe_divide (2 * g * C ^ 2 * A ^ 2) (Rabs Q).

(** The three masks of 2733-2738 (and 2786-2791), then the four cases of 2740-2763 (and 2795-2816). *)
Definition orifice_coeffs (gam H_u H_d u z_inv z_o tau y_max : R) (oneway : bool) : R * R * R :=
  let w := omega H_u H_d in
  let cond_0 := Rltb (z_o + z_inv + tau * y_max * u) (w * H_u + (1 - w) * H_d) in
  let cond_1 := Rltb (z_o + z_inv + tau * y_max * u / 2) ((1 - w) * H_u + w * H_d) in
  let cond_2 := Rltb (z_o + z_inv) (w * H_u + (1 - w) * H_d) in
  let cond_3 := (Rleb H_u H_d && oneway)%bool in
  if ((negb cond_0 && negb cond_2) || cond_3)%bool then (0, 0, 0)
  else if (negb cond_0 && cond_2)%bool then
    (gam * w * flip w, gam * (1 - w) * flip w, gam * flip w * (- z_inv - z_o))
  else if (cond_0 && negb cond_1)%bool then
    (gam * w * flip w, gam * (1 - w) * flip w, gam * flip w * (- z_inv - z_o - tau * y_max * u / 2))
  else (gam, - gam, 0).

(** nsuperlink.py:2720-2764 [numba_orifice_flow_coefficients], one orifice; [Q]: its last reported flow. *)
Definition orifice_flow_coefficients (Q A C H_u H_d u z_inv z_o tau y_max : R) (oneway : bool) : R * R * R :=
  orifice_coeffs (gamma_o Q A C) H_u H_d u z_inv z_o tau y_max oneway.

(** nsuperlink.py:2770-2821 [numba_solve_orifice_flows], one orifice. *)
Definition orifice_discharge (A C H_u H_d u z_inv z_o tau y_max : R) (oneway : bool) : R :=
  let '(a, b, c) := orifice_coeffs (2 * g * C ^ 2 * A ^ 2) H_u H_d u z_inv z_o tau y_max oneway in
  flip (omega H_u H_d) * sqrt (Rabs (a * H_u + b * H_d + c)).

(** [np.sign] *)
Definition sign (x : R) : R := if Rltb x 0 then -1 else if Rltb 0 x then 1 else 0.

(** nsuperlink.py:1557-1562: limit by the volume stored at the controlling end. *)
Definition limit_orifice (Q H_u H_d V_u V_d dt : R) : R :=
  let Q_max := (if Rltb H_d H_u then V_u else V_d) / dt in
  sign Q * Rmin (Rabs Q) Q_max.
Definition solve_orifice_flows (A C H_u H_d u z_inv z_o tau y_max : R) (oneway : bool) (V_u V_d dt : R) : R :=
  limit_orifice (orifice_discharge A C H_u H_d u z_inv z_o tau y_max oneway) H_u H_d V_u V_d dt.

(** nsuperlink.py:2835-2848 and 2881-2895: effective head on a weir. *)
Definition weir_conds (H_u H_d u z_inv z_w y_max : R) : bool * bool :=
  let w := omega H_u H_d in
  (Rltb (z_w + z_inv + (1 - u) * y_max) (w * H_u + (1 - w) * H_d),
   Rltb (z_w + z_inv + (1 - u) * y_max) ((1 - w) * H_u + w * H_d)).
Definition weir_head (H_u H_d u z_inv z_w y_max : R) : R :=
  let w := omega H_u H_d in
  let '(cond_0, cond_1) := weir_conds H_u H_d u z_inv z_w y_max in
  Rabs (if (cond_0 && cond_1)%bool then H_u - H_d
        else if (cond_0 && negb cond_1)%bool then w * H_u + (1 - w) * H_d + (- z_inv - z_w - (1 - u) * y_max)
        else 0).

(** nsuperlink.py:2658-2665 [gamma_w]. *)
Definition gamma_w (Q Hw L s Cr Ct : R) : R := safe_divide ((Cr * L * Hw + Ct * s * Hw ^ 2) ^ 2) (Rabs Q).

(** nsuperlink.py:2826-2868 [numba_weir_flow_coefficients], one weir. *)
Definition weir_flow_coefficients (Q H_u H_d u z_inv z_w y_max L s Cr Ct : R) : R * R * R :=
  let w := omega H_u H_d in
  let '(cond_0, cond_1) := weir_conds H_u H_d u z_inv z_w y_max in
  let gam := gamma_w Q (weir_head H_u H_d u z_inv z_w y_max) L s Cr Ct in
  if negb cond_0 then (0, 0, 0)
  else if (cond_0 && negb cond_1)%bool then
    (gam * w * flip w, gam * (1 - w) * flip w, gam * flip w * (- z_inv - z_w - (1 - u) * y_max))
  else (gam, - gam, 0).

(** nsuperlink.py:2873-2900 [numba_solve_weir_flows], one weir. *)
Definition weir_discharge (H_u H_d u z_inv z_w y_max L s Cr Ct : R) : R :=
  let Hw := weir_head H_u H_d u z_inv z_w y_max in
  flip (omega H_u H_d) * sqrt ((Cr * L * Hw + Ct * s * Hw ^ 2) ^ 2 * Hw).

(** nsuperlink.py:2919-2920, 2951-2952: head difference limited to the pump curve (dH_min <= dH_max is asserted at
    line 1124). *)
Definition pump_head (H_u H_d dH_max dH_min : R) : R :=
  let d := H_d - H_u in
  let d := if Rltb dH_max d then dH_max else d in
  if Rltb d dH_min then dH_min else d.

(** nsuperlink.py:2669-2676 [gamma_p].  NumPy evaluates 0 ** (c - 1) to inf for c < 1, and u / inf to 0; [fpow] gives 0
    and [safe_divide] then 0: the same coefficient. *)
Definition gamma_p (Q b c u : R) : R := safe_divide u (b * fpow (Rabs Q) (c - 1)).

(** nsuperlink.py:2906-2939 [numba_pump_flow_coefficients], one pump. *)
Definition pump_flow_coefficients (Q H_u H_d u z_inv z_p dH_max dH_min a b c : R) : R * R * R :=
  let cond_0 := Rltb (z_inv + z_p) H_u in
  let cond_1 := (Rltb dH_min (H_d - H_u) && Rltb (H_d - H_u) dH_max)%bool in
  let d := pump_head H_u H_d dH_max dH_min in
  let gam := gamma_p Q b c u in
  if negb cond_0 then (0, 0, 0)
  else if cond_1 then (gam, - gam, gam * a)
  else (0, 0, gam * (a - d)).

(** nsuperlink.py:2944-2957 [numba_solve_pump_flows], one pump.  A negative base (head difference above [a]) is NaN in
    NumPy and not modelled: the theorems assume dH_max <= a. *)
Definition pump_discharge (H_u H_d u z_inv z_p dH_max dH_min a b c : R) : R :=
  let d := pump_head H_u H_d dH_max dH_min in
  let Q := fpow (u / b * (a - d)) (1 / c) in
  if negb (Rltb (z_inv + z_p) H_u) then 0 else Q.

(** Arrays of controls, as handed to the assembly (nsuperlink.py:1037-1131). *)
Record orifices : Type := mkOrifices {
  o_n : nat; o_Ju : nat -> nat; o_Jd : nat -> nat; o_A : arr; o_C : arr; o_z : arr; o_tau : arr; o_ymax : arr;
  o_oneway : nat -> bool }.
Record weirs : Type := mkWeirs {
  w_n : nat; w_Ju : nat -> nat; w_Jd : nat -> nat; w_z : arr; w_ymax : arr; w_L : arr; w_s : arr; w_Cr : arr; w_Ct : arr }.
Record pumps : Type := mkPumps {
  p_n : nat; p_Ju : nat -> nat; p_Jd : nat -> nat; p_z : arr; p_max : arr; p_min : arr; p_a : arr; p_b : arr; p_c : arr }.

Definition from_coeffs (n : nat) (Ju Jd : nat -> nat) (f : nat -> R * R * R) : controls :=
  mkControls n Ju Jd (fun k => fst (fst (f k))) (fun k => snd (fst (f k))) (fun k => snd (f k)).
(** nsuperlink.py:1037-1066; [Q]: last flows, [u]: openings, [H]: heads, [z]: junction inverts. *)
Definition orifice_controls (O : orifices) (Q u H z : arr) : controls :=
  from_coeffs (o_n O) (o_Ju O) (o_Jd O) (fun k =>
    orifice_flow_coefficients (Q k) (o_A O k) (o_C O k) (H (o_Ju O k)) (H (o_Jd O k)) (u k) (z (o_Ju O k)) (o_z O k) (o_tau O k)
      (o_ymax O k) (o_oneway O k)).
(** nsuperlink.py:1068-1098 *)
Definition weir_controls (W : weirs) (Q u H z : arr) : controls :=
  from_coeffs (w_n W) (w_Ju W) (w_Jd W) (fun k =>
    weir_flow_coefficients (Q k) (H (w_Ju W k)) (H (w_Jd W k)) (u k) (z (w_Ju W k)) (w_z W k) (w_ymax W k) (w_L W k) (w_s W k)
      (w_Cr W k) (w_Ct W k)).
(** nsuperlink.py:1100-1131 *)
Definition pump_controls (P : pumps) (Q u H z : arr) : controls :=
  from_coeffs (p_n P) (p_Ju P) (p_Jd P) (fun k =>
    pump_flow_coefficients (Q k) (H (p_Ju P k)) (H (p_Jd P k)) (u k) (z (p_Ju P k)) (p_z P k) (p_max P k) (p_min P k)
      (p_a P k) (p_b P k) (p_c P k)).
