(** Discharge laws of the controls, stated from the hydraulics: higher and lower head, crest, crown.  No coefficients. *)
From Verif Require Import Prelude M_Coeffs.

(** Effective head on an orifice with invert z and open height y: difference of levels if drowned on both sides, depth
    over the middle if the higher side covers the opening, depth over the invert if it does not (weir flow). *)
Definition orifice_head (z y hi lo : R) : R :=
  if Rleb hi z then 0
  else if Rleb hi (z + y) then hi - z
  else if Rltb (z + y / 2) lo then hi - lo
  else hi - (z + y / 2).

(** C A sqrt(2 g h), from the higher to the lower side; a one-way orifice passes nothing unless H_u > H_d. *)
Definition orifice_law (A C z y H_u H_d : R) (oneway : bool) : R :=
  if (oneway && Rleb H_u H_d)%bool then 0
  else (if Rleb H_d H_u then 1 else -1) * (Rabs (C * A) * sqrt (2 * g * Rabs (orifice_head z y (Rmax H_u H_d) (Rmin H_u H_d)))).

(** (Cr L h + Ct s h^2) sqrt(h) with h the level difference if both sides are above the crest, the depth over the crest
    otherwise. *)
Definition weir_effective_head (crest hi lo : R) : R :=
  if Rleb hi crest then 0 else if Rltb crest lo then hi - lo else hi - crest.
Definition weir_law (L s Cr Ct crest H_u H_d : R) : R :=
  let h := weir_effective_head crest (Rmax H_u H_d) (Rmin H_u H_d) in
  (if Rleb H_d H_u then 1 else -1) * (Rabs (Cr * L * h + Ct * s * h ^ 2) * sqrt h).

(** [q] is a linearisation of the discharge [law] at the heads Hu0, Hd0 around the last reported flow: affine in the two
    heads, rising with the upstream and falling with the downstream head; at Hu0, Hd0 its value times the size of the last
    flow is the square of the discharge (with its sign), so it is the discharge itself if that was the last flow.  After a
    last flow of zero it vanishes. *)
Definition linearises (law Q_last Hu0 Hd0 : R) (q : R -> R -> R) : Prop :=
  (exists al be ch, 0 <= al /\ be <= 0 /\ forall Hu Hd, q Hu Hd = al * Hu + be * Hd + ch) /\
  (Q_last = 0 -> forall Hu Hd, q Hu Hd = 0) /\
  (Q_last <> 0 -> q Hu0 Hd0 * Rabs Q_last = law * Rabs law).
