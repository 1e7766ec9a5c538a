(** Property C143: the position weighting of the score. *)
From Coq Require Import Lra.
From Verif Require Import Base M_Mapper M_Gss S_Gss L_Weight.
Local Open Scope R_scope.

(** C143: of two images with the same responses, the one whose mean eccentricity is larger gets the smaller score, from an
    eccentricity of 0.0103 up. Missing: the eccentricities from 0.009 to 0.0103 (see C143_refuted) *)
Theorem C143_falls_partial r_g omega a b : 0 < gss_raw r_g omega -> 0.0103 <= a -> a < b -> b <= 0.12 ->
  gss false b r_g omega < gss false a r_g omega.
Proof. exact (gss_falls r_g omega a b). Qed.
Print Assumptions C143_falls_partial.
(** C143: over the whole range the score of the larger eccentricity is never more than 0.05 percent larger *)
Theorem C143_nearly r_g omega a b : 0.009 <= a -> a < b -> b <= 0.12 ->
  gss false b r_g omega <= 1.0005 * gss false a r_g omega.
Proof. exact (gss_nearly r_g omega a b). Qed.
Print Assumptions C143_nearly.
(** C143: the factor of the line of sight, and that of the border of the view *)
Theorem C143_ends : weight 0.009 = 33.12797281708 /\ Rabs (weight 0.12 - 9.82) < 0.0001.
Proof. exact weight_ends. Qed.
Print Assumptions C143_ends.
(** C143: a source a little off the line of sight counts more than one on it *)
Theorem C143_refuted r_g omega : 0 < gss_raw r_g omega -> gss false 0.009 r_g omega < gss false 0.01 r_g omega.
Proof. exact (gss_rises r_g omega). Qed.
Print Assumptions C143_refuted.
Example C143_example : 0 < gss_raw [(0.5, 0.25)] [0.01] /\ 0.0103 <= 0.02 /\ 0.02 < 0.05 /\ 0.05 <= 0.12.
Proof. split; [apply raw_pos; cbn [fst]; lra|lra]. Qed.
