(** Property C145: brighter scenes. *)
From Coq Require Import Lra.
From Verif Require Import Base BaseX M_Translate M_Mapper M_Metric S_Metric S_Brighter L_Brighter.
Local Open Scope R_scope.

(** C145: when everything gets brighter by the same factor, dgp grows (to at most 1), whatever the threshold *)
Theorem C145_dgp m k : valid_omega m -> 0 < illum m -> 1 < k ->
  exists x y, dgp m = Fin x /\ dgp (with_scale m (k * ms_scale m)) = Fin y /\ x <= y <= 1 /\ (x < 1 -> x < y).
Proof. exact (dgp_scale m k). Qed.
Print Assumptions C145_dgp.
(** C145: and ugr does not fall, as long as something is left that is not a source *)
Theorem C145_ugr m k : valid_omega m -> all_illuminate m -> 1 <= k -> 0 < backlum (with_scale m (k * ms_scale m)) ->
  exists x y, ugr m = Fin x /\ ugr (with_scale m (k * ms_scale m)) = Fin y /\ x <= y.
Proof. exact (ugr_scale m k). Qed.
Print Assumptions C145_ugr.
(** C145: it makes no difference whether the luminances of the rays are multiplied or the scale *)
Theorem C145_same m k :
  dgp (with_rays m (scale_lum k (ms_rays m))) = dgp (with_scale m (k * ms_scale m)) /\
  ugr (with_rays m (scale_lum k (ms_rays m))) = ugr (with_scale m (k * ms_scale m)) /\
  ugp (with_rays m (scale_lum k (ms_rays m))) = ugp (with_scale m (k * ms_scale m)).
Proof. exact (same_metrics m k). Qed.
Print Assumptions C145_same.
(** C145: when only some of the rays get brighter, dgp can fall *)
Theorem C145_refuted : exists o vm a b ma mb oa ob, no_darker a b /\
  construct 0 o vm a = Some (ma, oa) /\ construct 0 o vm b = Some (mb, ob) /\ valid_rays ma /\ valid_rays mb /\
  exists x y, dgp ma = Fin x /\ dgp mb = Fin y /\ y < x.
Proof. exact brighter_lower. Qed.
Print Assumptions C145_refuted.
Example C145_example : valid_omega (room 900) /\ 0 < illum (room 900) /\ all_illuminate (room 900) /\ 0 < backlum (with_scale (room 900) (2 * 1)).
Proof. exact room_example. Qed.
