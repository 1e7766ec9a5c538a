(** Property C151: raising the threshold. *)
From Coq Require Import Lra.
From Verif Require Import Base BaseX M_Translate M_Mapper M_Metric S_Metric S_Brighter S_Level L_Brighter L_Level.
Import ListNotations.
Local Open Scope R_scope.

(** C151: a higher threshold of the same kind finds no new sources, so that their area, illuminance and weighted sum do not grow *)
Theorem C151_sources m t' : valid_rays m -> 0 <= ms_scale m -> ms_threshold m <= t' -> same_kind (ms_threshold m) t' ->
  (forall r, In r (sources (with_threshold m t')) -> In r (sources m)) /\
  srcarea (with_threshold m t') <= srcarea m /\ pwsl2 (with_threshold m t') <= pwsl2 m /\
  (all_illuminate m -> srcillum (with_threshold m t') <= srcillum m /\ backlum m <= backlum (with_threshold m t')).
Proof. exact (lv_all m t'). Qed.
Print Assumptions C151_sources.
(** C151: dgp does not grow *)
Theorem C151_dgp m t' : valid_rays m -> 0 <= ms_scale m -> ms_threshold m <= t' -> same_kind (ms_threshold m) t' -> 0 < illum m ->
  exists x y, dgp m = Fin x /\ dgp (with_threshold m t') = Fin y /\ y <= x.
Proof. exact (lv_dgp m t'). Qed.
Print Assumptions C151_dgp.
(** C151: nor does ugr *)
Theorem C151_ugr m t' : valid_rays m -> 0 <= ms_scale m -> ms_threshold m <= t' -> same_kind (ms_threshold m) t' -> all_illuminate m -> 0 < backlum m ->
  exists x y, ugr m = Fin x /\ ugr (with_threshold m t') = Fin y /\ y <= x.
Proof. exact (lv_ugr m t'). Qed.
Print Assumptions C151_ugr.
(** C151: from a multiple of the task luminance to a fixed luminance, a higher threshold can find more *)
Theorem C151_refuted : exists g s a r l t t' vm args m m' om om', t < t' /\
  construct 0 (Opts g s a t r l) vm args = Some (m, om) /\ construct 0 (Opts g s a t' r l) vm args = Some (m', om') /\
  valid_rays m /\ sources m = [] /\ sources m' = ms_rays m' /\ ms_rays m' <> [] /\ exists x y, dgp m = Fin x /\ dgp m' = Fin y /\ x < y.
Proof. exact level_refuted. Qed.
Print Assumptions C151_refuted.
Example C151_example : valid_rays (room 900) /\ 0 <= ms_scale (room 900) /\ same_kind (ms_threshold (room 900)) 20000000 /\ 0 < illum (room 900) /\
  all_illuminate (room 900) /\ 0 < backlum (room 900) /\ sources (room 900) = [lamp] /\ sources (with_threshold (room 900) 20000000) = [].
Proof. exact level_example. Qed.
