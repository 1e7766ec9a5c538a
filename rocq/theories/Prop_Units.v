(** Property C146: units of luminance. *)
From Coq Require Import Lra String.
From Verif Require Import Base BaseX M_Translate M_Mapper M_Metric S_Metric S_Units L_Metric2 L_Units.
Local Open Scope R_scope.

(** C146: multiplying all luminances by a factor is multiplying scale by it: the same solid angles, the same values of all
    metrics, the same exceptions *)
Theorem C146_units fuel o vm args k kd names : 0 < k ->
  outcome (construct fuel o vm (scale_lum k args)) kd names = outcome (construct fuel (brighter k o) vm args) kd names.
Proof. exact (units fuel o vm args k kd names). Qed.
Print Assumptions C146_units.
(** C146: likewise for the channels of a ColorMetricSet *)
Theorem C146_color fuel o vm vl args k kd names : 0 < k ->
  outcome (construct_color fuel o vm vl (scale_rgb k args)) kd names = outcome (construct_color fuel (brighter k o) vm vl args) kd names.
Proof. exact (units_color fuel o vm vl args k kd names). Qed.
Print Assumptions C146_color.
Example C146_example : 0 < 179 /\
  exists om v, outcome (construct 0 (opts1 2000) full [ray1 3]) KMetric ["illum"; "dgp"]%string = Some (om, Ok v).
Proof. exact units_example. Qed.
