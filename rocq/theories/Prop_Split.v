(** Property C149: subdividing rays. *)
From Coq Require Import String.
From Verif Require Import Base BaseX M_Translate M_Mapper M_Metric S_Metric S_Split L_Metric2 L_Split.
Import ListNotations.
Local Open Scope R_scope.

(** C149: replacing rays by several of the same direction and luminance that share their solid angle changes no metric but
    density and avgraylum, which count rays *)
Theorem C149_metrics fuel o vm args args' kd names : o_as_area o = true -> no_edge_rays vm args -> subdivided args args' ->
  ~ In "density"%string names -> ~ In "avgraylum"%string names ->
  exists m m', construct fuel o vm args = Some (m, map r_omega args) /\ construct fuel o vm args' = Some (m', map r_omega args') /\
    call kd m' names = call kd m names.
Proof. exact (split_metrics fuel o vm args args' kd names). Qed.
Print Assumptions C149_metrics.
(** C149: these two do change *)
Theorem C149_counts : exists o args args' m m' om om', o_as_area o = true /\ no_edge_rays full args /\ subdivided args args' /\
  construct 0 o full args = Some (m, om) /\ construct 0 o full args' = Some (m', om') /\ avgraylum m' <> avgraylum m /\ density m' <> density m.
Proof. exact split_counts. Qed.
Print Assumptions C149_counts.
Example C149_example : subdivided [ray1 3; ray1 5] [Ray up3 (1 / 3) 3; Ray up3 (2 / 3) 3; ray1 5].
Proof. exact split_example. Qed.
