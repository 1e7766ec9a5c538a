(** Property C147: the order of the rays. *)
From Coq Require Import String Sorting.Permutation.
From Verif Require Import Base BaseX M_Translate M_Mapper M_Metric M_Io S_Metric S_Order L_Metric2 L_Order L_Order2.
Import ListNotations.
Local Open Scope R_scope.

(** C147: without rays at the edge of the view the order of the rays does not matter, with and without correction of the
    solid angles: both constructions keep the same rays, all metrics have the same values *)
Theorem C147_order_partial fuel o vm args args' : no_edge_rays vm args -> Permutation args args' ->
  same_metrics_of (construct fuel o vm args) (construct fuel o vm args').
Proof. exact (order_any fuel o vm args args'). Qed.
Print Assumptions C147_order_partial.
(** C147: likewise for a ColorMetricSet, when the rows of colours are permuted with the rays *)
Theorem C147_color_partial fuel o vm vl args args' :
  no_edge_rays vm (map (fun a => Ray (fst (fst a)) (snd (fst a)) (rgb2rad vl (snd a))) args) -> Permutation args args' ->
  same_metrics_of (construct_color fuel o vm vl args) (construct_color fuel o vm vl args').
Proof. exact (order_color fuel o vm vl args args'). Qed.
Print Assumptions C147_color_partial.
(** C147: with two bright rays at the edge the order matters *)
Theorem C147_refuted : exists o vm args args' m m' om om', Permutation args args' /\
  construct 0 o vm args = Some (m, om) /\ construct 0 o vm args' = Some (m', om') /\
  call KMetric m ["view_area"%string] <> call KMetric m' ["view_area"%string].
Proof. exact order_matters. Qed.
Print Assumptions C147_refuted.
Example C147_example : no_edge_rays full [ray1 3; ray1 5] /\ Permutation [ray1 3; ray1 5] [ray1 5; ray1 3] /\
  exists m om, construct 0 (opts1 2000) full [ray1 3; ray1 5] = Some (m, om).
Proof. exact order_example. Qed.
