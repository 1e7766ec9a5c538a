(** Theorems on sets of coloured rays, with rays at the edge of the view that are not bright. *)
From Coq Require Import String Sorting.Permutation.
From Verif Require Import Base BaseX M_Translate M_Mapper M_Metric S_Metric S_Order S_Unseen S_Dim S_Dim2 L_Dim2.
Import ListNotations.
Local Open Scope R_scope.

(** C152: without bright rays at the edge only the rays in view count, and none of these is a ray at the edge *)
Theorem C152_color_seen_partial fuel o vm vl args : vm_aspect vm <> 2%Z -> no_bright_edge vm (color_args vl args) ->
  option_map fst (construct_color fuel o vm vl args) = option_map fst (construct_color fuel o vm vl (visible_rows vm args)) /\
  no_edge_rays vm (color_args vl (visible_rows vm args)).
Proof. exact (rows_same fuel o vm vl args). Qed.
Print Assumptions C152_color_seen_partial.
(** C147: the order of the coloured rays does not matter *)
Theorem C147_color_dim_partial fuel o vm vl args args' : edge_dim vm (color_args vl args) -> Permutation args args' ->
  same_metrics_of (construct_color fuel o vm vl args) (construct_color fuel o vm vl args').
Proof. exact (dim_order_color fuel o vm vl args args'). Qed.
Print Assumptions C147_color_dim_partial.
(** C55: the rays, rows of colours and area of a colour metric set *)
Theorem C55_dim fuel o vm vl args : o_as_area o = true -> edge_dim vm (color_args vl args) ->
  construct_color fuel o vm vl args = Some
   (MS vm (o_guth o) (Rsumf r_omega (map (S_Metric.color_ray vl) (color_seen vm vl args))) (map (S_Metric.color_ray vl) (color_seen vm vl args))
       (o_scale o) (o_threshold o) (o_tradius o) (o_lowlight o) (map snd (color_seen vm vl args)) (length vl), map (fun a => snd (fst a)) args).
Proof. exact (dim_color fuel o vm vl args). Qed.
Print Assumptions C55_dim.
(** the conditions can be met with a ray at the edge *)
Example rows_conditions : exists vm vl args, vm_aspect vm <> 2%Z /\ ~ no_edge_rays vm (color_args vl args) /\ no_bright_edge vm (color_args vl args) /\
  edge_dim vm (color_args vl args).
Proof. exact rows_example. Qed.
