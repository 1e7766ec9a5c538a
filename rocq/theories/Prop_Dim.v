(** Theorems on sets of rays, with rays at the edge of the view that are not bright. *)
From Coq Require Import String Sorting.Permutation.
From Verif Require Import Base BaseX M_Translate M_Mapper M_Metric S_Metric L_Metric S_Order S_Units S_Turn S_Split S_Unseen S_Dim L_Dim.
Import ListNotations.
Local Open Scope R_scope.

(** C152: without bright rays at the edge only the rays in view count, and none of these is a ray at the edge *)
Theorem C152_seen_partial fuel o vm args : vm_aspect vm <> 2%Z -> no_bright_edge vm args ->
  option_map fst (construct fuel o vm args) = option_map fst (construct fuel o vm (visible vm args)) /\ no_edge_rays vm (visible vm args).
Proof. exact (dim_seen fuel o vm args). Qed.
Print Assumptions C152_seen_partial.
(** C45: illuminance and the sums over sources of a union of sets of rays are the sums of those of the parts *)
Theorem C45_illum_dim_partial : sums_over_rays_dim any_options (fun m => Fin (illum m)).
Proof. exact (dim_sums _ _ illum_sum_rays). Qed.
Print Assumptions C45_illum_dim_partial.
Theorem C45_pwsl2_dim_partial : sums_over_rays_dim fixed_threshold (fun m => Fin (pwsl2 m)).
Proof. exact (dim_sums _ _ pwsl2_sum_rays). Qed.
Print Assumptions C45_pwsl2_dim_partial.
Theorem C45_srcillum_dim_partial : sums_over_rays_dim fixed_threshold (fun m => Fin (srcillum m)).
Proof. exact (dim_sums _ _ srcillum_sum_rays). Qed.
Print Assumptions C45_srcillum_dim_partial.
(** C53: the arguments are left alone *)
Theorem C53_dim_partial fuel o vm args : o_as_area o = true -> edge_dim vm args ->
  exists m, construct fuel o vm args = Some (m, map r_omega args) /\ ms_rays m = seen vm args.
Proof. exact (dim_arguments fuel o vm args). Qed.
Print Assumptions C53_dim_partial.
(** C147: the order of the rays does not matter *)
Theorem C147_dim_partial fuel o vm args args' : edge_dim vm args -> Permutation args args' ->
  same_metrics_of (construct fuel o vm args) (construct fuel o vm args').
Proof. exact (dim_order fuel o vm args args'). Qed.
Print Assumptions C147_dim_partial.
(** C148: nor does the heading of the view *)
Theorem C148_dim_partial mirror c s fuel o d va args kd names : c * c + s * s = 1 -> off_vertical d -> off_vertical (about_vertical mirror c s d) ->
  edge_dim (mk_view d va) args ->
  outcome (construct fuel o (mk_view (about_vertical mirror c s d) va) (map (ray_about mirror c s) args)) kd names =
  outcome (construct fuel o (mk_view d va) args) kd names.
Proof. exact (dim_turn mirror c s fuel o d va args kd names). Qed.
Print Assumptions C148_dim_partial.
(** C149: nor subdividing rays, as long as it does not make rays at the edge bright compared with the average *)
Theorem C149_dim fuel o vm args args' kd names : o_as_area o = true -> edge_dim vm args -> edge_dim vm args' -> subdivided args args' ->
  ~ In "density"%string names -> ~ In "avgraylum"%string names ->
  exists m m', construct fuel o vm args = Some (m, map r_omega args) /\ construct fuel o vm args' = Some (m', map r_omega args') /\
    call kd m' names = call kd m names.
Proof. exact (dim_split fuel o vm args args' kd names). Qed.
Print Assumptions C149_dim.
(** the conditions can be met with a ray at the edge *)
Example dim_conditions : exists vm args, vm_aspect vm <> 2%Z /\ ~ no_edge_rays vm args /\ no_bright_edge vm args /\ edge_dim vm args /\
  (exists r, In r args /\ r_lum r <> 0).
Proof. exact dim_example. Qed.
