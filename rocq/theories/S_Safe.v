(** Specification of additivity by the name of the metric *)
From Coq Require Import String.
From Verif Require Import Base BaseX M_Mapper M_Metric S_Metric.
Import ListNotations.
Local Open Scope R_scope.

(** f is the metric that class k gives for a name *)
Definition metric_of (k : kind) (name : string) (f : mset -> xr) : Prop :=
  exists p, prop_of_name name = Some p /\ forall m, prop_value k m p = Ok (VX (f m)).
(** sums over two luminance distributions of the same rays, for a view with an area *)
Definition sums_over_light (f : mset -> xr) : Prop :=
  forall fuel o vm l m ma mb oa ob om, o_as_area o = true -> no_edge_rays vm (split_rays l fst) ->
  construct fuel o vm (split_rays l (fun p => fst p + snd p)) = Some (m, om) ->
  construct fuel o vm (split_rays l fst) = Some (ma, oa) ->
  construct fuel o vm (split_rays l snd) = Some (mb, ob) -> ms_view_area m <> 0 -> f m = xadd (f ma) (f mb).
