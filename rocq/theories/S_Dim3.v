(** What the theorems on sums of light with rays at the edge speak about. *)
From Coq Require Import String.
From Verif Require Import Base BaseX M_Translate M_Mapper M_Metric S_Metric S_Unseen S_Dim.
Local Open Scope R_scope.

(** a metric of the sum of two luminance distributions over the same rays is the sum of the metrics, for a view with an area and no bright rays at its edge *)
Definition sums_over_light_dim (f : mset -> xr) : Prop :=
  forall fuel o vm l m ma mb oa ob om, o_as_area o = true ->
  edge_dim vm (split_rays l (fun p => fst p + snd p)) -> edge_dim vm (split_rays l fst) -> edge_dim vm (split_rays l snd) ->
  construct fuel o vm (split_rays l (fun p => fst p + snd p)) = Some (m, om) ->
  construct fuel o vm (split_rays l fst) = Some (ma, oa) ->
  construct fuel o vm (split_rays l snd) = Some (mb, ob) -> ms_view_area m <> 0 -> f m = xadd (f ma) (f mb).
