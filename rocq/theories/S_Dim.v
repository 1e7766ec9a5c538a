(** What the theorems with rays at the edge that are not bright speak about. *)
From Verif Require Import Base BaseX M_Translate M_Mapper M_Metric S_Metric S_Unseen.
Import ListNotations.
Local Open Scope R_scope.

(** the view has no edge (360 degrees), or no bright rays lie at its edge *)
Definition edge_dim (vm : viewmapper) (args : list ray) : Prop := vm_aspect vm = 2%Z \/ no_bright_edge vm args.
(** a metric of the union of two ray sets is the sum of the metric of the parts *)
Definition sums_over_rays_dim (P : options -> Prop) (f : mset -> xr) : Prop :=
  forall fuel o vm a b m ma mb oa ob om, P o -> o_as_area o = true -> edge_dim vm (a ++ b) -> edge_dim vm a -> edge_dim vm b ->
  construct fuel o vm (a ++ b) = Some (m, om) -> construct fuel o vm a = Some (ma, oa) ->
  construct fuel o vm b = Some (mb, ob) -> f m = xadd (f ma) (f mb).
(** the rays that the view sees *)
Definition visible (vm : viewmapper) (args : list ray) : list ray := filter (fun r => in_view vm 0 (norm (r_vec r))) args.
