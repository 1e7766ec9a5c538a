(** Property C157: the order of the rays with a peak. *)
From Coq Require Import Sorting.Permutation.
From Verif Require Import Base M_Translate M_Io M_Mapper M_Metric M_Peak S_Peak L_Peak3 S_Exposure L_Exposure S_Ties L_Ties.
Import ListNotations.
Local Open Scope R_scope.

(** C157: where no two bright rays are equally bright, neither the order of the rays nor the sort matters: the same rays result, or the same exception *)
Theorem C157_peak_partial order order' blur w p kz rays rays' : sorts_down order -> sorts_down order' -> Permutation rays rays' -> distinct_peaks w p rays ->
  same_rays (normalize_peak order blur w p kz rays) (normalize_peak order' blur w p kz rays').
Proof. exact (normalize_same w p order order' blur kz rays rays'). Qed.
Print Assumptions C157_peak_partial.
(** C157: and the same secondary sources in the same order *)
Theorem C157_secondary_partial fuel order order' sortdesc sortdesc' w p rays rays' : sorts_down order -> sorts_down order' ->
  sorts_rays_down w sortdesc -> sorts_rays_down w sortdesc' -> Permutation rays rays' -> distinct_peaks w p rays ->
  secondary fuel order sortdesc w p rays = secondary fuel order' sortdesc' w p rays'.
Proof. exact (secondary_same w p fuel order order' sortdesc sortdesc' rays rays'). Qed.
Print Assumptions C157_secondary_partial.
(** C157: of rays equally bright, the first ones in the order of the sort are consolidated: with whatever sort, other rays result from the reversed list *)
Theorem C157_refuted order blur : sorts_down order -> by_comparison order -> exists rays, args_ok args1 /\ rays_ok [1; 1] args1 rays /\
  ~ same_rays (normalize_peak order blur [1; 1] args1 false rays) (normalize_peak order blur [1; 1] args1 false (rev rays)).
Proof. exact (ties_differ order blur). Qed.
Print Assumptions C157_refuted.
(** two rays that are not equally bright; such sorts *)
Example C157_example : distinct_peaks [1] args1 [Pix up 1 [10]; Pix up 2.5 [8]].
Proof. exact distinct_example. Qed.
Example C157_sort : exists order, sorts_down order /\ by_comparison order.
Proof. exact sort_example. Qed.
Example C157_sort_rays w : exists sortdesc, sorts_rays_down w sortdesc.
Proof. exact (sort_rays_down_exists w). Qed.
