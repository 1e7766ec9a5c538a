(** Property C154: exposure of images. *)
From Coq Require Import String.
From Verif Require Import Base BaseX M_Translate M_Mapper M_Io M_Header M_Metric M_Peak M_Imgmetric S_Peak S_Imgmetric2 S_Imgmetric3 S_Exposure L_Exposure.
Import ListNotations.
Local Open Scope R_scope.

(** C154: multiplying all pixels by a factor is, for imgmetric, multiplying scale by it: the same values, the same exceptions *)
Theorem C154_metrics_partial parse order blur fuel o file metrics k : 0 < k -> by_comparison order -> mo_peakn o = false \/ mo_blursun o = false ->
  imgmetric parse order blur fuel o (brighter_file k file) metrics = imgmetric parse order blur fuel (mopts_scaled k o) file metrics.
Proof. exact (exposure_metrics parse order blur blur fuel o file metrics k). Qed.
Print Assumptions C154_metrics_partial.
(** C154: for the peak normalisation, whose result is then multiplied by the factor *)
Theorem C154_peak_partial order blur w p kz rays k : 0 < k -> by_comparison order -> a_blursun p = false ->
  normalize_peak order blur w p kz (map (brighter_pix k) rays) =
  match normalize_peak order blur w (peak_scaled k p) kz rays with Ok r => Ok (map (brighter_pix k) r) | Raise e => Raise e end.
Proof. exact (exposure_peak order blur w p kz rays k). Qed.
Print Assumptions C154_peak_partial.
(** C154: the blur correction ignores scale: the size of a source depends on the units of the image *)
Theorem C154_refuted : exists k p rays, 0 < k /\ args_ok p /\ rays_ok [1] p rays /\ forall order blur, sorts_down order -> is_blur_sun blur ->
  exists q q', normalize_peak order blur [1] p false (map (brighter_pix k) rays) = Ok [q] /\
    normalize_peak order blur [1] (peak_scaled k p) false rays = Ok [q'] /\ p_o q' < p_o q.
Proof. exact exposure_blur. Qed.
Print Assumptions C154_refuted.
(** such sorts and the function blur_sun exist *)
Example C154_sort : exists order, sorts_down order /\ by_comparison order.
Proof. exact sort_example. Qed.
Example C154_blur : exists blur, is_blur_sun blur /\ forall a l, 0 < blur a l.
Proof. exact blur_example. Qed.
(** an image in which the peak is normalised *)
Example C154_image parse blur fuel : exists order, sorts_down order /\ by_comparison order /\
  imgmetric parse order blur fuel (S_Imgmetric2.opts1 true (Some [0; 0; 1])) S_Imgmetric3.dot_file ["maxlum"]%string = Some (Ok [Fin (4 * 1000 / (67967 / 10 ^ 9) * 179)]).
Proof. exact (exposed_dot parse blur fuel). Qed.
