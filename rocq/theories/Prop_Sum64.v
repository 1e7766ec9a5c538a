(** Rounding: illuminance and average luminance in binary64 arithmetic, for every order of the additions (C130) *)
From Coq Require Import List ZArith Reals Permutation.
From Verif Require Import Base M_Metric M_Float S_Float M_Bin64 M_Angle64 S_Angle64 M_Sum64 S_Sum64 L_Sum64.
Local Open Scope R_scope.

(** C130: whatever the order in which the terms are added, illum is that of the exact sum up to a part of all the light that grows
    with the number of additions ... *)
Theorem C130_illum : forall m axis scale t, cosines axis -> moderate scale -> good_rays (terms t) -> INR (adds t) <= 2 ^ 40 ->
  same_set m axis scale (terms t) ->
  number (illum_f64 axis scale t) /\
  Rabs (value (illum_f64 axis scale t) - illum m) <= (INR (adds t) + 20) / 2 ^ 52 * all_light m + / 2 ^ 600.
Proof. exact illum_near. Qed.
(** ... the average luminance has a small relative error, as its terms have one sign ... *)
Theorem C130_avglum : forall m axis scale area t, moderate scale -> number area -> / 2 ^ 200 <= value area -> good_rays (terms t) -> INR (adds t) <= 2 ^ 40 ->
  same_set m axis scale (terms t) -> ms_view_area m = value area ->
  number (avglum_f64 area scale t) /\ exists x, avglum m = BaseX.Fin x /\
  Rabs (value (avglum_f64 area scale t) - x) <= (INR (adds t) + 4) / 2 ^ 52 * x + / 2 ^ 400.
Proof. exact avglum_near. Qed.
(** ... so the rays in another order, or added in other parts, give nearly the same illuminance ... *)
Theorem C130_orders : forall m axis scale s t, cosines axis -> moderate scale -> good_rays (terms s) -> Permutation (terms s) (terms t) ->
  INR (adds s) <= 2 ^ 40 -> INR (adds t) <= 2 ^ 40 -> same_set m axis scale (terms s) ->
  Rabs (value (illum_f64 axis scale s) - value (illum_f64 axis scale t)) <= (INR (adds s) + INR (adds t) + 40) / 2 ^ 52 * all_light m + 2 / 2 ^ 600.
Proof. exact illum_orders. Qed.
(** ... and more light in front of the viewer never lowers it, not even by rounding *)
Theorem C130_brighter : forall axis scale s t, cosines axis -> moderate scale -> brighter s t -> good_rays (terms s) -> good_rays (terms t) ->
  Forall (front axis) (terms s) -> INR (adds s) <= 2 ^ 40 -> INR (adds t) <= 2 ^ 40 ->
  0 <= value (illum_f64 axis scale s) <= value (illum_f64 axis scale t).
Proof. exact illum_mono. Qed.
Example C130_nonvacuous : exists m axis scale area s t, cosines axis /\ moderate scale /\ number area /\ / 2 ^ 200 <= value area /\ ms_view_area m = value area /\
  good_rays (terms s) /\ good_rays (terms t) /\ INR (adds s) <= 2 ^ 40 /\ INR (adds t) <= 2 ^ 40 /\ same_set m axis scale (terms s) /\ brighter s t /\
  Forall (front axis) (terms s) /\ length (terms s) = 2%nat /\ 0 < all_light m.
Proof. exact sum_sample. Qed.
Print Assumptions C130_illum.
Print Assumptions C130_avglum.
Print Assumptions C130_orders.
Print Assumptions C130_brighter.
