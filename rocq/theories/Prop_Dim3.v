(** Property C45, with rays at the edge of the view that are not bright. *)
From Coq Require Import String.
From Verif Require Import Base BaseX M_Translate M_Mapper S_Mapper M_Metric S_Metric S_Safe S_Dim S_Dim3 L_Dim3.
Import ListNotations.
Local Open Scope R_scope.

(** C45: illuminance and average luminance of a sum of light over the same rays *)
Theorem C45_illum_light_partial : sums_over_light_dim (fun m => Fin (illum m)).
Proof. exact dim_light_illum. Qed.
Print Assumptions C45_illum_light_partial.
Theorem C45_avglum_light_partial : sums_over_light_dim avglum.
Proof. exact dim_light_avglum. Qed.
Print Assumptions C45_avglum_light_partial.
(** C45: what safe2sum promises *)
Theorem C45_safe_dim_partial k l x : check_safe2sum k l = true -> In x l ->
  x = "density"%string \/ (k = KColor /\ x = "irradiance"%string) \/
  exists f, metric_of k x f /\ (sums_over_rays_dim fixed_threshold f \/ sums_over_light_dim f).
Proof. exact (dim_safe k l x). Qed.
Print Assumptions C45_safe_dim_partial.
(** C45: irradiance sums over sets of coloured rays *)
Theorem C45_irradiance_dim_partial fuel o vm vl a b m ma mb om oa ob j : o_as_area o = true ->
  edge_dim vm (color_args vl (a ++ b)) -> edge_dim vm (color_args vl a) -> edge_dim vm (color_args vl b) ->
  construct_color fuel o vm vl (a ++ b) = Some (m, om) -> construct_color fuel o vm vl a = Some (ma, oa) ->
  construct_color fuel o vm vl b = Some (mb, ob) ->
  (j < length vl)%nat -> nth j (irradiance m) 0 = nth j (irradiance ma) 0 + nth j (irradiance mb) 0.
Proof. exact (dim_irradiance fuel o vm vl a b m ma mb om oa ob j). Qed.
Print Assumptions C45_irradiance_dim_partial.
(** C45: illuminance is not negative *)
Theorem C45_nonneg_dim_partial fuel o d va args m om : d <> vzero -> hemi_angle va -> o_as_area o = true -> 0 <= o_scale o -> edge_dim (mk_view d va) args ->
  (forall r, In r args -> r_vec r <> vzero /\ 0 <= r_omega r /\ 0 <= r_lum r) -> construct fuel o (mk_view d va) args = Some (m, om) -> 0 <= illum m.
Proof. exact (dim_nonneg fuel o d va args m om). Qed.
Print Assumptions C45_nonneg_dim_partial.
(** the conditions can be met with a ray at the edge *)
Example light_conditions : exists vm l, ~ no_edge_rays vm (split_rays l fst) /\ edge_dim vm (split_rays l (fun p => fst p + snd p)) /\
  edge_dim vm (split_rays l fst) /\ edge_dim vm (split_rays l snd) /\ exists p, In p l /\ snd p <> (0, 0).
Proof. exact light_example. Qed.
Example twice_conditions : exists vm a b, ~ no_edge_rays vm a /\ edge_dim vm (a ++ b) /\ edge_dim vm a /\ edge_dim vm b /\ exists r, In r a /\ r_lum r <> 0.
Proof. exact twice_example. Qed.
