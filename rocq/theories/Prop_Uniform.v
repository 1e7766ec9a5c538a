(** Property C150: scenes of one luminance. *)
From Coq Require Import String.
From Verif Require Import Base BaseX M_Translate M_Mapper M_Metric S_Metric L_Metric2 L_Uniform L_Dim.
Import ListNotations.
Local Open Scope R_scope.

(** C150: where every ray has the same luminance, all averages and the maximum are that luminance and there is no contrast *)
Theorem C150_averages fuel o vm args x m om : o_as_area o = true -> (forall r, In r args -> r_lum r = x /\ 0 <= r_omega r) ->
  construct fuel o vm args = Some (m, om) -> 0 < ms_view_area m ->
  avglum m = Fin (x * o_scale o) /\ pwavglum m = Fin (x * o_scale o) /\ avgraylum m = Fin (x * o_scale o) /\ maxlum m = x * o_scale o /\
  (0 < x * o_scale o -> gcr m = Fin 1 /\ pwgcr m = Fin 1 /\ loggcr m = Fin 0 /\ logpwgcr m = Fin 0).
Proof. exact (uniform_averages_all fuel o vm args x m om). Qed.
Print Assumptions C150_averages.
(** C150: a threshold relative to the task then finds no sources, ugr is 0 and dgp has its illuminance term only *)
Theorem C150_glare fuel o vm args x m om : o_as_area o = true -> (forall r, In r args -> r_lum r = x /\ 0 <= r_omega r) ->
  construct fuel o vm args = Some (m, om) -> 0 < x * o_scale o -> 0 < illum m -> 1 <= o_threshold o <= 100 ->
  0 < Rsumf r_omega (filter (in_task m) (ms_rays m)) ->
  sources m = [] /\ tasklum m = Fin (x * o_scale o) /\ ugr m = Fin 0 /\
  dgp m = Fin (Rmin 1 (lowlight_factor m * (5.87 / 10 ^ 5 * illum m + 0.16))).
Proof. exact (uniform_glare_all fuel o vm args x m om). Qed.
Print Assumptions C150_glare.
Example C150_example : exists m om, construct 0 (Opts true 179 true 4 30 false) full [ray1 2; ray1 2] = Some (m, om) /\ 0 < ms_view_area m /\
  illum m = 716 /\ 0 < Rsumf r_omega (filter (in_task m) (ms_rays m)).
Proof. exact uniform_example. Qed.
