(** What C151 speaks about. *)
From Verif Require Import Base BaseX M_Metric S_Metric.
Local Open Scope R_scope.

(** object data with another threshold *)
Definition with_threshold (m : mset) (t : R) : mset :=
  MS (ms_vm m) (ms_guth m) (ms_view_area m) (ms_rays m) (ms_scale m) t (ms_tradius m) (ms_lowlight m) (ms_rgb m) (ms_channels m).
(** both are fixed luminances, or both are multiples of the luminance of the task *)
Definition same_kind (t t' : R) : Prop := 100 < t /\ 100 < t' \/ t <= 100 /\ t' <= 100.
