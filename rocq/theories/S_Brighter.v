(** What C145 speaks about. *)
From Verif Require Import Base BaseX M_Translate M_Mapper M_Metric S_Metric.
Local Open Scope R_scope.

(** the same rays, none darker *)
Definition no_darker (a b : list ray) : Prop :=
  Forall2 (fun r r' => r_vec r' = r_vec r /\ r_omega r' = r_omega r /\ r_lum r <= r_lum r') a b.
(** every ray sends light to the eye *)
Definition all_illuminate (m : mset) : Prop :=
  forall r, In r (ms_rays m) -> 0 <= m_ctheta m r * r_lum r * r_omega r * ms_scale m.
