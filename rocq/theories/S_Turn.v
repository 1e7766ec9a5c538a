(** What C148 speaks about. *)
From Verif Require Import Base M_Translate M_Mapper M_Metric S_Translate S_Mapper.
Local Open Scope R_scope.

(** turning about the vertical axis by the angle with cosine c and sine s, or reflecting in a vertical plane *)
Definition about_vertical (mirror : bool) (c s : R) (v : vec3) : vec3 :=
  if mirror then V3 (c * vx v + s * vy v) (s * vx v - c * vy v) (vz v)
  else V3 (c * vx v - s * vy v) (s * vx v + c * vy v) (vz v).
(** the same with the direction of a ray *)
Definition ray_about (mirror : bool) (c s : R) (r : ray) : ray := Ray (about_vertical mirror c s (r_vec r)) (r_omega r) (r_lum r).
(** directions that are not (nearly) vertical *)
Definition off_vertical (d : vec3) : Prop := regular_dir d /\ (vx d <> 0 \/ vy d <> 0).
