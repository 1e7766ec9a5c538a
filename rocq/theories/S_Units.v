(** What C146 speaks about. *)
From Coq Require Import String.
From Verif Require Import Base BaseX M_Translate M_Mapper M_Metric S_Metric.
Local Open Scope R_scope.

(** the same options with a scale that is k times as large *)
Definition brighter (k : R) (o : options) : options :=
  Opts (o_guth o) (k * o_scale o) (o_as_area o) (o_threshold o) (o_tradius o) (o_lowlight o).
(** the same rays with all channels multiplied by k *)
Definition scale_rgb (k : R) (args : list (vec3 * R * list R)) : list (vec3 * R * list R) :=
  map (fun a => (fst a, map (Rmult k) (snd a))) args.
(** what the caller sees: the solid angles after the construction and the values of the metrics *)
Definition outcome (r : option (mset * list R)) (kd : kind) (names : list string) : option (list R * res (list xr)) :=
  match r with Some (m, omega) => Some (omega, call kd m names) | None => None end.
