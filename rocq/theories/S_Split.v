(** What C149 speaks about. *)
From Verif Require Import Base M_Translate M_Metric.
Import ListNotations.
Local Open Scope R_scope.

(** every ray replaced by one or more rays of the same direction and luminance whose solid angles add up to its own *)
Inductive subdivided : list ray -> list ray -> Prop :=
  | sub_nil : subdivided [] []
  | sub_ray r parts l l' : parts <> [] -> Forall (fun p => r_vec p = r_vec r /\ r_lum p = r_lum r) parts ->
      Rsumf r_omega parts = r_omega r -> subdivided l l' -> subdivided (r :: l) (parts ++ l').
