(** What C153 speaks about. *)
From Verif Require Import Base M_Translate M_Mapper M_Metric S_Translate.
Import ListNotations.
Local Open Scope R_scope.

(** the same direction, with a length of its own *)
Definition same_direction (v w : vec3) : Prop := v <> vzero /\ exists k, 0 < k /\ w = vscale k v.
(** the same rays with directions of other lengths *)
Definition other_lengths (a b : list ray) : Prop :=
  Forall2 (fun r r' => same_direction (r_vec r) (r_vec r') /\ r_omega r' = r_omega r /\ r_lum r' = r_lum r) a b.
(** the same rows of directions, solid angles and colours, with directions of other lengths *)
Definition other_lengths_color (a b : list (vec3 * R * list R)) : Prop :=
  Forall2 (fun r r' => same_direction (fst (fst r)) (fst (fst r')) /\ snd (fst r') = snd (fst r) /\ snd r' = snd r) a b.
