(** What the theorems on coloured rays at the edge speak about. *)
From Verif Require Import Base BaseX M_Translate M_Mapper M_Metric S_Metric S_Unseen.
Local Open Scope R_scope.

(** the rows of colours whose rays the view sees *)
Definition visible_rows (vm : viewmapper) (args : list (vec3 * R * list R)) : list (vec3 * R * list R) :=
  filter (fun a => in_view vm 0 (norm (fst (fst a)))) args.
