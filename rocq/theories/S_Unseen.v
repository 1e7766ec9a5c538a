(** What C152 speaks about. *)
From Verif Require Import Base BaseX M_Translate M_Mapper M_Io M_Metric S_Metric.
Import ListNotations.
Local Open Scope R_scope.

(** b is a with further elements anywhere, all of which have property P *)
Inductive inserted {A} (P : A -> Prop) : list A -> list A -> Prop :=
  | inserted_nil : inserted P [] []
  | inserted_keep x a b : inserted P a b -> inserted P (x :: a) (x :: b)
  | inserted_new x a b : P x -> inserted P a b -> inserted P a (x :: b).
(** a ray that the view does not see *)
Definition unseen (vm : viewmapper) (r : ray) : Prop := vm_aspect vm <> 2%Z /\ in_view vm 0 (norm (r_vec r)) = false.
(** a ray whose direction is further than the tolerance from the edge of the view *)
Definition off_edge (vm : viewmapper) (r : ray) : Prop :=
  1 + rtol_default * Rabs (vm_viewangle vm / 2) < Rabs (vm_degrees vm (norm (r_vec r)) - vm_viewangle vm / 2).
(** no ray is bright and close to the edge *)
Definition no_bright_edge (vm : viewmapper) (args : list ray) : Prop := forall r, In r args -> ~ bright_edge vm args r.
(** the ray of a row of colours *)
Definition color_ray (vl : list R) (a : vec3 * R * list R) : ray := Ray (fst (fst a)) (snd (fst a)) (rgb2rad vl (snd a)).
