(** What C159 speaks about. *)
From Verif Require Import Base M_Translate.
Import ListNotations.
Local Open Scope R_scope.

(** the length of a path of directions: the sum of the angles between neighbours *)
Fixpoint path_angle (a : vec3) (l : list vec3) : R :=
  match l with [] => 0 | b :: l => radians a b + path_angle b l end.
(** unit vectors *)
Definition units (l : list vec3) : Prop := Forall (fun v => dot v v = 1) l.
