(** What C160 speaks about. *)
From Coq Require Import Sorting.Sorted.
From Verif Require Import Base M_Translate.
Import ListNotations.
Local Open Scope R_scope.

(** the lists a ball query returns, in ascending order: list j has the vectors within the tolerance of vector j *)
Definition near_lists (vecs : list vec3) (tol : R) (p : nat -> list nat) : Prop :=
  forall j, (j < length vecs)%nat -> StronglySorted lt (p j) /\
    forall i, In i (p j) <-> (i < length vecs)%nat /\ vnorm (vsub (nth i vecs vzero) (nth j vecs vzero)) <= tol.
(** vecs[mask] *)
Definition kept (mask : list bool) (vecs : list vec3) : list vec3 := map snd (filter fst (combine mask vecs)).
(** rotations, reflections, shifts and all compositions of them *)
Definition keeps_distance (t : vec3 -> vec3) : Prop := forall a b, vnorm (vsub (t a) (t b)) = vnorm (vsub a b).
