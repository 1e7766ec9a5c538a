(** What C162 speaks about. *)
From Coq Require Import Sorting.Permutation.
From Verif Require Import Base.
Import ListNotations.
Local Open Scope R_scope.

(** data with two values each: the coordinate with the first, the second, or a combination of them *)
Definition first_row (d : R * (R * R)) : R * R := (fst d, fst (snd d)).
Definition second_row (d : R * (R * R)) : R * R := (fst d, snd (snd d)).
Definition mixed_row (a c : R) (d : R * (R * R)) : R * R := (fst d, a * fst (snd d) + c * snd (snd d)).
(** a x + c y, where both are results *)
Definition mixed (a c : R) (r s : option (list R)) : option (list R) :=
  match r, s with Some x, Some y => Some (map (fun p => a * fst p + c * snd p) (combine x y)) | _, _ => None end.
(** the sort is l[argsort(coordinates of l)] *)
Definition by_places (argsort : list (R * R) -> list (R * R)) : Prop :=
  exists places : list R -> list nat, (forall xs, Permutation (places xs) (seq 0 (length xs))) /\
    forall l, argsort l = map (fun k => nth k l (0, 0)) (places (map fst l)).
