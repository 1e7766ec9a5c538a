(** What C161 speaks about. *)
From Coq Require Import Sorting.Permutation.
From Verif Require Import Base.
Import ListNotations.
Local Open Scope R_scope.

(** the data in other units: a times as large, with another zero point *)
Definition other_units (a b : R) (x : R * R) : R * R := (a * fst x + b, snd x).
(** the weights in other units *)
Definition other_weights (k : R) (x : R * R) : R * R := (fst x, k * snd x).
(** the order found by a sort of pairs depends on the comparisons of the first components only *)
Definition compares_first (argsort : list (R * R) -> list (R * R)) : Prop :=
  forall f l, (forall x y, fst (f x) <= fst (f y) <-> fst x <= fst y) -> argsort (map f l) = map f (argsort l).
