(** What C115 speaks about *)
From Coq Require Import List.
From Verif Require Import Base.
Import ListNotations.
Local Open Scope R_scope.

(** a point of the square [0,2) x [0,1) is in bin b of a sky of side x side bins *)
Definition in_bin (side b : Z) (p : R * R) : Prop :=
  IZR (b / side) <= IZR side * fst p < IZR (b / side) + 1 /\ IZR (b mod side) <= IZR side * snd p < IZR (b mod side) + 1.
(** some point of the bin is within tol bin widths of p along each axis *)
Definition bin_near (side : Z) (tol : R) (p : R * R) (b : Z) : Prop :=
  exists q, Rabs (fst q - fst p) <= tol / IZR side /\ Rabs (snd q - snd p) <= tol / IZR side /\ in_bin side b q.
(** strictly increasing *)
Fixpoint increasing (l : list Z) : Prop := match l with x :: (y :: _) as t => (x < y)%Z /\ increasing t | _ => True end.
