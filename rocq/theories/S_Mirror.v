(** Specification for mirror images: arrays of r x r elements, row by row, whose first index runs from left to right. *)
From Verif Require Import Base M_Mapper M_Gss.
Local Open Scope R_scope.

(** b is a with left and right exchanged *)
Definition mirror_of {A} (r : nat) (a b : list A) : Prop :=
  length a = (r * r)%nat /\ length b = (r * r)%nat /\
  forall i j, (i < r)%nat -> (j < r)%nat -> nth_error b (i * r + j) = nth_error a ((r - 1 - i) * r + j).
Definition mirror_img (a b : gimg) : Prop :=
  gi_nx b = gi_nx a /\ gi_ny b = gi_ny a /\ mirror_of (Z.to_nat (gi_nx a)) (gi_px a) (gi_px b).
(** how many pixels wide the point spread window of fwidth degrees is, in a view of va degrees and r pixels *)
Definition window_of (fwidth va : R) (r : Z) : Z := Rceil (fwidth * IZR r / va).
