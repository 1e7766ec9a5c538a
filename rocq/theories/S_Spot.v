(** Specification: the light of one pixel spread by a Gaussian that is cut off L pixels from it. *)
From Verif Require Import Base S_Data.
Local Open Scope R_scope.

(** the share at the distance k along one axis; the shares of all distances add up to 1 *)
Definition share (w : R) (L k : Z) : R :=
  let bell j := exp (- IZR j ^ 2 / (2 * w ^ 2)) in
  if (Z.abs k <=? L)%Z then bell k / zsum (2 * L + 1) (fun j => bell (j - L)%Z) else 0.
(** the share at the distances i and j along the two axes *)
Definition spot (w : R) (L i j : Z) : R := share w L i * share w L j.
(** an array of n rows and n columns, one after the other, that is dark but for the pixel p, q *)
Definition lit (n p q : nat) (e : list R) : Prop :=
  length e = (n * n)%nat /\ forall i j, (i < n)%nat -> (j < n)%nat -> nth (i * n + j) e 0 = if ((i =? p) && (j =? q))%nat then 1 else 0.
