(** Specifications for arrays with any number of axes. *)
From Verif Require Import Base M_Data S_Data.
Local Open Scope R_scope.

(** an index of an array of the given shape *)
Definition index_of (shape idx : list Z) : Prop := Forall2 (fun n i => (0 <= i < n)%Z) shape idx.
(** the sum over all indices *)
Fixpoint total (shape : list Z) (f : list Z -> R) : R :=
  match shape with [] => f [] | n :: shape => zsum n (fun i => total shape (fun idx => f (i :: idx))) end.
(** the number of elements *)
Definition size_of (shape : list Z) : Z := fold_right Z.mul 1%Z shape.
Definition mean_of (ar : ndarray R) : R := total (nd_shape ar) (nd_at ar) / IZR (size_of (nd_shape ar)).
(** number by number *)
Definition zip (op : Z -> Z -> Z) (a b : list Z) : list Z := map (fun p => op (fst p) (snd p)) (combine a b).
Definition same_array (a b : ndarray R) : Prop :=
  nd_shape a = nd_shape b /\ forall idx, index_of (nd_shape a) idx -> nd_at a idx = nd_at b idx.
Definition array_between (lo hi : R) (a : ndarray R) : Prop := forall idx, index_of (nd_shape a) idx -> lo <= nd_at a idx <= hi.
(** an image as an array with two axes *)
From Verif Require Import M_Mapper.
Definition array_of (a : image R) : ndarray R := ND [im_nx a; im_ny a] (fun idx => im_px a (nth 0 idx 0%Z) (nth 1 idx 0%Z)).
