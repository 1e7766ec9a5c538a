(** Specification vocabulary for Prop_Io.v *)
From Verif Require Import Base M_Translate M_Mapper M_Io.

(** idx is an index tuple of an array of shape s *)
Fixpoint in_range (s idx : list nat) : Prop :=
  match s, idx with
  | [], [] => True
  | n :: s, i :: idx => (i < n)%nat /\ in_range s idx
  | _, _ => False
  end.
(** equality of arrays: same shape and the same element at every index *)
Definition nd_eq {A} (a b : ndarray A) : Prop :=
  nd_shape a = nd_shape b /\ forall idx, in_range (nd_shape a) idx -> nd_get a idx = nd_get b idx.
(** elementwise application *)
Definition nd_map {A B} (f : A -> B) (a : ndarray A) : ndarray B := Arr (nd_shape a) (fun idx => f (nd_get a idx)).

(** a 32 bit pattern, an array of them, a byte *)
Definition word (w : Z) : Prop := (0 <= w < 2 ^ 32)%Z.
Definition words (a : ndarray Z) : Prop := forall idx, in_range (nd_shape a) idx -> word (nd_get a idx).
Definition byte (b : Z) : Prop := (0 <= b < 256)%Z.
(** stacking along the first axis: b below a *)
Definition vstack {A} (a b : ndarray A) : ndarray A :=
  let n := hd 0%nat (nd_shape a) in
  Arr ((n + hd 0 (nd_shape b)) :: tl (nd_shape a))%nat
      (fun idx => match idx with
                  | i :: r => if (i <? n)%nat then nd_get a (i :: r) else nd_get b ((i - n)%nat :: r)
                  | [] => nd_get a [] end).
(** the pixel in column c of row r, counted from the top left *)
Definition pic_at {P} (p : picture P) (r c : nat) : option P := nth_error (pic_px p) (r * pic_nx p + c)%nat.
