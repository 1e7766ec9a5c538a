(** Sums over rays (raytools/evaluate/basemetricset.py) in IEEE 754 binary64 arithmetic (M_Float.v, M_Angle64.v), for every order
    in which numpy may add the terms. *)
From Coq Require Import List ZArith Floats.SpecFloat.
From Verif Require Import M_Float M_Bin64 M_Angle64.
Import ListNotations.

(** the additions of np.einsum and np.sum: numpy starts with 0 or with a term and adds parts of the sum in an order that depends
    on the length of the arrays and the instructions of the processor. Used at basemetricset.py:231-233, 238-239, 245-246 *)
Inductive additions (A : Type) := Nothing | Term (a : A) | Plus (s t : additions A).
Arguments Nothing {A}.
Arguments Term {A} a.
Arguments Plus {A} s t.
(** what is added, from left to right (basemetricset.py:231-246) *)
Fixpoint terms {A} (t : additions A) : list A :=
  match t with Nothing => [] | Term a => [a] | Plus s t => terms s ++ terms t end.
(** the number of additions (basemetricset.py:231-246) *)
Fixpoint adds {A} (t : additions A) : nat :=
  match t with Nothing | Term _ => 0 | Plus s t => S (adds s + adds t) end.
(** the sum of the terms [f a] (basemetricset.py:231-246) *)
Fixpoint f_sum {A} (f : A -> f64) (t : additions A) : f64 :=
  match t with Nothing => f_of_Z 0 | Term a => f a | Plus s t => f_add (f_sum f s) (f_sum f t) end.

(** a row of vec, omega and lum, basemetricset.py:60-118 *)
Record ray64 := Ray64 { v64 : fvec; o64 : f64; l64 : f64 }.
(** basemetricset.py:235-239 [illum] in the view direction [axis], with ctheta of angularmixin.py:263-267 *)
Definition illum_f64 (axis : fvec) (scale : f64) (t : additions ray64) : f64 :=
  f_mul (f_sum (fun r => f_mul (f_mul (ctheta_f64 axis (v64 r)) (l64 r)) (o64 r)) t) scale.
(** basemetricset.py:242-246 [avglum] *)
Definition avglum_f64 (area scale : f64) (t : additions ray64) : f64 :=
  f_div (f_mul (f_sum (fun r => f_mul (l64 r) (o64 r)) t) scale) area.
