(** Colours to radiance and luminance (raytools/io.py) in IEEE 754 binary64 arithmetic, for every order in which numpy may add the
    products of channels and weights, whether or not the processor fuses a multiplication and an addition. *)
From Coq Require Import List ZArith Floats.SpecFloat.
From Verif Require Import M_Float M_Io.
Import ListNotations.

(** the default vlambda, the numbers nearest to 0.265, 0.670 and 0.065. Io.py:329, 333 *)
Definition weights_f64 : list f64 :=
  [S754_finite false 4773815605012726 (-54); S754_finite false 6034823500676465 (-53); S754_finite false 4683743612465316 (-56)].
(** np.array(vlambda) * 179, io.py:334 *)
Definition lum_weights_f64 : list f64 := map (fun w => f_mul w (f_of_Z 179)) weights_f64.
(** a number as an integer times a power of two. Used at io.py:330, 334 *)
Definition integer_part (x : f64) : option (Z * Z) :=
  match x with
  | S754_zero _ => Some (0, 0)%Z
  | S754_finite s m e => Some (if s then Zneg m else Zpos m, e)
  | _ => None
  end.
(** the fused multiply-add instruction: x * y + z rounded once. Simplified: nan when an argument is not a number, and the sign of
    a zero. Used at io.py:330, 334 *)
Definition f_fma (x y z : f64) : f64 :=
  match integer_part x, integer_part y, integer_part z with
  | Some (a, p), Some (b, q), Some (c, r) =>
      let e := Z.min (p + q) r in binary_normalize 53 1024 (a * b * 2 ^ (p + q - e) + c * 2 ^ (r - e)) e false
  | _, _, _ => S754_nan
  end.
(** the operations of np.einsum of two arguments: numpy starts with 0 or with a product and adds products in an order that depends
    on the length of the arrays and the instructions of the processor; it may fuse a product and its addition. Used at io.py:330, 334 *)
Inductive products (A : Type) := Zero | Product (a : A) | Sum (s t : products A) | Fused (s : products A) (a : A).
Arguments Zero {A}.
Arguments Product {A} a.
Arguments Sum {A} s t.
Arguments Fused {A} s a.
(** what is added (io.py:330, 334) *)
Fixpoint factors {A} (t : products A) : list A :=
  match t with Zero => [] | Product a => [a] | Sum s t => factors s ++ factors t | Fused s a => factors s ++ [a] end.
(** the number of operations that round (io.py:330, 334) *)
Fixpoint roundings {A} (t : products A) : nat :=
  match t with Zero => 0 | Product _ => 1 | Sum s t => S (roundings s + roundings t) | Fused s _ => S (roundings s) end.
(** io.py:329-334 [rgb2rad] and [rgb2lum] of one colour: the products of channels and weights, added in the order [t] *)
Fixpoint weighted_f64 (t : products (f64 * f64)) : f64 :=
  match t with
  | Zero => f_of_Z 0
  | Product p => f_mul (fst p) (snd p)
  | Sum s t => f_add (weighted_f64 s) (weighted_f64 t)
  | Fused s p => f_fma (fst p) (snd p) (weighted_f64 s)
  end.

(** np.power(2., k), exact. Io.py:351 *)
Definition pow2_f64 (k : Z) : f64 := S754_finite false (2 ^ 52) (k - 52).
(** the number 0.5, io.py:352 *)
Definition half_f64 : f64 := S754_finite false (2 ^ 52) (-53).
(** one channel of io.py:351-352, for the values 0 to 255 of the channel and of the exponent *)
Definition channel_f64 (t : int_dtype) (c e : Z) : f64 :=
  if (c =? 0)%Z then f_of_Z 0 else f_mul (f_add (f_of_Z c) half_f64) (f_div (pow2_f64 (sub128 t e)) (f_of_Z 256)).
(** the products of io.py:337-355 [rgbe2lum] for a pixel *)
Definition pixel_f64 (t : int_dtype) (r g b e : Z) : list (f64 * f64) :=
  combine [channel_f64 t r e; channel_f64 t g e; channel_f64 t b e] lum_weights_f64.
