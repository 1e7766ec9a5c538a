(** What C121 and C122 speak about: binary64 numbers and their values *)
From Coq Require Import ZArith Reals Floats.SpecFloat.
From Verif Require Import M_Float.
Local Open Scope R_scope.

(** the number that a float stands for; 0 for infinities and nan *)
Definition value (x : f64) : R :=
  match x with S754_finite s m e => (if s then -1 else 1) * IZR (Zpos m) * powerRZ 2 e | _ => 0 end.
(** a binary64 number: neither infinite nor nan *)
Definition number (x : f64) : Prop :=
  valid_binary 53 1024 x = true /\ match x with S754_zero _ | S754_finite _ _ _ => True | _ => False end.
(** the length of a vector *)
Definition len3 (x y z : R) : R := sqrt (x * x + y * y + z * z).
(** w is a unit vector in the direction of v, up to rounding *)
Definition close_unit (v w : f64 * f64 * f64) : Prop :=
  let '(x, y, z) := v in let '(x', y', z') := w in let l := len3 (value x) (value y) (value z) in
  (number x' /\ number y' /\ number z') /\
  Rabs (value x' - value x / l) <= / 2 ^ 50 /\ Rabs (value y' - value y / l) <= / 2 ^ 50 /\ Rabs (value z' - value z / l) <= / 2 ^ 50.
(** 2^e *)
Definition two_to (e : Z) : f64 := S754_finite false (2 ^ 52) (e - 52).
