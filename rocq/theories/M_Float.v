(** IEEE 754 binary64 arithmetic for the places where rounding decides a discrete result. The operations are
    the executable specification of the standard library (Floats.SpecFloat) with 53 bits of precision and
    rounding to nearest even; nothing is axiomatised. *)
From Coq Require Import ZArith Floats.SpecFloat.
Local Open Scope Z_scope.

(** the binary64 numbers and operations of numpy used at translate.py:332-352 *)
Definition f64 := spec_float.
(** a python integer as a float; exact below 2^53
    The binary64 numbers and operations of numpy used at translate.py:332-352 *)
Definition f_of_Z (z : Z) : f64 := binary_normalize 53 1024 z 0 false.
(** the binary64 numbers and operations of numpy used at translate.py:332-352 *)
Definition f_div : f64 -> f64 -> f64 := SFdiv 53 1024.
(** the binary64 numbers and operations of numpy used at translate.py:332-352 *)
Definition f_mul : f64 -> f64 -> f64 := SFmul 53 1024.
(** the binary64 numbers and operations of numpy used at translate.py:332-352 *)
Definition f_add : f64 -> f64 -> f64 := SFadd 53 1024.
(** np.astype(int): truncation towards zero. The binary64 numbers and operations of numpy used at translate.py:332-352 *)
Definition f_trunc (x : f64) : Z :=
  match x with
  | S754_finite s m e =>
      let v := if 0 <=? e then Zpos m * 2 ^ e else Zpos m / 2 ^ (- e) in if s then - v else v
  | _ => 0
  end.

(** raytools/translate.py:380, 388 [resample]: rs = ts/shape and, when down sampling, (1/rs).astype(int),
    for one axis of length n and target length t *)
Definition resample_factor_f64 (n t : Z) : Z := f_trunc (f_div (f_of_Z 1) (f_div (f_of_Z t) (f_of_Z n))).

(** raytools/translate.py:345-348 [bin2uv], one coordinate k = bn // side or bn % side: (k + offset)/side,
    then translate.py:331-336 [uv2ij]: floor(side * u), which is below side *)
Definition bin_coord_f64 (k side : Z) (offset : f64) : Z :=
  f_trunc (f_mul (f_div (f_add (f_of_Z k) offset) (f_of_Z side)) (f_of_Z side)).
