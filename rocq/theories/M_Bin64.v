(** The functions of raytools/translate.py on the bins of the unit squares and on the length of vectors in IEEE 754 binary64
    arithmetic, operation by operation (M_Float.v). *)
From Coq Require Import ZArith Floats.SpecFloat.
From Verif Require Import M_Float.
Local Open Scope Z_scope.

(** np.floor, as an integer; infinities and nan, which numpy keeps, give 0 here. Used at translate.py:333 *)
Definition f_floor (x : f64) : Z :=
  match x with
  | S754_finite s m e => let z := if s then Z.neg m else Z.pos m in if 0 <=? e then z * 2 ^ e else z / 2 ^ (- e)
  | _ => 0
  end.
(** translate.py:345-348 [bin2uv] for one bin; bn and side are integers, / converts them to floats *)
Definition bin2uv_f64 (bn side : Z) (offset : f64) : f64 * f64 :=
  (f_div (f_add (f_div (f_of_Z (bn - bn mod side)) (f_of_Z side)) offset) (f_of_Z side),
   f_div (f_add (f_of_Z (bn mod side)) offset) (f_of_Z side)).
(** translate.py:331-337 [uv2ij] with aspect=2 for one point. Simplification: np.mod and + are applied to whole numbers in
    float arrays, where they are exact below 2^53; here they are applied to the integers *)
Definition uv2ij_f64 (uv : f64 * f64) (side : Z) : Z * Z :=
  let i := f_floor (f_mul (f_of_Z side) (fst uv)) mod side in
  let j := f_floor (f_mul (f_of_Z side) (snd uv)) mod side in
  (if SFleb (f_of_Z 1) (fst uv) then i + side else i, j).
(** translate.py:340-342 [uv2bin] for one point *)
Definition uv2bin_f64 (uv : f64 * f64) (side : Z) : Z := let (i, j) := uv2ij_f64 uv side in i * side + j.

(** np.sqrt. Used at translate.py:17-27 *)
Definition f_sqrt : f64 -> f64 := SFsqrt 53 1024.
(** a vector. Used at translate.py:17-27 *)
Definition fvec := (f64 * f64 * f64)%type.
(** np.linalg.norm and np.sqrt(np.sum(np.square(v))): the squares are added from left to right. Used at translate.py:18 and 23 *)
Definition f_length (v : fvec) : f64 :=
  let '(x, y, z) := v in f_sqrt (f_add (f_add (f_mul x x) (f_mul y y)) (f_mul z z)).
(** translate.py:18 [norm] for one row *)
Definition norm_f64 (v : fvec) : fvec :=
  let n := f_length v in let '(x, y, z) := v in (f_div x n, f_div y n, f_div z n).
(** translate.py:21-26 [norm1] *)
Definition norm1_f64 (v : fvec) : fvec :=
  let n := f_length v in let n := if SFeqb n (f_of_Z 0) then f_of_Z 1 else n in
  let '(x, y, z) := v in (f_div x n, f_div y n, f_div z n).
