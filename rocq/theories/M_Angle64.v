(** The arguments of arccos, arcsin and sqrt in raytools/translate.py, mapper/angularmixin.py and
    evaluate/positionindex.py in IEEE 754 binary64 arithmetic (M_Float.v, M_Bin64.v). *)
From Coq Require Import ZArith Floats.SpecFloat.
From Verif Require Import M_Float M_Bin64.
Local Open Scope Z_scope.

(** subtraction: x - y is x + (-y) in IEEE 754. Used at angularmixin.py:78 *)
Definition f_sub (x y : f64) : f64 := f_add x (SFopp y).
(** np.clip(x, -1, 1); nan stays nan. Used at translate.py:315 and angularmixin.py:266 *)
Definition f_clip1 (x : f64) : f64 :=
  if SFltb x (f_of_Z (-1)) then f_of_Z (-1) else if SFltb (f_of_Z 1) x then f_of_Z 1 else x.
(** np.einsum("i,ji->j", a, b) for one row: the products are added from left to right. Used at translate.py:315 *)
Definition f_dot (a b : fvec) : f64 :=
  let '(x, y, z) := a in let '(x', y', z') := b in f_add (f_add (f_mul x x') (f_mul y y')) (f_mul z z').
(** translate.py:311-315 [ctheta] for one row, angularmixin.py:263-267 [ctheta]: the argument of arccos in radians and degrees *)
Definition ctheta_f64 (a b : fvec) : f64 := f_clip1 (f_dot a b).
(** translate.py:256 [xyz2tp]: the argument of arccos *)
Definition theta_cos (v : fvec) : f64 := let '(_, _, z) := v in z.
(** positionindex.py:76-81 [_to_plane] for one row *)
Definition to_plane_f64 (v : fvec) : fvec := let '(x, y, _) := v in norm_f64 (x, y, f_of_Z 0).
(** positionindex.py:50-51, 83-85: the argument of arccos for tau *)
Definition tau_cos (v : fvec) : f64 := f_dot (f_of_Z 0, f_of_Z 1, f_of_Z 0) (to_plane_f64 v).
(** angularmixin.py:78, viewmapper.py:180: np.sqrt(1 - z*z) *)
Definition ring_radius (z : f64) : f64 := f_sqrt (f_sub (f_of_Z 1) (f_mul z z)).
(** translate.py:279-292 [chord2theta]: the argument of arcsin *)
Definition half_chord (c : f64) : f64 := f_div c (f_of_Z 2).
(** the euclidean distance between two vectors, the argument of chord2theta named at translate.py:284-285 *)
Definition f_distance (a b : fvec) : f64 :=
  let '(x, y, z) := a in let '(x', y', z') := b in f_length (f_sub x x', f_sub y y', f_sub z z').
