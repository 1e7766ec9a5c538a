(** Numeric vocabulary shared by all model files.

    Modelling convention (see DESIGN.md, "Numbers"): a numpy float64 value is a
    real number, a vectorised expression over N rows is a function of one row.
    Nothing in this file models raytools itself: each definition models a
    numpy / python builtin the code calls. *)
From Coq Require Export Reals ZArith List Bool.
Export ListNotations.
Local Open Scope R_scope.

(** python comparisons on floats, as booleans *)
Definition Rltb (x y : R) : bool := if Rlt_dec x y then true else false.
Definition Rleb (x y : R) : bool := if Rle_dec x y then true else false.
Definition Reqb (x y : R) : bool := if Req_EM_T x y then true else false.
Definition Rgtb (x y : R) : bool := Rltb y x.
Definition Rgeb (x y : R) : bool := Rleb y x.

(** np.floor (as an integer) and np.mod / % with a positive divisor: the result
    has the sign of the divisor *)
Definition Rfloor (x : R) : Z := (up x - 1)%Z.
Definition Rmod (x y : R) : R := x - y * IZR (Rfloor (x / y)).

(** np.arctan2 on real arguments, value in (-pi, pi]; signed zeros are not
    modelled: arctan2(0, 0) is 0 and arctan2(0, x<0) is pi *)
Definition arctan2 (y x : R) : R :=
  if Rlt_dec 0 x then atan (y / x)
  else if Rlt_dec x 0 then
    if Rle_dec 0 y then atan (y / x) + PI else atan (y / x) - PI
  else if Rlt_dec 0 y then PI / 2
  else if Rlt_dec y 0 then - (PI / 2)
  else 0.

(** np.clip(x, lo, hi), np.square, np.isclose(a, b, rtol, atol), np.sign *)
Definition clip (x lo hi : R) : R := Rmin (Rmax x lo) hi.
Definition square (x : R) : R := x * x.
Definition isclose (rtol atol a b : R) : bool := Rleb (Rabs (a - b)) (atol + rtol * Rabs b).

(** np.log10 *)
Definition log10 (x : R) : R := ln x / ln 10.

(** 3-vectors (one row of an (N,3) array) *)
Record vec3 := V3 { vx : R; vy : R; vz : R }.
Definition vget (v : vec3) (i : nat) : R :=
  match i with O => vx v | S O => vy v | _ => vz v end.
Definition vset (v : vec3) (i : nat) (x : R) : vec3 :=
  match i with
  | O => V3 x (vy v) (vz v)
  | S O => V3 (vx v) x (vz v)
  | _ => V3 (vx v) (vy v) x
  end.
Definition vzero : vec3 := V3 0 0 0.
Definition dot (a b : vec3) : R := vx a * vx b + vy a * vy b + vz a * vz b.
Definition vscale (s : R) (a : vec3) : vec3 := V3 (s * vx a) (s * vy a) (s * vz a).
Definition vadd (a b : vec3) : vec3 := V3 (vx a + vx b) (vy a + vy b) (vz a + vz b).
Definition vsub (a b : vec3) : vec3 := V3 (vx a - vx b) (vy a - vy b) (vz a - vz b).
Definition vopp (a : vec3) : vec3 := V3 (- vx a) (- vy a) (- vz a).
(** np.linalg.norm of one row *)
Definition vnorm (a : vec3) : R := sqrt (dot a a).

(** 3x3 matrices, given by rows *)
Record mat3 := M3 { r0 : vec3; r1 : vec3; r2 : vec3 }.
Definition mmulv (m : mat3) (v : vec3) : vec3 :=
  V3 (dot (r0 m) v) (dot (r1 m) v) (dot (r2 m) v).
Definition col (m : mat3) (i : nat) : vec3 :=
  V3 (vget (r0 m) i) (vget (r1 m) i) (vget (r2 m) i).
Definition mtrans (m : mat3) : mat3 := M3 (col m 0) (col m 1) (col m 2).
Definition mmul (a b : mat3) : mat3 :=
  mtrans (M3 (mmulv a (col b 0)) (mmulv a (col b 1)) (mmulv a (col b 2))).
Definition mid : mat3 := M3 (V3 1 0 0) (V3 0 1 0) (V3 0 0 1).
Definition mdet (m : mat3) : R :=
  vx (r0 m) * (vy (r1 m) * vz (r2 m) - vz (r1 m) * vy (r2 m))
  - vy (r0 m) * (vx (r1 m) * vz (r2 m) - vz (r1 m) * vx (r2 m))
  + vz (r0 m) * (vx (r1 m) * vy (r2 m) - vy (r1 m) * vx (r2 m)).

(** np.sum over a list of reals *)
Definition Rsum (l : list R) : R := fold_right Rplus 0 l.
Definition Rsumf {A} (f : A -> R) (l : list A) : R := Rsum (map f l).

(** exceptions as values *)
Inductive exn := IndexError | ValueError | TypeError | KeyError | FileNotFoundError
               | AttributeError | RecursionError | OtherError (n : nat).
Inductive res (A : Type) := Ok (a : A) | Raise (e : exn).
Arguments Ok {A} a.
Arguments Raise {A} e.
Definition bind {A B} (x : res A) (f : A -> res B) : res B :=
  match x with Ok a => f a | Raise e => Raise e end.
