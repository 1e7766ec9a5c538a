(** Floating point values with the IEEE special values, for the places where the code can divide by zero or
    take the logarithm of zero. [Fin] values are exact reals; overflow and signed zeros are not modelled (a
    quotient by zero has the sign of its numerator). Nothing in this file models raytools itself. *)
From Verif Require Import Base.
Local Open Scope R_scope.

Inductive xr := Fin (r : R) | PInf | NInf | NaN.

Definition xopp (a : xr) : xr :=
  match a with Fin r => Fin (- r) | PInf => NInf | NInf => PInf | NaN => NaN end.
Definition xadd (a b : xr) : xr :=
  match a, b with
  | Fin r, Fin s => Fin (r + s)
  | NaN, _ | _, NaN => NaN
  | PInf, NInf | NInf, PInf => NaN
  | PInf, _ | _, PInf => PInf
  | NInf, _ | _, NInf => NInf
  end.
(** infinity with the sign of r; nan for 0 *)
Definition xinf (r : R) : xr := if Rltb 0 r then PInf else if Rltb r 0 then NInf else NaN.
Definition xmul (a b : xr) : xr :=
  match a, b with
  | Fin r, Fin s => Fin (r * s)
  | NaN, _ | _, NaN => NaN
  | Fin r, PInf | PInf, Fin r => xinf r
  | Fin r, NInf | NInf, Fin r => xopp (xinf r)
  | PInf, PInf | NInf, NInf => PInf
  | PInf, NInf | NInf, PInf => NInf
  end.
Definition xdiv (a b : xr) : xr :=
  match a, b with
  | Fin r, Fin s => if Reqb s 0 then xinf r else Fin (r / s)
  | NaN, _ | _, NaN => NaN
  | Fin _, _ => Fin 0
  | PInf, Fin s => if Rltb s 0 then NInf else PInf
  | NInf, Fin s => if Rltb s 0 then PInf else NInf
  | _, _ => NaN
  end.
(** python comparison a > b, a < b: false when a nan is involved *)
Definition xgtb (a b : xr) : bool :=
  match a, b with
  | Fin r, Fin s => Rgtb r s
  | NaN, _ | _, NaN => false
  | PInf, PInf => false | PInf, _ => true
  | _, NInf => match a with NInf => false | _ => true end
  | _, _ => false
  end.
Definition xltb (a b : xr) : bool := xgtb b a.
(** np.maximum, np.minimum: a nan operand gives nan *)
Definition xmax (a b : xr) : xr :=
  match a, b with NaN, _ | _, NaN => NaN | _, _ => if xgtb a b then a else b end.
Definition xmin (a b : xr) : xr :=
  match a, b with NaN, _ | _, NaN => NaN | _, _ => if xltb a b then a else b end.
(** np.log10 *)
Definition xlog10 (a : xr) : xr :=
  match a with
  | Fin r => if Rltb 0 r then Fin (log10 r) else if Reqb r 0 then NInf else NaN
  | PInf => PInf
  | _ => NaN
  end.
(** np.exp *)
Definition xexp (a : xr) : xr :=
  match a with Fin r => Fin (exp r) | PInf => PInf | NInf => Fin 0 | NaN => NaN end.
(** a ** p for a positive, non integral constant p: nan for a negative base *)
Definition xpow (a : xr) (p : R) : xr :=
  match a with
  | Fin r => if Rltb 0 r then Fin (Rpower r p) else if Reqb r 0 then Fin 0 else NaN
  | PInf => PInf
  | NInf => PInf
  | NaN => NaN
  end.
(** 10 ** a *)
Definition xpow10 (a : xr) : xr :=
  match a with Fin r => Fin (Rpower 10 r) | PInf => PInf | NInf => Fin 0 | NaN => NaN end.
(** a ** n for a natural number n *)
Fixpoint xpown (a : xr) (n : nat) : xr := match n with O => Fin 1 | S n => xmul a (xpown a n) end.
(** np.average, np.max of a list *)
Definition xmean (l : list R) : xr := xdiv (Fin (Rsum l)) (Fin (INR (length l))).
Fixpoint list_max (x : R) (l : list R) : R :=
  match l with [] => x | y :: l => Rmax x (list_max y l) end.
Definition np_max (l : list R) : res R :=
  match l with [] => Raise ValueError | x :: l => Ok (list_max x l) end.
