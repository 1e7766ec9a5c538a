(** What C123 speaks about: arguments at which arccos and arcsin are defined *)
From Coq Require Import Reals.
From Verif Require Import M_Float S_Float.
Local Open Scope R_scope.

(** a number from -1 to 1 *)
Definition cosine (x : f64) : Prop := number x /\ -1 <= value x <= 1.
