(** What C142 speaks about *)
From Coq Require Import List ZArith Reals Permutation.
From Verif Require Import M_Float S_Float M_Lum64.
Local Open Scope R_scope.

(** an order of adding these products, with not more than a thousand operations (zeros among them) *)
Definition adds_up {A} (t : products A) (l : list A) : Prop := Permutation (factors t) l /\ (roundings t <= 1000)%nat.
(** a byte *)
Definition byte_value (z : Z) : Prop := (0 <= z <= 255)%Z.
(** a channel that is not negative and not huge *)
Definition good_channel (x : f64) : Prop := number x /\ 0 <= value x <= 2 ^ 300.
