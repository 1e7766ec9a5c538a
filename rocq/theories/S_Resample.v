(** What C62_gap and C64_down_any, C64_smooth speak about *)
From Verif Require Import Base M_Translate M_Mapper.
Local Open Scope R_scope.

(** e continues the values f of a plane of n x m pixels by mirroring them at its borders *)
Definition mirrors (n m : Z) (f e : Z -> Z -> R) : Prop :=
  (forall i j, (0 <= i < n)%Z -> (0 <= j < m)%Z -> e i j = f i j) /\
  (forall i j, e (-1 - i)%Z j = e i j) /\ (forall i j, e (2 * n - 1 - i)%Z j = e i j) /\
  (forall i j, e i (-1 - j)%Z = e i j) /\ (forall i j, e i (2 * m - 1 - j)%Z = e i j).
(** the mean of the kx x ky values of e starting at (i, j) *)
Definition mean_from (kx ky : Z) (e : Z -> Z -> R) (i j : Z) : R :=
  fold_right Rplus 0 (map (fun b => fold_right Rplus 0 (map (fun a => e (i + Z.of_nat a)%Z (j + Z.of_nat b)%Z) (seq 0 (Z.to_nat kx)))) (seq 0 (Z.to_nat ky)))
  / (IZR kx * IZR ky).
(** the smallest number k of blocks of size b that cover n values *)
Definition blocks (n b k : Z) : Prop := ((k - 1) * b < n <= k * b)%Z.
(** v is on the line through the neighbours of x0 among the points xy, given by ascending x; beyond the ends v is the
    value of the end *)
Definition on_line (xy : list (R * R)) (x0 v : R) : Prop :=
  (exists a p q b, xy = a ++ p :: q :: b /\ fst p < x0 <= fst q /\ (v - snd p) * (fst q - fst p) = (snd q - snd p) * (x0 - fst p)) \/
  (exists p b, xy = p :: b /\ x0 <= fst p /\ v = snd p) \/
  (exists a p, xy = a ++ [p] /\ fst p < x0 /\ v = snd p).
