(** What C116 and C117 speak about *)
From Coq Require Import List Sorting.Permutation Sorting.Sorted.
From Verif Require Import Base.
Import ListNotations.
Local Open Scope R_scope.

(** the indices of a list in an order that sorts it; equal entries in any order *)
Definition orders (order : list R -> list nat) : Prop :=
  forall l, Permutation (order l) (seq 0 (length l)) /\ StronglySorted Rle (map (fun i => nth i l 0) (order l)).
(** rows of n numbers *)
Definition rectangle (n : nat) (rows : list (list R)) : Prop := Forall (fun r => length r = n) rows.
(** no coordinate is so far from all data that every weight vanishes *)
Definition covered (pdf : R -> R -> R) (x xr : list R) : Prop := Forall (fun x0 => Exists (fun v => 0 < pdf x0 v) x) xr.
(** the density at t of a normal distribution *)
Definition normal (mean width t : R) : R := exp (- ((t - mean) / width * ((t - mean) / width)) / 2) / (width * sqrt (2 * PI)).
(** the kernel density estimate with the given width *)
Definition density_estimate (l : list R) (width x0 : R) : R := fold_right Rplus 0 (map (fun v => normal v width x0) l) / INR (length l).
(** column j of a table, counted from the end if negative *)
Definition col (data : list (list R)) (j : Z) : option (list R) :=
  let pick (r : list R) := if (0 <=? j)%Z then nth_error r (Z.to_nat j) else if (0 <=? j + Z.of_nat (length r))%Z then nth_error r (Z.to_nat (j + Z.of_nat (length r))) else None in
  fold_right (fun r acc => match pick r, acc with Some v, Some l => Some (v :: l) | _, _ => None end) (Some []) data.
(** data with the coordinates in other units: column x times k, the columns y the same *)
Definition other_units (k : R) (x : Z) (y : list Z) (data data' : list (list R)) : Prop :=
  exists dx, col data x = Some dx /\ col data' x = Some (map (Rmult k) dx) /\ Forall (fun j => col data' j = col data j) y.
(** the mean of y with the weight w of each coordinate *)
Definition weighted_mean (w : R -> R) (x y : list R) : R :=
  fold_right Rplus 0 (map (fun p => w (fst p) * snd p) (combine x y)) / fold_right Rplus 0 (map w x).
(** a pdf is not negative *)
Definition not_negative (pdf : R -> R -> R) : Prop := forall a b, 0 <= pdf a b.
(** x0 lies in a gap: all weights vanish and there are data on both sides *)
Definition in_gap (pdf : R -> R -> R) (x : list R) (x0 : R) : Prop :=
  Forall (fun v => pdf x0 v = 0) x /\ Exists (fun v => v < x0) x /\ Exists (fun v => x0 <= v) x.
(** v is the height at x0 of the line through the two samples next to x0 *)
Definition on_line (x y : list R) (x0 v : R) : Prop :=
  exists xa ya xb yb, In (xa, ya) (combine x y) /\ In (xb, yb) (combine x y) /\ xa < x0 <= xb /\
    (forall t, In t x -> t <= xa \/ xb <= t) /\ v = ya + (yb - ya) * (x0 - xa) / (xb - xa).
(** v is an interpolation of the samples at x0: on the line between neighbours or, before the first and after the last
    sample, the value of that sample *)
Definition interpolated (x y : list R) (x0 v : R) : Prop :=
  on_line x y x0 v \/
  (Forall (fun t => x0 <= t) x /\ exists xa, In (xa, v) (combine x y) /\ Forall (fun t => xa <= t) x) \/
  (Forall (fun t => t < x0) x /\ exists xb, In (xb, v) (combine x y) /\ Forall (fun t => t <= xb) x).
(** v is the y of a sample that has weight at x0 *)
Definition counted (pdf : R -> R -> R) (x y : list R) (x0 v : R) : Prop := exists c, In (c, v) (combine x y) /\ 0 < pdf x0 c.
(** the variance estimate of a sample *)
Definition variance (l : list R) : R :=
  let m := fold_right Rplus 0 l / INR (length l) in
  fold_right Rplus 0 (map (fun v => (v - m) ^ 2) l) / (INR (length l) - 1).
(** Scott's rule *)
Definition scott (l : list R) : R := sqrt (variance l) * Rpower (INR (length l)) (- (1 / 5)).
(** the width asked for with the options sigma and sf *)
Definition asked_width (dx : list R) (sigma : option R) (sf : R) : R := match sigma with Some s => s | None => scott dx end * sf.
(** the coordinates of the lines: a single number in x_out is their number, from the least to the greatest in equal steps *)
Definition positions (dx x_out xo : list R) : Prop :=
  match x_out with
  | [v] => exists n lo hi, INR n <= v < INR n + 1 /\ In lo dx /\ In hi dx /\ Forall (fun t => lo <= t <= hi) dx /\
           length xo = n /\ forall k, (k < n)%nat -> nth k xo 0 = lo + INR k * (hi - lo) / (INR n - 1)
  | _ => xo = x_out
  end.
(** the option x_out is usable: at least one line, or a list of coordinates *)
Definition usable (x_out : list R) : Prop := match x_out with [] => False | [v] => 1 <= v | _ => True end.
(** the option x_out in other units *)
Definition x_out_units (k : R) (x_out : list R) : list R := match x_out with [v] => [v] | l => map (Rmult k) l end.
