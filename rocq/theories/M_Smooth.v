(** Model of non_uniform_gaussian_filter for several rows and averaging methods (raytools/translate.py)
    and of the smooth command (raytools/cli.py) *)
From Coq Require Import List.
From Verif Require Import Base M_Translate M_Mapper M_Data.
Import ListNotations.
Local Open Scope R_scope.

(** translate.py:477-496: the argument amethod: 'mean', 'median', numbers, or something that is neither *)
Inductive amethod := AMean | AMedian | AQuantiles (qs : list R) | AOther.
(** translate.py:483-494: the checks of amethod. y has rows rows of cols columns: y.size > max(y.shape) *)
Definition check_amethod (am : amethod) (rows cols : nat) : res unit :=
  match am with
  | AMean | AMedian => Ok tt
  | AOther => Raise ValueError
  | AQuantiles qs =>
    if negb (forallb (fun q => Rleb 0 q && Rleb q 1) qs) then Raise ValueError
    else if (Nat.max rows cols <? rows * cols)%nat && (1 <? length qs)%nat then Raise ValueError
    else Ok tt
  end.
(** translate.py:422-428 with the arguments of line 504: all of yp is sorted, the weights of one row are indexed with
    the order of all rows *)
Definition quantile_rows (argsort : list (R * R) -> list (R * R)) (qs : list R) (rows : list (list R)) (w : list R) : res (list R) :=
  let d := concat rows in
  if (length w <? length d)%nat then Raise IndexError else weighted_quantile argsort (combine d w) qs 0.
(** yp[:, i]. Used at translate.py:508-514 *)
Definition column (rows : list (list R)) (i : Z) : res (list R) :=
  match all_some (map (fun r => py_get r i) rows) with Some l => Ok l | None => Raise IndexError end.
(** translate.py:512-513: x0 is an array of one number, so the weights are an array of two rows and one column; np.average
    accepts these only if the array averaged has that shape, and raises TypeError or, in other releases, ValueError *)
Definition interpolate (x0 : R) (xp : list R) (rows : list (list R)) (mui : Z) : res (list R) :=
  bind (column rows mui) (fun y1 => bind (column rows (mui - 1)) (fun y0 =>
  match py_get xp mui, py_get xp (mui - 1) with
  | Some x1, Some xm =>
    if (length rows =? 1)%nat then Ok (map (fun p => average [(x0 - xm, fst p); (x1 - x0, snd p)]) (combine y1 y0))
    else Raise (OtherError 0)
  | _, _ => Raise IndexError
  end)).
(** translate.py:498-517 [_nugf_x] for x0 from xr; xp and the rows of yp have the same length *)
Definition rows_x (argsort : list (R * R) -> list (R * R)) (pdf : R -> R -> R) (am : amethod) (x0 : R) (xp : list R) (rows : list (list R))
  : res (list R) :=
  let w := map (pdf x0) xp in
  if Rgtb (fold_right Rplus 0 w) 0 then
    match am with
    | AMean => Ok (map (fun yp => average (combine w yp)) rows)
    | AMedian => quantile_rows argsort [/ 2] rows w
    | AQuantiles qs => quantile_rows argsort qs rows w
    | AOther => Raise ValueError
    end
  else
    let mui := searchsorted_left xp x0 in
    bind (if (mui =? Z.of_nat (length xp))%Z then column rows (-1)
          else if (mui =? 0)%Z then column rows 0
          else interpolate x0 xp rows mui) (fun mu =>
    match am with
    | AQuantiles qs => match mu with
                       | [m] => Ok (repeat m (length qs))
                       | _ => if (length mu =? length qs)%nat then Ok mu else Raise ValueError
                       end
    | _ => Ok mu
    end).
(** every element or the first exception: np.apply_along_axis of translate.py:559 and the columns of cli.py:266 *)
Fixpoint all_ok {A} (l : list (res A)) : res (list A) :=
  match l with [] => Ok [] | x :: l => bind x (fun a => bind (all_ok l) (fun r => Ok (a :: r))) end.
(** ar[idx]. Used at translate.py:538-539 *)
Definition take_at (idx : list nat) (l : list R) : list R := map (fun i => nth i l 0) idx.
(** translate.py:522-527 and 553-560 with xr given: one list of averages per coordinate, on sorted x (lines 536-543,
    [order] is np.argsort); np.apply_along_axis rejects an empty xr. Simplification: the list has the values, not the dimensions, of amu *)
Definition filter_rows (order : list R -> list nat) (argsort : list (R * R) -> list (R * R)) (pdf : R -> R -> R) (am : amethod) (bw : option Z)
    (x : list R) (rows : list (list R)) (xr : list R) : res (list (list R)) :=
  bind (check_amethod am (length rows) (length x)) (fun _ =>
  let sorted := ascending x in
  let sx := if sorted then x else take_at (order x) x in
  let srows := if sorted then rows else map (take_at (order x)) rows in
  match xr with
  | [] => Raise ValueError
  | _ =>
    all_ok (map (fun x0 =>
      match bw with
      | None => rows_x argsort pdf am x0 sx srows
      | Some b => let i := searchsorted_left sx x0 in rows_x argsort pdf am x0 (bw_window b i sx) (map (bw_window b i) srows)
      end) xr)
  end).

(** the same function without xr (translate.py:518-520, 529-533, 547-549 and 553-555): the coordinates are those of the sorted data. Without a band
    width x0 is a number and not an array (line 520), so that np.searchsorted(xp, x0)[0] of line 507 raises IndexError where no weight
    is left. The sort back of lines 561-562 is never done: resample is the function of this module there *)
Definition filter_self (order : list R -> list nat) (argsort : list (R * R) -> list (R * R)) (pdf : R -> R -> R) (am : amethod) (bw : option Z)
    (x : list R) (rows : list (list R)) : res (list (list R)) :=
  bind (check_amethod am (length rows) (length x)) (fun _ =>
  let sorted := ascending x in
  let sx := if sorted then x else take_at (order x) x in
  let srows := if sorted then rows else map (take_at (order x)) rows in
  match sx with
  | [] => Raise ValueError
  | _ =>
    all_ok (map (fun i =>
      let x0 := nth i sx 0 in
      match bw with
      | None => if Rgtb (fold_right Rplus 0 (map (pdf x0) sx)) 0 then rows_x argsort pdf am x0 sx srows else Raise IndexError
      | Some b => rows_x argsort pdf am x0 (bw_window b (Z.of_nat i) sx) (map (bw_window b (Z.of_nat i)) srows)
      end) (seq 0 (length sx)))
  end).

(** np.cov of one variable. Used at cli.py:270 *)
Definition cov (l : list R) : R :=
  let m := fold_right Rplus 0 l / INR (length l) in
  fold_right Rplus 0 (map (fun v => (v - m) * (v - m)) l) / (INR (length l) - 1).
(** stats.norm(loc, scale).pdf, no underflow; nan for a scale that is not positive, which the test of translate.py:503 treats like 0 *)
Definition scaled_pdf (sigma x0 x : R) : R := if Rgtb sigma 0 then norm_pdf sigma x0 x else 0.
(** the width without the argument sigma (translate.py:544-546) *)
Definition default_sigma (x : list R) (sscale : R) : R := sqrt (cov x * Rpower (INR (length x)) (-0.4)) * sscale.
(** np.linspace(a, b, n). Used at cli.py:268 *)
Definition linspace (a b : R) (n : nat) : list R :=
  map (fun k => a + INR k * (if (n =? 1)%nat then 0 else (b - a) / (INR n - 1))) (seq 0 n).
(** least and greatest element. Used at cli.py:268 *)
Definition lmin (l : list R) : R := fold_right Rmin (hd 0 l) l.
(** see lmin. Used at cli.py:268 *)
Definition lmax (l : list R) : R := fold_right Rmax (hd 0 l) l.
(** scipy.stats.gaussian_kde(dx, bw_method=factor)(x0): the width of the kernel is the factor times the standard deviation.
    Used at cli.py:274-275 *)
Definition kde (dx : list R) (factor x0 : R) : R :=
  let h := Rabs factor * sqrt (cov dx) in
  fold_right Rplus 0 (map (norm_pdf h x0) dx) / INR (length dx).
(** cli.py:258-283 [smooth]; data are the rows of the file (more than one), the result the lines printed. Constant x, or no
    width, leaves gaussian_kde no covariance to invert (LinAlgError) *)
Definition smooth (order : list R -> list nat) (argsort : list (R * R) -> list (R * R)) (data : list (list R)) (x : Z) (x_out : list R) (y : list Z) (sigma : option R) (sf : R)
  : res (list (R * list R)) :=
  bind (column data x) (fun dx =>
  bind (all_ok (map (column data) y)) (fun dy =>
  bind (match x_out with
        | [v] => if (Rtrunc v <? 0)%Z then Raise ValueError else Ok (linspace (lmin dx) (lmax dx) (Z.to_nat (Rtrunc v)))
        | _ => Ok x_out
        end) (fun xo =>
  let sg := match sigma with Some v => v | None => sqrt (cov dx * Rpower (INR (length dx)) (-0.4)) end * sf in
  bind (match dy with
        | [] => if Reqb (sg * sg * cov dx) 0 then Raise (OtherError 1) else Ok (map (fun x0 => [kde dx sg x0]) xo)
        | _ => filter_rows order argsort (scaled_pdf sg) AMean None dx dy xo
        end) (fun yo =>
  Ok (combine xo yo))))).
