(** Model of the filters of scipy.ndimage (gaussian_filter, convolve) as they are called by raytools/translate.py (resample) and
    raytools/evaluate/hvsgsm.py (GSS), read from scipy's documentation and source; exact arithmetic. The uniform filter is in M_Data. *)
From Verif Require Import Base M_Translate M_Mapper M_Data M_Gss.
Local Open Scope R_scope.

(** the sum over the n elements of an axis. Used at translate.py:384,393 *)
Definition axis_sum (n : Z) (f : Z -> R) : R := fold_right Rplus 0 (map (fun k => f (Z.of_nat k)) (seq 0 (Z.to_nat n))).
(** gaussian_filter1d: lw = int(truncate * sigma + 0.5), default truncate=4. A negative number is rejected by scipy and not used here; it is
    read as 0. Used at translate.py:384,393, hvsgsm.py:573-574 *)
Definition gauss_radius (truncate sigma : R) : Z := Z.max 0 (Rtrunc (truncate * sigma + 0.5)).
(** _gaussian_kernel1d before it is divided by its sum. Used at translate.py:384,393, hvsgsm.py:573-574 *)
Definition gauss_weight (sigma : R) (k : Z) : R := exp (- 0.5 / square sigma * square (IZR k)).
(** gaussian_filter1d with mode='reflect' at the position i of an axis of length n. Used at translate.py:384,393, hvsgsm.py:573-574 *)
Definition gauss_at (truncate sigma : R) (n : Z) (f : Z -> R) (i : Z) : R :=
  let lw := gauss_radius truncate sigma in
  let total := axis_sum (2 * lw + 1) (fun k => gauss_weight sigma (k - lw)) in
  axis_sum (2 * lw + 1) (fun k => gauss_weight sigma (k - lw) / total * f (reflect_index n (i + (k - lw)))).
(** gaussian_filter of two dimensions: the first axis, then the second; axes with a sigma of at most 1e-15 are left alone.
    Used at translate.py:384,393, hvsgsm.py:573-574 *)
Definition gauss0 (truncate sigma : R) (a : image R) : image R :=
  if Rgtb sigma 1e-15 then Img (im_nx a) (im_ny a) (fun i j => gauss_at truncate sigma (im_nx a) (fun k => im_px a k j) i) else a.
(** used at translate.py:384,393, hvsgsm.py:573-574 *)
Definition gauss1 (truncate sigma : R) (a : image R) : image R :=
  if Rgtb sigma 1e-15 then Img (im_nx a) (im_ny a) (fun i j => gauss_at truncate sigma (im_ny a) (fun k => im_px a i k) j) else a.
(** used at translate.py:384,393, hvsgsm.py:573-574 *)
Definition gaussian_filter (truncate : R) (sigma : R * R) (a : image R) : image R := gauss1 truncate (snd sigma) (gauss0 truncate (fst sigma) a).
(** convolve with mode='reflect' and origin=0: the element size // 2 of the kernel is at the pixel itself. Used at hvsgsm.py:535 *)
Definition convolve (a k : image R) : image R :=
  Img (im_nx a) (im_ny a) (fun i j =>
    axis_sum (im_nx k) (fun p => axis_sum (im_ny k) (fun q =>
      im_px k p q * im_px a (reflect_index (im_nx a) (i + im_nx k / 2 - p)) (reflect_index (im_ny a) (j + im_ny k / 2 - q))))).

(** the square array of a list of its elements, row by row, as M_Gss has it, and back (hvsgsm.py:239-310: the arrays of the pipeline) *)
Definition side_of (l : list R) : Z := Z.sqrt (Z.of_nat (length l)).
(** hvsgsm.py:239-310: the arrays of the pipeline *)
Definition square_of (l : list R) : image R := Img (side_of l) (side_of l) (fun i j => nth (Z.to_nat (i * side_of l + j)) l 0).
(** hvsgsm.py:239-310: the arrays of the pipeline *)
Definition elements (a : image R) : list R :=
  flat_map (fun i => map (fun j => im_px a (Z.of_nat i) (Z.of_nat j)) (seq 0 (Z.to_nat (im_ny a)))) (seq 0 (Z.to_nat (im_nx a))).
(** hvsgsm.py:239-310: a list is that of a square array *)
Definition is_square (l : list R) : bool := (side_of l * side_of l =? Z.of_nat (length l))%Z.
(** the filters of M_Gss as scipy computes them. GSS takes square images only; other lists are passed through (hvsgsm.py:535, 573-574, 606-607,
    705-706) *)
Definition scipy_filters : filters :=
  Filters
    (fun w l => if is_square l then elements (gaussian_filter 4 (w, w) (square_of l)) else l)
    (fun t w l => if is_square l then elements (gaussian_filter t (w, w) (square_of l)) else l)
    (fun l k => if is_square l && is_square k then elements (convolve (square_of l) (square_of k)) else map (fun x => x * Rsum k) l).
