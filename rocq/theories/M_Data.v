(** Model of the data functions of raytools/translate.py: resample, weighted_quantile, weighted_median,
    non_uniform_gaussian_filter (amethod='mean'), cull_vectors and simple_take.

    numpy/scipy calls whose result is not fully determined by their contract are arguments of the model:
    argsort (any sorting permutation), the pdf of the normal distribution, the kd-tree ball query (whose
    lists come in any order) and the gaussian filter. *)
From Verif Require Import Base M_Translate M_Mapper.
Local Open Scope R_scope.

(** * translate.py:355-398 [resample], for two dimensional arrays *)

(** np.repeat(samps, r, 0) and np.repeat(samps, r, 1) with a whole number r. Used at translate.py:383-396 *)
Definition repeat0 {A} (r : Z) (a : image A) : image A :=
  Img (im_nx a * r) (im_ny a) (fun i j => im_px a (i / r) j).
(** used at translate.py:383-396 *)
Definition repeat1 {A} (r : Z) (a : image A) : image A :=
  Img (im_nx a) (im_ny a * r) (fun i j => im_px a i (j / r)).

(** scipy boundary mode 'reflect' (d c b a | a b c d | d c b a) on an axis of length n. Used at translate.py:383-396 *)
Definition reflect_index (n i : Z) : Z :=
  let m := (i mod (2 * n))%Z in if (m <? n)%Z then m else (2 * n - 1 - m)%Z.

(** scipy.ndimage.uniform_filter along one axis: the mean of size consecutive values, the first of them
    size // 2 + origin before the position of the result. Used at translate.py:383-396 *)
Definition window_mean (size : Z) (f : Z -> R) (first : Z) : R :=
  fold_right Rplus 0 (map (fun k => f (first + Z.of_nat k)%Z) (seq 0 (Z.to_nat size))) / IZR size.
(** used at translate.py:383-396 *)
Definition uniform0 (size origin : Z) (a : image R) : image R :=
  Img (im_nx a) (im_ny a) (fun i j =>
    window_mean size (fun k => im_px a (reflect_index (im_nx a) k) j) (i - size / 2 - origin)).
(** used at translate.py:383-396 *)
Definition uniform1 (size origin : Z) (a : image R) : image R :=
  Img (im_nx a) (im_ny a) (fun i j =>
    window_mean size (fun k => im_px a i (reflect_index (im_ny a) k)) (j - size / 2 - origin)).

(** np.take(samps, np.arange(0, samps.shape[i], j), i): every j-th row/column; there are ceil(n / j) of them
    Used at translate.py:383-396 *)
Definition every0 {A} (j : Z) (a : image A) : image A :=
  Img (- (- im_nx a / j)) (im_ny a) (fun i y => im_px a (i * j) y).
(** used at translate.py:383-396 *)
Definition every1 {A} (j : Z) (a : image A) : image A :=
  Img (im_nx a) (- (- im_ny a / j)) (fun x i => im_px a x (i * j)).

(** translate.py:355-398. ts = None is the shape of samps. The filter with a given radius is the argument
    [gaussian]: scipy.ndimage.gaussian_filter with one radius per axis. A float repeat count is truncated by
    numpy. *)
Definition resample (gaussian : R * R -> image R -> image R) (samps : image R)
           (ts : option (Z * Z)) (gauss : bool) (radius : option R) : image R :=
  let ts := match ts with Some t => t | None => (im_nx samps, im_ny samps) end in
  let rx := IZR (fst ts) / IZR (im_nx samps) in
  let ry := IZR (snd ts) / IZR (im_ny samps) in
  if Rgtb (rx * ry) 1 then
    let samps := repeat1 (Rtrunc ry) (repeat0 (Rtrunc rx) samps) in
    if gauss then
      gaussian (match radius with Some r => (r, r) | None => (rx - 1, ry - 1) end) samps
    else samps
  else if Rltb (rx * ry) 1 then
    let kx := Rtrunc (1 / rx) in
    let ky := Rtrunc (1 / ry) in
    let samps := uniform1 ky (Rtrunc (- IZR ky / 2)) (uniform0 kx (Rtrunc (- IZR kx / 2)) samps) in
    every1 ky (every0 kx samps)
  else
    match radius with
    | None => samps
    | Some r => if gauss then gaussian (r, r) samps
                else uniform1 (Rtrunc r) 0 (uniform0 (Rtrunc r) 0 samps)
    end.

(** * translate.py:403-448 [weighted_quantile], [weighted_median] *)

(** np.cumsum. Used at translate.py:422-443 *)
Fixpoint cumsum_from (acc : R) (l : list R) : list R :=
  match l with [] => [] | x :: l => (acc + x) :: cumsum_from (acc + x) l end.
(** used at translate.py:422-443 *)
Definition cumsum (l : list R) : list R := cumsum_from 0 l.

(** python indexing l[i]: negative indices count from the end; None is the IndexError. Used at translate.py:422-443 *)
Definition py_get (l : list R) (i : Z) : option R :=
  match np_index (Z.of_nat (length l)) i with
  | Some k => nth_error l (Z.to_nat k)
  | None => None
  end.

(** np.searchsorted(l, v, side='right') on an ascending list, side='left'. Used at translate.py:422-443 *)
Definition searchsorted_right (l : list R) (v : R) : Z := Z.of_nat (length (filter (fun x => Rleb x v) l)).
(** used at translate.py:422-443 *)
Definition searchsorted_left (l : list R) (v : R) : Z := Z.of_nat (length (filter (fun x => Rltb x v) l)).

(** np.quantile(l, q) with its default linear interpolation, on data that is already sorted:
    position h = q*(n-1) between the entries floor(h) and floor(h)+1. Used at translate.py:422-443 *)
Definition quantile_sorted (l : list R) (q : R) : R :=
  let h := q * INR (length l - 1) in
  let k := Z.to_nat (Rfloor h) in
  let a := nth k l 0 in
  let b := nth (Nat.min (k + 1) (length l - 1)) l 0 in
  a + (b - a) * (h - IZR (Rfloor h)).
(** it raises ValueError when a quantile is outside [0, 1]. Used at translate.py:422-443 *)
Definition np_quantile (l qs : list R) : res (list R) :=
  if forallb (fun q => Rleb 0 q && Rleb q 1) qs then Ok (map (quantile_sorted l) qs)
  else Raise ValueError.

(** np.isclose(q, 1). Used at translate.py:422-443 *)
Definition close_to_one (q : R) : bool := isclose (/ 100000) (/ 100000000) q 1.

(** translate.py:422-443 for one q, on the sorted data and cumulative weights: [wq_dn] is the denominator
    dn (line 438), None when cw[ri] or cw[li] raises the IndexError of line 439; [wq_at] is line 442 *)
Definition wq_li (cw : list R) (q : R) : Z := (searchsorted_right cw (q * last cw 0)%R - 1)%Z.
(** used at translate.py:422-443 *)
Definition wq_ri (cw : list R) (q : R) : Z := if close_to_one q then wq_li cw q else (wq_li cw q + 1)%Z.
(** used at translate.py:422-443 *)
Definition wq_dn (cw : list R) (q : R) : option R :=
  match py_get cw (wq_ri cw q), py_get cw (wq_li cw q) with
  | Some r, Some l => Some (if close_to_one q then 1 else r - l)
  | _, _ => None
  end.
(** used at translate.py:422-443 *)
Definition wq_at (d cw : list R) (q dn : R) : option R :=
  match py_get d (wq_li cw q), py_get d (wq_ri cw q), py_get cw (wq_li cw q) with
  | Some dl, Some dr, Some cl => Some (dl + (dr - dl) * (q * last cw 0 - cl) / dn)
  | _, _, _ => None
  end.

(** translate.py:403-443 with weights: data and weights are given as pairs, [argsort] returns them sorted by
    datum (in any order of equal data). qs is the flattened argument q. *)
Definition weighted_quantile (argsort : list (R * R) -> list (R * R)) (dw : list (R * R)) (qs : list R)
           (t : R) : res (list R) :=
  let s := filter (fun p => Rgtb (snd p) t) (argsort dw) in
  let d := map fst s in
  match map snd s with
  | [] => Raise IndexError
  | w0 :: _ =>
      let cw := map (fun c => c - w0) (cumsum (map snd s)) in
      match all_some (map (wq_dn cw) qs) with
      | None => np_quantile d qs
      | Some dn =>
          match all_some (map (fun p => wq_at d cw (fst p) (snd p)) (combine qs dn)) with
          | Some r => Ok r
          | None => Raise IndexError
          end
      end
  end.

(** translate.py:446-448 *)
Definition weighted_median (argsort : list (R * R) -> list (R * R)) (dw : list (R * R)) (t : R)
  : res (list R) :=
  weighted_quantile argsort dw [/ 2] t.

(** * translate.py:451-563 [non_uniform_gaussian_filter] with amethod='mean' and one row of y *)

(** np.average(values, weights=weights) (translate.py:498-516) *)
Definition average (wy : list (R * R)) : R :=
  fold_right Rplus 0 (map (fun p => fst p * snd p) wy) / fold_right Rplus 0 (map fst wy).

(** [_nugf_x]: [pdf x0 x] is the density at x of the normal distribution around x0 with the width sigma.
    The weights of far away points underflow to 0, so pdf is only known to be >= 0 and the fall back
    of lines 511-521 is reachable. None: an empty window (IndexError). (translate.py:498-516) *)
Definition nugf_x (pdf : R -> R -> R) (x0 : R) (xy : list (R * R)) : option R :=
  let w := map (fun p => pdf x0 (fst p)) xy in
  if Rgtb (fold_right Rplus 0 w) 0 then Some (average (combine w (map snd xy)))
  else
    let mui := searchsorted_left (map fst xy) x0 in
    if (mui =? Z.of_nat (length xy))%Z then py_get (map snd xy) (-1)
    else if (mui =? 0)%Z then py_get (map snd xy) 0
    else match py_get (map snd xy) mui, py_get (map snd xy) (mui - 1),
               py_get (map fst xy) mui, py_get (map fst xy) (mui - 1) with
         | Some y1, Some y0, Some x1, Some xm => Some (average [(x0 - xm, y1); (x1 - x0, y0)])
         | _, _, _, _ => None
         end.

(** xp[i2[0]:i2[1]] with i2 = clip((i - bw, i + bw), 0, n) (translate.py:522-533) *)
Definition bw_window {A} (bw i : Z) (l : list A) : list A :=
  let n := Z.of_nat (length l) in
  let a := Z.min (Z.max (i - bw) 0) n in
  let b := Z.min (Z.max (i + bw) 0) n in
  firstn (Z.to_nat (b - a)) (skipn (Z.to_nat a) l).

(** the four cases of lines 545-557. Without xr the coordinates are the (sorted) x themselves; without a
    band width the window is everything. (translate.py:545-557) *)
Definition nugf_at (pdf : R -> R -> R) (bw : option Z) (xy : list (R * R)) (x0 : R) : option R :=
  match bw with
  | None => nugf_x pdf x0 xy
  | Some b => nugf_x pdf x0 (bw_window b (searchsorted_left (map fst xy) x0) xy)
  end.
(** translate.py:545-557. Without a band width x0 is a number and not an array (line 520), so that
    np.searchsorted(xp, x0)[0] of line 507 raises IndexError: no fall back (translate.py:518-520) *)
Definition nugf_self (pdf : R -> R -> R) (bw : option Z) (xy : list (R * R)) (i : nat) : option R :=
  let x0 := nth i (map fst xy) 0 in
  match bw with
  | None => if Rgtb (fold_right Rplus 0 (map (fun p => pdf x0 (fst p)) xy)) 0 then nugf_x pdf x0 xy else None
  | Some b => nugf_x pdf x0 (bw_window b (Z.of_nat i) xy)
  end.

(** np.all(x[:-1] <= x[1:]) (translate.py:535-563) *)
Fixpoint ascending (l : list R) : bool :=
  match l with
  | a :: ((b :: _) as r) => Rleb a b && ascending r
  | _ => true
  end.

(** np.apply_along_axis rejects an empty list of coordinates: ValueError (translate.py:559) *)
Definition along {A} (l : list (option A)) : option (list A) := match l with [] => None | _ => all_some l end.

(** [isnone] is the test "resample is None" of line 561. resample is the function of this module there (the
    parameter is called xr), so the code runs with isnone = false: see [non_uniform_gaussian_filter]. The
    sort back amu[inv_sort] is modelled by [unsort], an argument. (translate.py:535-563) *)
Definition nugf_rows (isnone : bool) (argsort : list (R * R) -> list (R * R))
           (unsort : list (R * R) -> list R -> list R)
           (pdf : R -> R -> R) (bw : option Z) (xy : list (R * R)) (xr : option (list R))
  : option (list R) :=
  let sorted := ascending (map fst xy) in
  let s := if sorted then xy else argsort xy in
  let amu := match xr with
             | None => along (map (nugf_self pdf bw s) (seq 0 (length s)))
             | Some l => along (map (nugf_at pdf bw s) l)
             end in
  match amu with
  | Some r => Some (if negb sorted && isnone then unsort xy r else r)
  | None => None
  end.
(** translate.py:535-563 *)
Definition non_uniform_gaussian_filter := nugf_rows false.

(** scipy.stats.norm(loc=x0, scale=sigma).pdf(x), with no underflow (translate.py:498-516: st.norm.pdf) *)
Definition norm_pdf (sigma x0 x : R) : R :=
  exp (- (((x - x0) / sigma) * ((x - x0) / sigma)) / 2) / (sigma * sqrt (2 * PI)).

(** * translate.py:645-676 [cull_vectors] *)

(** the state is (flt, flagged); both start as flt = all True, flagged = empty (translate.py:645-676) *)
Definition cull_state := ((nat -> bool) * (nat -> bool))%type.
(** translate.py:645-676 *)
Definition mem (q : list nat) (i : nat) : bool := existsb (Nat.eqb i) q.
(** lines 669-675 for one j; p is pairs[j] (translate.py:645-676) *)
Definition cull_step (p : nat -> list nat) (st : cull_state) (j : nat) : cull_state :=
  let '(flt, flagged) := st in
  if negb (flagged j) && (1 <? length (p j))%nat then
    let q := filter (fun i => negb (Nat.eqb i j)) (tl (p j)) in
    (fun i => if mem q i then false else flt i, fun i => mem q i || flagged i)
  else st.
(** translate.py:645-676 *)
Definition cull_run (p : nat -> list nat) (m : nat) : cull_state :=
  fold_left (cull_step p) (seq 0 m) (fun _ => true, fun _ => false).
(** n = len(vecs), [p j] = pairs[j]; the result is the mask flt (translate.py:645-676) *)
Definition cull_vectors (p : nat -> list nat) (n : nat) : list bool :=
  map (fst (cull_run p n)) (seq 0 n).

(** * translate.py:692-725 [simple_take] *)

(** an array of any number of dimensions: its shape and the value at every multi index (translate.py:692-723) *)
Record ndarray (A : Type) := ND { nd_shape : list Z; nd_at : list Z -> A }.
Arguments ND {A} _ _.
Arguments nd_shape {A} _.
Arguments nd_at {A} _ _.

(** translate.py:692-723 *)
Fixpoint set_nth {A} (k : nat) (v : A) (l : list A) : list A :=
  match l, k with
  | [], _ => []
  | _ :: l, O => v :: l
  | x :: l, S k => x :: set_nth k v l
  end.

(** np.take(ar, ind, axis): negative indices and axes wrap, others raise IndexError (AxisError) (translate.py:692-723) *)
Definition np_take {A} (ar : ndarray A) (ind : list Z) (axis : Z) : res (ndarray A) :=
  match np_index (Z.of_nat (length (nd_shape ar))) axis with
  | None => Raise IndexError
  | Some a =>
      let a := Z.to_nat a in
      match all_some (map (np_index (nth a (nd_shape ar) 0%Z)) ind) with
      | None => Raise IndexError
      | Some sel =>
          Ok (ND (set_nth a (Z.of_nat (length sel)) (nd_shape ar))
                 (fun idx => nd_at ar (set_nth a (nth (Z.to_nat (nth a idx 0%Z)) sel 0%Z) idx)))
      end
  end.

(** np.arange(n)[start:stop:step] (python slice.indices); a zero step raises ValueError (translate.py:692-723) *)
Definition slice_bound (n : Z) (neg : bool) (v : Z) : Z :=
  let lo := if neg then (-1)%Z else 0%Z in
  let hi := if neg then (n - 1)%Z else n in
  if (v <? 0)%Z then Z.max (v + n) lo else Z.min v hi.
(** translate.py:692-723 *)
Definition slice_indices (n : Z) (start stop step : option Z) : res (list Z) :=
  let st := match step with Some s => s | None => 1%Z end in
  if (st =? 0)%Z then Raise ValueError
  else
    let neg := (st <? 0)%Z in
    let a := match start with Some v => slice_bound n neg v | None => if neg then (n - 1)%Z else 0%Z end in
    let b := match stop with Some v => slice_bound n neg v | None => if neg then (-1)%Z else n end in
    let count := if neg then ((a - b - st - 1) / (- st))%Z else ((b - a + st - 1) / st)%Z in
    Ok (map (fun k => (a + Z.of_nat k * st)%Z) (seq 0 (Z.to_nat count))).

(** one index specification: None, a slice, or a sequence of integers (np.ravel of it) (translate.py:692-723) *)
Inductive take_spec := TNone | TSlice (start stop step : option Z) | TSeq (l : list Z).

(** lines 715-724: the loop over zip(slices, axes) (translate.py:692-723) *)
Definition take_one {A} (ar : ndarray A) (s : take_spec) (j : Z) : res (ndarray A) :=
  match s with
  | TNone => Ok ar
  | TSlice a b c =>
      match np_index (Z.of_nat (length (nd_shape ar))) j with
      | None => Raise IndexError
      | Some k => bind (slice_indices (nth (Z.to_nat k) (nd_shape ar) 0%Z) a b c) (fun l => np_take ar l j)
      end
  | TSeq l => np_take ar l j
  end.
(** translate.py:692-723 *)
Fixpoint take_loop {A} (ar : ndarray A) (l : list (take_spec * Z)) : res (ndarray A) :=
  match l with
  | [] => Ok ar
  | (s, j) :: l => bind (take_one ar s j) (fun ar => take_loop ar l)
  end.
(** axes = None: 0, 1, ... (translate.py:692-723) *)
Definition simple_take {A} (ar : ndarray A) (slices : list take_spec) (axes : option (list Z))
  : res (ndarray A) :=
  let axes := match axes with
              | None => map Z.of_nat (seq 0 (length slices))
              | Some l => l
              end in
  take_loop ar (combine slices axes).
