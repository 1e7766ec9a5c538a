(** Model of resample for arrays with any number of axes (raytools/translate.py:355-398), with the filters of scipy.ndimage. *)
From Verif Require Import Base M_Translate M_Mapper M_Data M_Gss M_Ndimage.
Local Open Scope R_scope.

(** an operation along one axis: len gives the new length of the axis, f the value at a position of a line of n values (translate.py:378-396: the
    operations that numpy and scipy apply axis by axis) *)
Definition along_axis (len : Z -> Z) (f : Z -> (Z -> R) -> Z -> R) (i : nat) (ar : ndarray R) : ndarray R :=
  let n := nth i (nd_shape ar) 0%Z in
  ND (M_Data.set_nth i (len n) (nd_shape ar)) (fun idx => f n (fun k => nd_at ar (M_Data.set_nth i k idx)) (nth i idx 0%Z)).
(** np.repeat(samps, r, i) with the whole part of r (translate.py:379) *)
Definition repeat_axis (r : R) : nat -> ndarray R -> ndarray R :=
  along_axis (fun n => n * Rtrunc r)%Z (fun _ g j => g (j / Rtrunc r)%Z).
(** one axis of gaussian_filter; a width of at most 1e-15 leaves the axis alone (translate.py:384,393) *)
Definition gauss_axis (w : R) : nat -> ndarray R -> ndarray R :=
  along_axis (fun n => n) (fun n g j => if Rgtb w 1e-15 then gauss_at 4 w n g j else g j).
(** one axis of uniform_filter; sizes of 1 and less leave the axis alone (translate.py:388,396) *)
Definition uniform_axis (size origin : Z) : nat -> ndarray R -> ndarray R :=
  along_axis (fun n => n) (fun n g j =>
    if (1 <? size)%Z then window_mean size (fun k => g (reflect_index n k)) (j - size / 2 - origin)%Z else g j).
(** np.take(samps, np.arange(0, samps.shape[i], j), i) with a positive j; a step of 0 is a ZeroDivisionError, see below (translate.py:390) *)
Definition every_axis (j : Z) : nat -> ndarray R -> ndarray R :=
  along_axis (fun n => - (- n / j))%Z (fun _ g i => g (i * j)%Z).
(** the loops over the axes (translate.py:378-379, 389-390, and in scipy's filters) *)
Definition each_axis {A} (op : A -> nat -> ndarray R -> ndarray R) (l : list A) (ar : ndarray R) : ndarray R :=
  fold_left (fun ar p => op (snd p) (fst p) ar) (combine (seq 0 (length l)) l) ar.
(** np.array(ts)/np.array(samps.shape): a ts of one number is used for every axis; other lengths than that of the shape do not fit (for an array of
    one axis numpy would extend the shape instead, and fail later). (translate.py:374-376) *)
Definition ratios (ts shape : list Z) : option (list R) :=
  let ts := match ts with [t] => map (fun _ => t) shape | _ => ts end in
  if (length ts =? length shape)%nat then Some (map (fun p => IZR (fst p) / IZR (snd p)) (combine ts shape)) else None.
(** translate.py:355-398 [resample], for positive sizes *)
Definition resample_nd (samps : ndarray R) (ts : option (list Z)) (gauss : bool) (radius : option R) : res (ndarray R) :=
  match ratios (match ts with Some t => t | None => nd_shape samps end) (nd_shape samps) with
  | None => Raise ValueError
  | Some rs =>
      let p := fold_right Rmult 1 rs in
      if Rgtb p 1 then
        let samps := each_axis repeat_axis rs samps in
        Ok (if gauss then each_axis gauss_axis (match radius with Some r => map (fun _ => r) rs | None => map (fun r => r - 1) rs end) samps else samps)
      else if Rltb p 1 then
        let ks := map (fun r => Rtrunc (1 / r)) rs in
        let samps := each_axis (fun k => uniform_axis k (Rtrunc (- IZR k / 2))) ks samps in
        if existsb (Z.eqb 0) ks then Raise ZeroDivisionError else Ok (each_axis every_axis ks samps)
      else
        match radius with
        | None => Ok samps
        | Some r => Ok (if gauss then each_axis gauss_axis (map (fun _ => r) rs) samps else each_axis (fun k => uniform_axis k 0) (map (fun _ => Rtrunc r) rs) samps)
        end
  end.
