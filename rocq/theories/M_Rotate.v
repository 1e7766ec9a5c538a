(** Model of array_rotate (raytools/imagetools.py) and of the scipy interpolator it uses *)
From Verif Require Import Base M_Translate M_Mapper.
Local Open Scope R_scope.

(** * scipy.interpolate.RegularGridInterpolator, as called at imagetools.py:124-137 *)

(** one axis with the n >= 2 grid points x0, x0 + 1, ...: the lower grid point of the interval
    used for x, limited to the grid, and the position of x in units of the interval (scipy's
    _find_indices; used at imagetools.py:118-137) *)
Definition rgi_axis (n : Z) (x0 x : R) : Z * R :=
  let i := Z.max 0 (Z.min (- Rfloor (- (x - x0)) - 1) (n - 2)) in
  (i, x - x0 - IZR i).
(** a coordinate outside of the grid (scipy's _find_indices; used at imagetools.py:118-137) *)
Definition rgi_out (n : Z) (x0 x : R) : bool := Rltb x x0 || Rgtb x (x0 + IZR (n - 1)).
(** the value at p of an n x n array on the grid (x0, x0 + 1, ...) x (x0, x0 + 1, ...), method
    "nearest" or "linear", bounds_error=False; fill_value=None extrapolates
    (imagetools.py:118-137) *)
Definition rgi (nearest : bool) (fill : option R) (n : Z) (x0 : R) (im : Z -> Z -> R) (p : R * R) : R :=
  let '(i, a) := rgi_axis n x0 (fst p) in
  let '(j, b) := rgi_axis n x0 (snd p) in
  let v :=
    if nearest then im (if Rleb a (1 / 2) then i else i + 1)%Z (if Rleb b (1 / 2) then j else j + 1)%Z
    else (1 - a) * (1 - b) * im i j + (1 - a) * b * im i (j + 1)%Z
         + a * (1 - b) * im (i + 1)%Z j + a * b * im (i + 1)%Z (j + 1)%Z in
  match fill with
  | None => v
  | Some f => if rgi_out n x0 (fst p) || rgi_out n x0 (snd p) then f else v
  end.

(** * imagetools.py:77-141 *)

(** the argument center: None, two values (any length but 4: the first two are used), or four
    (imagetools.py:103-114) *)
Inductive rcenter := NoCenter | Center2 (c : R * R) | Center4 (s e : R * R).

(** ViewMapper(viewangle=180) (imagetools.py:97; viewmapper.py:30: dxyz = (0, 1, 0)) *)
Definition rot_view : viewmapper := mk_view (V3 0 1 0) 180.
(** the direction sampled for the direction v of an output pixel (imagetools.py:105-116) *)
Definition rot_dir (res : Z) (ang : R) (center : rcenter) (rotate : bool) (v : vec3) : vec3 :=
  let v := if rotate && negb (Reqb ang 0) then rotate_elem v ang 1 true else v in
  match center with
  | NoCenter => v
  | Center4 s e => yp_backward (rmtx_yp (pixel2ray rot_view res s)) (yp_forward (rmtx_yp (pixel2ray rot_view res e)) v)
  | Center2 c => view2world (mk_view (pixel2ray rot_view res c) 180) (world2view rot_view v)
  end.
(** one pass: imagetools.py:97-137 *)
Definition rot_pass (im : image R) (ang : R) (center : rcenter) (rotate : bool) (fill : option R) (nearest : bool) : image R :=
  let res := im_ny im in
  Img res res (fun i j =>
    rgi nearest fill res 0 (im_px im)
        (ray2pixelf rot_view res (rot_dir res ang center rotate (pixel2ray rot_view res (IZR i + 1 / 2, IZR j + 1 / 2))))).
(** imagetools.py:77-141 [array_rotate], one plane. The interpolator rejects planes that are not
    square. Simplification: images smaller than 2 x 2, for which scipy versions differ, are
    rejected with another exception *)
Definition array_rotate (im : image R) (ang : R) (center : rcenter) (rotate_first : bool)
    (fill : option R) (nearest : bool) : res (image R) :=
  if negb (im_nx im =? im_ny im)%Z then Raise ValueError
  else if (im_ny im <? 2)%Z then Raise (OtherError 0)
  else
    let img := rot_pass im ang center rotate_first fill nearest in
    Ok (if negb rotate_first && negb (Reqb ang 0) then rot_pass img ang NoCenter true fill nearest else img).
