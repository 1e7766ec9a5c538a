(** Model of ViewMapper.transform_to with scipy's interpolator (raytools/mapper/viewmapper.py)
    and of array_solid2ang (raytools/imagetools.py) *)
From Verif Require Import Base M_Translate M_Mapper M_Rotate.
Local Open Scope R_scope.

(** viewmapper.py:97-140 [transform_to], one plane; [p2r] is pixel2ray of self, [r2p] ray2pixel of
    other with integer=False. The interpolator rejects planes that are not square; for a self of more
    than 180 degrees the mask is longer than the plane, which numpy rejects as well.
    Simplification: images smaller than 2 x 2 are rejected with another exception *)
Definition transform_image (self : viewmapper) (p2r : Z -> R * R -> vec3) (other : viewmapper)
    (r2p : Z -> vec3 -> R * R) (nearest : bool) (im : image R) : res (image R) :=
  let res := im_ny im in
  if negb (im_nx im =? res)%Z then Raise ValueError
  else if (vm_aspect self =? 2)%Z then Raise ValueError
  else if (res <? 2)%Z then Raise (OtherError 0)
  else Ok (Img res res (transform_to 0 (p2r res) other (r2p res) (rgi nearest None res (1 / 2)) im)).
(** viewmapper.py:97-140 for self and other of class ViewMapper *)
Definition view_transform (self other : viewmapper) : bool -> image R -> res (image R) :=
  transform_image self (pixel2ray self) other (ray2pixelf other).
(** imagetools.py:144-155 [array_solid2ang], one plane; solidviewmapper.py:33-34 rejects more than
    180 degrees *)
Definition array_solid2ang (nearest reverse : bool) (viewangle : R) (im : image R) : res (image R) :=
  let vm := mk_view (V3 0 1 0) viewangle in
  if Rgtb viewangle 180 then Raise ValueError
  else if reverse then transform_image vm (pixel2ray vm) vm (solid_ray2pixelf vm) nearest im
  else transform_image vm (solid_pixel2ray vm) vm (ray2pixelf vm) nearest im.
