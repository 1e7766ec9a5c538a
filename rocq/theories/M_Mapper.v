(** Model of raytools/mapper: Mapper, AngularMixin, ViewMapper, SolidViewMapper,
    PerspectiveViewMapper. Functions are given per row (one vector, one pixel);
    images are index functions with explicit sizes. *)
From Verif Require Import Base M_Translate.
Local Open Scope R_scope.

(** * numpy index arithmetic *)

(** numpy integer indexing of an axis of length n: negative indices wrap once,
    anything else raises IndexError. Numpy indexing as used at angularmixin.py:141-251, imagetools.py:21-60 *)
Definition np_index (n i : Z) : option Z :=
  if (0 <=? i)%Z && (i <? n)%Z then Some i
  else if (- n <=? i)%Z && (i <? 0)%Z then Some (i + n)%Z
  else None.

(** a 2-d image of shape (im_nx, im_ny). Numpy indexing as used at angularmixin.py:141-251, imagetools.py:21-60 *)
Record image (A : Type) := Img { im_nx : Z; im_ny : Z; im_px : Z -> Z -> A }.
Arguments Img {A} _ _ _.
Arguments im_nx {A} _.
Arguments im_ny {A} _.
Arguments im_px {A} _ _ _.

(** numpy indexing as used at angularmixin.py:141-251, imagetools.py:21-60 *)
Definition np_index2 {A} (im : image A) (p : Z * Z) : option (Z * Z) :=
  match np_index (im_nx im) (fst p), np_index (im_ny im) (snd p) with
  | Some x, Some y => Some (x, y)
  | _, _ => None
  end.
(** numpy indexing as used at angularmixin.py:141-251, imagetools.py:21-60 *)
Fixpoint all_some {A} (l : list (option A)) : option (list A) :=
  match l with
  | [] => Some []
  | None :: _ => None
  | Some a :: l => match all_some l with Some l => Some (a :: l) | None => None end
  end.
(** numpy indexing as used at angularmixin.py:141-251, imagetools.py:21-60 *)
Definition pair_eqb (p q : Z * Z) : bool := (fst p =? fst q)%Z && (snd p =? snd q)%Z.
(** img[xp, yp] = c : bounds are checked before anything is written
    Numpy indexing as used at angularmixin.py:141-251, imagetools.py:21-60 *)
Definition np_write {A} (im : image A) (pts : list (Z * Z)) (c : A) : res (image A) :=
  match all_some (map (np_index2 im) pts) with
  | None => Raise IndexError
  | Some l => Ok (Img (im_nx im) (im_ny im)
                      (fun x y => if existsb (pair_eqb (x, y)) l then c else im_px im x y))
  end.
(** img[xp, yp]. Numpy indexing as used at angularmixin.py:141-251, imagetools.py:21-60 *)
Definition np_read {A} (im : image A) (pts : list (Z * Z)) : res (list A) :=
  match all_some (map (np_index2 im) pts) with
  | None => Raise IndexError
  | Some l => Ok (map (fun p => im_px im (fst p) (snd p)) l)
  end.

(** [0; 1; ...; n-1]. Numpy indexing as used at angularmixin.py:141-251, imagetools.py:21-60 *)
Definition zrange (n : Z) : list Z := map Z.of_nat (seq 0 (Z.to_nat n)).
(** np.mgrid[0:nx, 0:ny] in C order. Numpy indexing as used at angularmixin.py:141-251, imagetools.py:21-60 *)
Definition zgrid (nx ny : Z) : list (Z * Z) :=
  flat_map (fun i => map (fun j => (i, j)) (zrange ny)) (zrange nx).

(** * class Mapper, mapper/mapper.py *)

(** mapper.py:31-41, 43-66; [_rmtx] is (eye, eye) in this class whatever dxyz
    is (mapper.py:66) *)
Record mapper := Mapper {
  m_dxyz : vec3; m_rmtx : mat3 * mat3;
  m_sf : R * R; m_bbox0 : R * R; m_bbox1 : R * R;
  m_aspect : R; m_area : R; m_uvz : R; m_jitterrate : R }.
(** mapper.py:31-71 *)
Definition mk_mapper (dxyz : vec3) (sf : R * R) (bbox : (R * R) * (R * R)) (aspect : option R)
    (jitterrate uvz : R) : mapper :=
  let xd := fst (snd bbox) - fst (fst bbox) in
  let yd := snd (snd bbox) - snd (fst bbox) in
  {| m_dxyz := norm1 dxyz; m_rmtx := (mid, mid); m_sf := sf;
     m_bbox0 := fst bbox; m_bbox1 := snd bbox;
     m_aspect := match aspect with None => xd / yd | Some a => a end;
     m_area := xd * yd; m_uvz := uvz; m_jitterrate := jitterrate |}.

(** mapper.py:73-77 [view2world], 79-83 [world2view] *)
Definition view2world_m (m : mat3 * mat3) (v : vec3) : vec3 :=
  mmulv (mtrans (fst m)) (mmulv (mtrans (snd m)) v).
(** mapper.py:79-83 *)
Definition world2view_m (m : mat3 * mat3) (v : vec3) : vec3 :=
  mmulv (snd m) (mmulv (fst m) v).

(** mapper.py:85-90 [xyz2uv], 92-98 [uv2xyz] *)
Definition m_xyz2uv (m : mapper) (v : vec3) : R * R :=
  let w := world2view_m (m_rmtx m) v in
  ((vx w - fst (m_bbox0 m)) / fst (m_sf m), (vy w - snd (m_bbox0 m)) / snd (m_sf m)).
(** mapper.py:92-98 *)
Definition m_uv2xyz (m : mapper) (uv : R * R) : vec3 :=
  view2world_m (m_rmtx m)
    (V3 (fst (m_bbox0 m) + fst uv * fst (m_sf m)) (snd (m_bbox0 m) + snd uv * snd (m_sf m)) (m_uvz m)).

(** mapper.py:100-122 [idx2uv] for a 2-d shape; [off] is the random draw
    (uniform on [(1-j)/2, (1+j)/2)) or 0.5 without jitter; unravel_index raises
    ValueError out of range *)
Definition idx2uv (shape : Z * Z) (off : R * R) (idx : Z) : res (R * R) :=
  if (0 <=? idx)%Z && (idx <? fst shape * snd shape)%Z then
    let i := (idx / snd shape)%Z in
    let j := (idx mod snd shape)%Z in
    Ok ((IZR i + fst off) / IZR (fst shape), (IZR j + snd off) / IZR (snd shape))
  else Raise ValueError.
(** mapper.py:116-120: the offsets that can be drawn *)
Definition offset_ok (jitter : bool) (jitterrate : R) (off : R) : Prop :=
  if jitter && Rgtb jitterrate 0
  then (1 - jitterrate) / 2 <= off < (1 + jitterrate) / 2
  else off = 1 / 2.
(** python int(): truncation towards zero. Used at mapper.py:116-127 *)
Definition Rtrunc (x : R) : Z := if Rltb x 0 then (- Rfloor (- x))%Z else Rfloor x.
(** mapper.py:124-127 [uv2idx] *)
Definition uv2idx (shape : Z * Z) (uv : R * R) : Z :=
  (Rtrunc (fst uv * IZR (fst shape)) * snd shape + Rtrunc (snd uv * IZR (snd shape)))%Z.

(** mapper.py:129-131 [xyz2vxy], 133-136 [vxy2xyz] (value only) *)
Definition m_xyz2vxy := m_xyz2uv.
(** mapper.py:133-137 *)
Definition m_vxy2xyz (m : mapper) (xy : R * R) : vec3 := m_uv2xyz m (1 - fst xy, snd xy).
(** mapper.py:133-136: [xy[..., 0] = 1 - xy[..., 0]] writes into the caller's
    array (an ndarray is required, so always); result and array afterwards *)
Definition m_vxy2xyz_call (m : mapper) (xys : list (R * R)) : list vec3 * list (R * R) :=
  let flipped := map (fun xy => (1 - fst xy, snd xy)) xys in
  (map (m_uv2xyz m) flipped, flipped).

(** mapper.py:138-146 [framesize]; python round(x) is round half to even *)
Definition pyround (x : R) : Z :=
  let n := Rfloor x in
  let d := x - IZR n in
  if Rltb d (1 / 2) then n
  else if Rgtb d (1 / 2) then (n + 1)%Z
  else if Z.even n then n else (n + 1)%Z.
(** mapper.py:139-146 *)
Definition m_framesize (m : mapper) (res : Z) : Z * Z :=
  if Rltb (m_aspect m) 1 then (pyround (IZR res * m_aspect m), res)
  else (res, pyround (IZR res / m_aspect m)).

(** mapper.py:148-156 [pixels]. jitter = 0: offset 0.5 everywhere. Otherwise
    [draw] is the random array of shape (xres, yres), transposed to
    (yres, xres) and added to an array of shape (xres, yres, 2): numpy
    broadcasts the last axes, so xres must be 1 or 2 *)
Definition m_pixels (xres yres : Z) (jitter : R) (draw : Z -> Z -> R) : res (Z -> Z -> R * R) :=
  if Rgtb jitter 0 then
    if (xres =? 2)%Z then Ok (fun x y => (IZR x + draw 0%Z y, IZR y + draw 1%Z y))
    else if (xres =? 1)%Z then Ok (fun x y => (IZR x + draw 0%Z y, IZR y + draw 0%Z y))
    else Raise ValueError
  else Ok (fun x y => (IZR x + 1 / 2, IZR y + 1 / 2)).
(** mapper.py:148-156: the jitter drawn is between 0 and 1 *)
Definition draw_ok (jitter : R) (draw : Z -> Z -> R) : Prop :=
  forall i j, (1 - jitter) / 2 <= draw i j < (1 + jitter) / 2.

(** mapper.py:163-172 [ray2pixel] (integer=False / True), 174-180 [pixel2ray] *)
Definition m_ray2pixelf (m : mapper) (fs : Z * Z) (v : vec3) : R * R :=
  let p := m_xyz2vxy m v in (fst p * IZR (fst fs), snd p * IZR (snd fs)).
(** mapper.py:163-172 *)
Definition m_ray2pixel (m : mapper) (fs : Z * Z) (v : vec3) : Z * Z :=
  let p := m_ray2pixelf m fs v in (Rfloor (fst p), Rfloor (snd p)).
(** mapper.py:174-180 *)
Definition m_pixel2ray (m : mapper) (fs : Z * Z) (p : R * R) : vec3 :=
  m_vxy2xyz m (fst p / IZR (fst fs), snd p / IZR (snd fs)).

(** mapper.py:182-185 [pixel2omega] (every pixel) *)
Definition m_pixel2omega (m : mapper) (res : Z) : R :=
  let '(xres, yres) := m_framesize m res in m_area m / (IZR xres * IZR yres).

(** mapper.py:187-196 [in_view] mask *)
Definition m_in_view (m : mapper) (v : vec3) : bool :=
  let uv := m_xyz2uv m v in
  Rgeb (fst uv) 0 && Rleb (fst uv) 1 && (Rgeb (snd uv) 0 && Rleb (snd uv) 1).

(** mapper.py:235-259 [add_vecs_to_img] for grow = 0 and one channel (grow > 0
    applies scipy's uniform_filter to the result; not modelled) *)
Definition m_add_vecs {A} (m : mapper) (im : image A) (vs : list vec3) (c : A) : res (image A) :=
  let pxy := map (m_ray2pixel m (im_nx im, im_ny im)) vs in
  let ok p := ((0 <=? fst p) && (fst p <? im_nx im) && ((0 <=? snd p) && (snd p <? im_ny im)))%Z in
  let pts := filter ok pxy in
  if (length pts =? 0)%nat then Ok im else np_write im pts c.

(** * class ViewMapper / AngularMixin *)

(** viewmapper.py:30-43, 49-56, 63-71 *)
Record viewmapper := VM {
  vm_dxyz : vec3; vm_viewangle : R; vm_aspect : Z;
  vm_sf : R * R; vm_bbox0 : R * R; vm_bbox1 : R * R;
  vm_area : R; vm_chordfactor : R; vm_rmtx : mat3 * mat3 }.
(** viewmapper.py:30-71 *)
Definition mk_view (dxyz : vec3) (viewangle : R) : viewmapper :=
  let full := Reqb viewangle 360 in
  let va := if full then 180 else viewangle in
  let aspect := if full then 2%Z else 1%Z in
  let sf := if full then (1, 1) else (va / 180, va / 180) in
  let bbox0 := if full then (0, 0) else (1 / 2 - va / 180 / 2, 1 / 2 - va / 180 / 2) in
  let bbox1 := if full then (2, 1) else (1 / 2 + va / 180 / 2, 1 / 2 + va / 180 / 2) in
  let area := 2 * PI * (1 - cos (va * PI * IZR aspect / 360)) in
  let cl := theta2chord (PI / 2) / (PI / 2) in
  let h := va * PI / 360 in
  let clp := theta2chord h / h in
  let d := norm1 dxyz in
  {| vm_dxyz := d; vm_viewangle := va; vm_aspect := aspect; vm_sf := sf;
     vm_bbox0 := bbox0; vm_bbox1 := bbox1; vm_area := area;
     vm_chordfactor := cl / clp; vm_rmtx := rmtx_yp d |}.

(** viewmapper.py:68-71: opposite view, only for aspect 2 *)
Definition vm_ivm (vm : viewmapper) : viewmapper := mk_view (vopp (vm_dxyz vm)) 180.

(** viewmapper.py:63-71, mapper.py:73-83 *)
Definition world2view (vm : viewmapper) : vec3 -> vec3 := world2view_m (vm_rmtx vm).
(** viewmapper.py:63-71, mapper.py:73-83 *)
Definition view2world (vm : viewmapper) : vec3 -> vec3 := view2world_m (vm_rmtx vm).

(** angularmixin.py:263-267 [ctheta], 269-271 [radians], 273-275 [degrees] *)
Definition vm_radians (vm : viewmapper) (v : vec3) : R := acos (clip (dot (vm_dxyz vm) v) (-1) 1).
(** angularmixin.py:273-275 *)
Definition vm_degrees (vm : viewmapper) (v : vec3) : R := vm_radians vm v * 180 / PI.

(** angularmixin.py:110-119 [in_view] mask *)
Definition in_view (vm : viewmapper) (tol : R) (v : vec3) : bool :=
  Rltb (vm_radians vm v - tol) (vm_chordfactor vm * vm_viewangle vm * PI / 360).

(** angularmixin.py:31-39 [xyz2uv], 41-51 [uv2xyz]; _flipu = True, _xsign = -1 *)
Definition vm_xyz2uv (vm : viewmapper) (v : vec3) : R * R :=
  let uv := xyz2uv false xyz_axes true (world2view vm v) in
  ((fst uv - fst (vm_bbox0 vm)) / fst (vm_sf vm), (snd uv - snd (vm_bbox0 vm)) / snd (vm_sf vm)).
(** angularmixin.py:41-51 *)
Definition vm_uv2xyz (vm : viewmapper) (uv : R * R) : vec3 :=
  view2world vm (uv2xyz xyz_axes (-1)
    (fst (vm_bbox0 vm) + fst uv * fst (vm_sf vm), snd (vm_bbox0 vm) + snd uv * snd (vm_sf vm))).

(** angularmixin.py:53-67 [xyz2vxy]: aspect 1 branch, then both *)
Definition xyz2vxy1 (vm : viewmapper) (v : vec3) : R * R :=
  let xy := xyz2xy xyz_axes true (world2view vm v) in
  let f x := x * 180 / (vm_viewangle vm * vm_chordfactor vm) / 2 + 1 / 2 in
  (f (fst xy), f (snd xy)).
(** angularmixin.py:53-67 *)
Definition xyz2vxy (vm : viewmapper) (v : vec3) : R * R :=
  if (vm_aspect vm =? 2)%Z then
    if in_view vm 0 v then
      let xy := xyz2xy xyz_axes true (world2view vm v) in
      let f x := x / vm_chordfactor vm / 2 + 1 / 2 in
      (f (fst xy), f (snd xy))
    else let p := xyz2vxy1 (vm_ivm vm) v in (fst p + 1, snd p)
  else xyz2vxy1 vm v.

(** angularmixin.py:73-81: centred, signed image coordinates (already scaled to
    turns: 1/2 is 90 degrees) to a direction in view space *)
Definition ang2dir (p : R * R) : vec3 :=
  let d := sqrt (square (fst p) + square (snd p)) in
  let z := cos (PI * d) in
  let k := if Rleb d 0 then PI else sqrt (1 - z * z) / d in
  V3 (fst p * k) (snd p * k) z.
(** angularmixin.py:69-85 [vxy2xyz] (value only) *)
Definition vxy2xyz (vm : viewmapper) (xy : R * R) : vec3 :=
  let s := vm_viewangle vm * vm_chordfactor vm / 180 in
  view2world vm (ang2dir ((fst xy - 1 / 2) * (-1 * s), (snd xy - 1 / 2) * (1 * s))).
(** angularmixin.py:71-80: np.atleast_2d does not copy an ndarray, and -=, *=
    write into it: result and caller's array afterwards *)
Definition vxy2xyz_call (vm : viewmapper) (k : argkind) (xys : list (R * R)) : list vec3 * list (R * R) :=
  let s := vm_viewangle vm * vm_chordfactor vm / 180 in
  let dirs := map (fun xy => ang2dir ((fst xy - 1 / 2) * (-1 * s), (snd xy - 1 / 2) * (1 * s))) xys in
  (map (view2world vm) dirs,
   match k with ndarray => map (fun d => (vx d, vy d)) dirs | pysequence => xys end).

(** angularmixin.py:87-89 [framesize]; mapper.py:163-180 with res -> (res, res) *)
Definition ray2pixelf (vm : viewmapper) (res : Z) (v : vec3) : R * R :=
  let p := xyz2vxy vm v in (fst p * IZR res, snd p * IZR res).
(** mapper.py:163-172 *)
Definition ray2pixel (vm : viewmapper) (res : Z) (v : vec3) : Z * Z :=
  let p := ray2pixelf vm res v in (Rfloor (fst p), Rfloor (snd p)).
(** mapper.py:174-180 *)
Definition pixel2ray (vm : viewmapper) (res : Z) (p : R * R) : vec3 :=
  vxy2xyz vm (fst p / IZR res, snd p / IZR res).

(** mapper.py:148-161 with jitter 0, angularmixin.py:91-98 [pixelrays], flattened
    in C order: (res, res) for aspect 1, (2*res, res) for aspect 2 *)
Definition pixelrays1 (vm : viewmapper) (res : Z) : list vec3 :=
  map (fun p => pixel2ray vm res (IZR (fst p) + 1 / 2, IZR (snd p) + 1 / 2)) (zgrid res res).
(** angularmixin.py:91-98 *)
Definition pixelrays (vm : viewmapper) (res : Z) : list vec3 :=
  if (vm_aspect vm =? 2)%Z then pixelrays1 vm res ++ pixelrays1 (vm_ivm vm) res
  else pixelrays1 vm res.

(** viewmapper.py:73-95 [idx2uv]: divides both coordinates by shape[1] *)
Definition vm_idx2uv (shape : Z * Z) (off : R * R) (idx : Z) : res (R * R) :=
  if (0 <=? idx)%Z && (idx <? fst shape * snd shape)%Z then
    let i := (idx / snd shape)%Z in
    let j := (idx mod snd shape)%Z in
    Ok ((IZR i + fst off) / IZR (snd shape), (IZR j + snd off) / IZR (snd shape))
  else Raise ValueError.

(** angularmixin.py:203-251 [add_vecs_to_img], grow = 0, one channel *)
Definition vecs_pixels (vm : viewmapper) (res : Z) (vs : list vec3) : list (Z * Z) :=
  if (vm_aspect vm =? 2)%Z then
    let reverse v := Rgtb (vm_degrees vm v) 90 in
    map (fun v => let p := ray2pixel (vm_ivm vm) res v in (fst p + res, snd p)%Z) (filter reverse vs)
    ++ map (ray2pixel vm res) (filter (fun v => negb (reverse v)) vs)
  else map (ray2pixel vm res) vs.
(** angularmixin.py:203-251 *)
Definition drawn_pixels {A} (vm : viewmapper) (im : image A) (fisheye : bool)
    (mask : option (list (Z * Z))) (vs : list vec3) : list (Z * Z) :=
  let res := im_ny im in
  if fisheye then
    let pb := vecs_pixels vm res vs in
    match mask with
    | None => filter (fun p => ((0 <=? fst p) && (fst p <? im_nx im) && ((0 <=? snd p) && (snd p <? im_ny im)))%Z) pb
    | Some m => filter (fun p => existsb (pair_eqb p) m) pb
    end
  else if (vm_aspect vm =? 2)%Z then map (fun v => uv2ij (vm_xyz2uv vm v) res 2) vs
  else map (fun v => uv2ij (vm_xyz2uv vm v) res 2) (filter (in_view vm 0) vs).
(** angularmixin.py:203-251 *)
Definition add_vecs {A} (vm : viewmapper) (im : image A) (fisheye : bool)
    (mask : option (list (Z * Z))) (vs : list vec3) (c : A) : res (image A) :=
  np_write im (drawn_pixels vm im fisheye mask vs) c.
(** angularmixin.py:246-248: several channels, None leaves a channel alone;
    channels[i] raises IndexError when there are fewer channels than planes *)
Fixpoint add_vecs_channels {A} (vm : viewmapper) (ims : list (image A)) (fisheye : bool)
    (mask : option (list (Z * Z))) (vs : list vec3) (cs : list (option A)) : res (list (image A)) :=
  match ims, cs with
  | [], _ => Ok []
  | _ :: _, [] => Raise IndexError
  | im :: ims, c :: cs =>
      bind (match c with None => Ok im | Some c => add_vecs vm im fisheye mask vs c end) (fun im' =>
      bind (add_vecs_channels vm ims fisheye mask vs cs) (fun ims' => Ok (im' :: ims')))
  end.

(** * SolidViewMapper and PerspectiveViewMapper *)

(** solidviewmapper.py:31-36 *)
Definition mk_solid (dxyz : vec3) (viewangle : R) : res viewmapper :=
  if Rgtb viewangle 180 then Raise ValueError else Ok (mk_view dxyz viewangle).
(** perspectiveviewmapper.py:28-34 *)
Definition mk_perspective (dxyz : vec3) (vv vh : R) : res viewmapper :=
  let viewangle := Rmax vh vv in
  if Rgeb viewangle 180 then Raise ValueError else Ok (mk_view dxyz viewangle).

(** perspectiveviewmapper.py:36-82 *)
Definition eps9 : R := / 10 ^ 9.
(** perspectiveviewmapper.py:36-82 *)
Definition hyp (p : R * R) : R := sqrt (square (fst p) + square (snd p)).

(** solidviewmapper.py:38-54 = perspectiveviewmapper.py:36-52 =
    viewmapper.py:142-158 [solid_xyz2vxy] for viewangle <= 180 *)
Definition solid_xyz2vxy (vm : viewmapper) (v : vec3) : R * R :=
  let pxy := xyz2vxy vm v in
  let vs := vm_viewangle vm * PI / 180 in
  let a := ((fst pxy - 1 / 2) * vs, (snd pxy - 1 / 2) * vs) in
  let r_a := hyp a in
  let r := 2 * asin (r_a * sqrt 2 / PI) in
  let so := (fst a * r / (r_a + eps9), snd a * r / (r_a + eps9)) in
  (fst so / vs + 1 / 2, snd so / vs + 1 / 2).
(** solidviewmapper.py:56-83 = perspectiveviewmapper.py:54-81 =
    viewmapper.py:160-187 [solid_vxy2xyz] for viewangle <= 180 *)
Definition solid_vxy2xyz (vm : viewmapper) (xy : R * R) : vec3 :=
  let vs := vm_viewangle vm * PI / 180 in
  let so := ((fst xy - 1 / 2) * vs, (snd xy - 1 / 2) * vs) in
  let r := hyp so in
  let r_a := sin (r / 2) * PI / sqrt 2 in
  let a := (fst so * r_a / (r + eps9), snd so * r_a / (r + eps9)) in
  let pxy := (fst a / vs, snd a / vs) in
  let s := vm_viewangle vm * vm_chordfactor vm / 180 in
  view2world vm (ang2dir (fst pxy * (-1 * s), snd pxy * (1 * s))).
(** viewmapper.py:194-199 *)
Definition solid_ray2pixelf (vm : viewmapper) (res : Z) (v : vec3) : R * R :=
  let p := solid_xyz2vxy vm v in (fst p * IZR res, snd p * IZR res).
(** viewmapper.py:201-203 *)
Definition solid_pixel2ray (vm : viewmapper) (res : Z) (p : R * R) : vec3 :=
  solid_vxy2xyz vm (fst p / IZR res, snd p / IZR res).

(** * reprojection, viewmapper.py:97-140 [transform_to]
    [dst] is [self], [src] is [other]; only their pixelrays / in_view / ray2pixel
    matter. [interp] is scipy's RegularGridInterpolator on the grid
    (arange(res)+.5)^2 with values imarray (oracle). The result pixel at (i, j) *)
Definition transform_to {A} (zero : A) (self_pixel2ray : R * R -> vec3) (other : viewmapper)
    (other_ray2pixelf : vec3 -> R * R) (interp : (Z -> Z -> A) -> R * R -> A)
    (im : image A) (i j : Z) : A :=
  let v := self_pixel2ray (IZR i + 1 / 2, IZR j + 1 / 2) in
  if in_view other 0 v then interp (im_px im) (other_ray2pixelf v) else zero.

(** imagetools.py:50-60 [array_ang2uv], one plane of shape (nx, res) *)
Definition array_ang2uv {A} (vm : viewmapper) (im : image A) : res (list A) :=
  let res := im_ny im in
  np_read im (map (fun b => ray2pixel vm res (vm_uv2xyz vm (bin2uv b res (1 / 2)))) (zrange (res * res))).

(** imagetools.py:21-38 [array_uv2ang], one plane: the flat result; a boolean
    mask of the wrong length raises IndexError. angularmixin.py:180-191: the mask
    of an aspect 2 view tests the second half against the opposite view *)
Fixpoint scatter {A} (z : A) (mask : list bool) (vals : list A) : list A :=
  match mask, vals with
  | true :: m, v :: vals => v :: scatter z m vals
  | true :: m, [] => z :: scatter z m []
  | false :: m, vals => z :: scatter z m vals
  | [], _ => []
  end.
(** angularmixin.py:141-191 *)
Definition init_mask (vm : viewmapper) (res : Z) : list bool :=
  if (vm_aspect vm =? 2)%Z then
    map (in_view vm 0) (pixelrays1 vm res) ++ map (in_view (vm_ivm vm) 0) (pixelrays1 (vm_ivm vm) res)
  else map (in_view vm 0) (pixelrays vm res).
(** angularmixin.py:141-191 *)
Fixpoint select {A} (mask : list bool) (l : list A) : list A :=
  match mask, l with
  | true :: m, a :: l => a :: select m l
  | false :: m, _ :: l => select m l
  | _, _ => []
  end.
(** imagetools.py:21-38 *)
Definition array_uv2ang {A} (zero : A) (im : image A) : res (list A) :=
  let resx := im_nx im in
  let resy := im_ny im in
  let vm := if (resy <? resx)%Z then mk_view (V3 0 1 0) 360 else mk_view (V3 0 1 0) 180 in
  let mask := init_mask vm resy in
  let ij := map (fun v => uv2ij (vm_xyz2uv vm v) resy 2) (select mask (pixelrays vm resy)) in
  if (Z.of_nat (length mask) =? resx * resy)%Z then
    bind (np_read im ij) (fun vals => Ok (scatter zero mask vals))
  else Raise IndexError.
