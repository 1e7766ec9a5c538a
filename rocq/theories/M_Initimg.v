(** Model of init_img (raytools/mapper/angularmixin.py, viewmapper.py) and of the argument grow of add_vecs_to_img
    (mapper.py, angularmixin.py). *)
From Coq Require Import Ascii String.
From Verif Require Import Base M_Translate M_Mapper M_Header.
Import ListNotations.
Local Open Scope R_scope.

(** * projections *)

(** the first character that counts, viewmapper.py:207-210 and angularmixin.py:132-135: the last one after "vt";
    a[0] of an empty string raises *)
Definition proj_char (a : str) : res ascii :=
  let l := lower a in
  let l := if str_eqb (firstn 2 l) (s "vt") then match rev l with [] => [] | c :: _ => [c] end else l in
  match l with [] => Raise IndexError | c :: _ => Ok c end.
(** viewmapper.py:205-216 [_process_viewproj] *)
Definition view_proj (a : str) : res str :=
  bind (proj_char a) (fun c =>
  if char_eqb c "a" || char_eqb c "f" then Ok (s "vta") else if char_eqb c "e" then Ok (s "vte") else Ok (s "vuv")).
(** angularmixin.py:130-139 [_process_viewproj] *)
Definition mixin_proj (a : str) : res str :=
  bind (proj_char a) (fun c => if char_eqb c "a" || char_eqb c "f" then Ok (s "vta") else Ok (s "vuv")).

(** angularmixin.py:121-128 [header] with the argument viewproj; [show] formats a number *)
Definition proj_header (show : R -> str) (vm : viewmapper) (pt : vec3) (viewproj : str) : str :=
  let a := show (vm_viewangle vm) in
  let d := vm_dxyz vm in
  let sp := s " " in
  s "VIEW= -" ++ viewproj ++ s " -vv " ++ a ++ s " -vh " ++ a ++ s " -vd " ++ show (vx d) ++ sp ++ show (vy d) ++ sp ++ show (vz d)
  ++ s " -vp " ++ show (vx pt) ++ sp ++ show (vy pt) ++ sp ++ show (vz pt)
  ++ s " -vu " ++ (if near_z d then s "0 1 0" else s "0 0 1").

(** * init_img *)

(** the masks of angularmixin.py:182-197 and viewmapper.py:263-269: index pairs, flattened booleans, or for several
    channels index triples (channel, x, y) *)
Inductive mask := NoMask | Pairs (l : list (Z * Z)) | Flat (l : list bool) | Triples (l : list (Z * Z * Z)).
(** what init_img returns, angularmixin.py:201: the shape of the zero array, the vectors flattened with their shape,
    the masks and the header *)
Record initimg := Init { i_shape : list Z; i_vecs_shape : list Z; i_vecs : list vec3; i_mask : mask; i_mask2 : mask; i_header : str }.
(** the classes: ViewMapper, or SolidViewMapper and PerspectiveViewMapper, which share their vxy2xyz
    (solidviewmapper.py:56-83, perspectiveviewmapper.py:54-81) *)
Inductive view_class := Angular | Solid.
(** pixelrays of the class, flattened: mapper.py:148-161, angularmixin.py:91-98 (Solid views are at most 180 degrees,
    solidviewmapper.py:33-34) *)
Definition class_rays (c : view_class) (vm : viewmapper) (res : Z) : list vec3 :=
  match c with
  | Angular => pixelrays vm res
  | Solid => map (fun p => solid_pixel2ray vm res (IZR (fst p) + 1 / 2, IZR (snd p) + 1 / 2)) (zgrid res res)
  end.
(** np.unravel_index(k, (n, w)), angularmixin.py:117 *)
Definition unravel (w k : Z) : Z * Z := (k / w, k mod w)%Z.
(** angularmixin.py:114-119: in_view of the vectors of w columns, with indices or as flat booleans *)
Definition in_view_of (vm : viewmapper) (w : Z) (vs : list vec3) (indices : bool) : mask :=
  let m := map (in_view vm 0) vs in
  if indices then Pairs (map (unravel w) (select m (zrange (Z.of_nat (List.length vs))))) else Flat m.
(** angularmixin.py:185-189: the masks of both halves *)
Definition mask_join (res : Z) (a b : mask) : mask :=
  match a, b with
  | Pairs l, Pairs k => Pairs (l ++ map (fun p => (fst p + res, snd p)%Z) k)
  | Flat l, Flat k => Flat (l ++ k)
  | _, _ => NoMask
  end.
(** np.tile(np.arange(n), k), angularmixin.py:194 *)
Definition tile (n : Z) (k : nat) : list Z := flat_map (fun _ => zrange n) (seq 0 k).
(** np.repeat(l, n), angularmixin.py:195 *)
Definition repeat_each (n : Z) (l : list Z) : list Z := flat_map (fun x => List.repeat x (Z.to_nat n)) l.
(** angularmixin.py:193-197 = viewmapper.py:264-269 *)
Definition channel_mask (features : Z) (indices : bool) (m : mask) : mask :=
  match m with
  | Pairs l => if (1 <? features)%Z && indices
               then Triples (combine (combine (tile features (List.length l)) (repeat_each features (map fst l))) (repeat_each features (map snd l)))
               else m
  | _ => m
  end.
(** angularmixin.py:173-176, viewmapper.py:253-256: the shape of the zero array *)
Definition img_shape (vm : viewmapper) (res features : Z) : list Z :=
  if (1 <? features)%Z then [features; res * vm_aspect vm; res]%Z else [res * vm_aspect vm; res]%Z.
(** angularmixin.py:141-201 [init_img]; np.zeros raises for a negative size *)
Definition mixin_init_img (c : view_class) (show : R -> str) (vm : viewmapper) (res : Z) (pt : vec3) (features : Z)
    (viewproj : str) (indices : bool) : Base.res initimg :=
  bind (mixin_proj viewproj) (fun viewproj =>
  if (res <? 0)%Z then Raise ValueError else
  let shape := img_shape vm res features in
  let header := proj_header show vm pt viewproj in
  let vshape := [vm_aspect vm * res; res; 3]%Z in
  if str_eqb viewproj (s "vta") then
    let vecs := class_rays c vm res in
    let half := Z.to_nat (res * res) in
    let m := if (vm_aspect vm =? 2)%Z
             then mask_join res (in_view_of vm res (firstn half vecs) indices) (in_view_of (vm_ivm vm) res (skipn half vecs) indices)
             else in_view_of vm res vecs indices in
    Ok (Init shape vshape vecs m (channel_mask features indices m) header)
  else
    let vecs := map (fun b => vm_uv2xyz vm (bin2uv b res (1 / 2))) (zrange (res * res * vm_aspect vm)) in
    Ok (Init shape vshape vecs NoMask NoMask header)).
(** viewmapper.py:218-270 [init_img] *)
Definition init_img (c : view_class) (show : R -> str) (vm : viewmapper) (res : Z) (pt : vec3) (features : Z)
    (viewproj : str) (indices : bool) : Base.res initimg :=
  bind (view_proj viewproj) (fun viewproj =>
  if in_strs viewproj [s "vta"; s "vuv"] then mixin_init_img c show vm res pt features viewproj indices
  else if (res <? 0)%Z then Raise ValueError else
  let vecs := map (fun p => solid_pixel2ray vm res (IZR (fst p) + 1 / 2, IZR (snd p) + 1 / 2)) (zgrid res res) in
  let m := in_view_of vm res vecs indices in
  Ok (Init (img_shape vm res features) [res; res; 3]%Z vecs m (channel_mask features indices m) (proj_header show vm pt viewproj))).

(** what Mapper.init_img returns, mapper.py:233 (mask2 is mask): the shape of the zero array, the vectors, the flat
    indices and the header *)
Record minit := MInit { mi_shape : Z * Z; mi_vecs : list vec3; mi_mask : list Z; mi_header : str }.
(** mapper.py:198-199 [header] *)
Definition m_header : str := s "VIEW= -vtl -vv 1 -vh 1".
(** mapper.py:201-233 [init_img] with jitter 0; Mapper.uv2xyz (94) flattens, so that pixelrays gives a list and in_view
    (190-194) flat indices. Simplification: the frame is not empty *)
Definition m_init_img (m : mapper) (res : Z) : Base.res minit :=
  let fs := m_framesize m res in
  if (fst fs <? 0)%Z || (snd fs <? 0)%Z then Raise ValueError else
  let vecs := map (fun p => m_pixel2ray m fs (IZR (fst p) + 1 / 2, IZR (snd p) + 1 / 2)) (zgrid (fst fs) (snd fs)) in
  Ok (MInit fs vecs (select (map (m_in_view m) vecs) (zrange (Z.of_nat (List.length vecs)))) m_header).

(** * grow *)

(** scipy's mode 'reflect', the default of uniform_filter: the index of an image of n pixels at position k; (d c b a |
    a b c d | d c b a). Used at mapper.py:253, 258 and angularmixin.py:244, 250 *)
Definition reflect (n k : Z) : Z := let m := (k mod (2 * n))%Z in if (m <? n)%Z then m else (2 * n - 1 - m)%Z.
(** scipy's uniform_filter1d, called by uniform_filter (mapper.py:253), of odd size r = 2 g + 1, exact: the mean of the r values around i *)
Definition uniform1 (g n : Z) (f : Z -> R) (i : Z) : R :=
  Rsumf (fun t => f (reflect n (i + t - g)%Z)) (zrange (2 * g + 1)) / IZR (2 * g + 1).
(** uniform_filter(im, r) of an image or of one plane with sizes (1, r, r), mapper.py:253, 258: the first axis, then
    the second *)
Definition uniform_filter (g : Z) (im : image R) : image R :=
  Img (im_nx im) (im_ny im) (fun x y => uniform1 g (im_ny im) (fun y => uniform1 g (im_nx im) (fun x => im_px im x y) x) y).
(** mapper.py:252-253, 257-258, angularmixin.py:243-244, 249-250: img*r**2, filtered. Simplification: grow is an
    integer *)
Definition grow_image (grow : Z) (im : image R) : image R :=
  if (0 <? grow)%Z
  then uniform_filter grow (Img (im_nx im) (im_ny im) (fun x y => im_px im x y * (IZR (2 * grow + 1) * IZR (2 * grow + 1))))
  else im.
(** angularmixin.py:203-244 [add_vecs_to_img] of an image *)
Definition add_vecs_grow (vm : viewmapper) (im : image R) (fisheye : bool) (mask : option (list (Z * Z))) (vs : list vec3)
    (c : R) (grow : Z) : res (image R) :=
  bind (add_vecs vm im fisheye mask vs c) (fun im' => Ok (grow_image grow im')).
(** angularmixin.py:245-251 [add_vecs_to_img] of several planes: all of them are filtered *)
Definition add_vecs_channels_grow (vm : viewmapper) (ims : list (image R)) (fisheye : bool) (mask : option (list (Z * Z)))
    (vs : list vec3) (cs : list (option R)) (grow : Z) : res (list (image R)) :=
  bind (add_vecs_channels vm ims fisheye mask vs cs) (fun ims' => Ok (map (grow_image grow) ims')).
(** mapper.py:235-253 [add_vecs_to_img]: the image is returned as it is when no vector falls on it *)
Definition m_add_vecs_grow (m : mapper) (im : image R) (vs : list vec3) (c : R) (grow : Z) : res (image R) :=
  let inside p := ((0 <=? fst p) && (fst p <? im_nx im) && ((0 <=? snd p) && (snd p <? im_ny im)))%Z in
  if existsb inside (map (m_ray2pixel m (im_nx im, im_ny im)) vs)
  then bind (m_add_vecs m im vs c) (fun im' => Ok (grow_image grow im'))
  else Ok im.
(** * plot *)
(** mapper.py:261-264 [plot] of a Mapper: the image and the header passed to array2hdr; channels is (1, 0, 0) *)
Definition m_plot (m : mapper) (vs : list vec3) (res grow : Z) : Base.res (image R * list str) :=
  let fs := m_framesize m res in
  if (fst fs <? 0)%Z || (snd fs <? 0)%Z then Raise ValueError else
  bind (m_add_vecs_grow m (Img (fst fs) (snd fs) (fun _ _ => 0)) vs 1 grow) (fun im => Ok (im, [m_header])).
(** mapper.py:261-264 [plot] of a ViewMapper, whose framesize is always (res, res) (angularmixin.py:87-89) *)
Definition view_plot (show : R -> str) (vm : viewmapper) (vs : list vec3) (res grow : Z) : Base.res (image R * list str) :=
  if (res <? 0)%Z then Raise ValueError else
  bind (add_vecs_grow vm (Img res res (fun _ _ => 0)) true None vs 1 grow) (fun im => Ok (im, [vm_header show vm vzero])).
