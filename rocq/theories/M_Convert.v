(** Model of hdr_uv2ang, hdr_ang2uv, hdr_solid2ang and hdr_rotate (raytools/imagetools.py): what they read from an image
    file and what they write. The programs that read and write files are in M_Tools.v, the names of the results in
    M_Paths.v; a file is here its header, as getinfo prints it, and its three planes. *)
From Coq Require Import Ascii String.
From Verif Require Import Base M_Translate M_Mapper M_Utility M_Header M_Io M_Tools M_Rotate M_Transform M_Paths.
Import ListNotations.
Local Open Scope R_scope.

(** an image file as hdr2carray and hdr_header (imagetools.py:44, 70, 159, 189) see it *)
Record hdrfile := HdrFile { hf_text : str; hf_planes : list (image R) }.
(** io.py:305-326 [hdr_header] without arguments, of a file that getinfo can read (see M_Tools.v) *)
Definition header_lines (f : hdrfile) : list str :=
  filter (fun i => negb (contains (s "RADIANCE") i)) (splitlines (strip (hf_text f))).
(** imagetools.py:221-230 [img_size]: width and height *)
Definition hf_size (f : hdrfile) : Z * Z := match hf_planes f with im :: _ => (im_nx im, im_ny im) | [] => (0, 0)%Z end.
(** imagetools.py:233-271 [hdr2vm] without vpt *)
Definition hdr_view (parse : str -> option R) (f : hdrfile) : res (option viewmapper) :=
  bind (hdr2vm parse (hf_text f) (fst (hf_size f)) (snd (hf_size f))) (fun o => Ok (option_map fst o)).
(** the array functions treat each plane alike, imagetools.py:34, 58, 124-137 and viewmapper.py:124-136 *)
Fixpoint each_plane (g : image R -> res (image R)) (l : list (image R)) : res (list (image R)) :=
  match l with [] => Ok [] | x :: l => bind (g x) (fun y => bind (each_plane g l) (fun ys => Ok (y :: ys))) end.
(** .reshape(nx, ny), imagetools.py:35, 58 *)
Definition from_flat (nx ny : Z) (l : list R) : image R := Img nx ny (fun i j => nth (Z.to_nat (i * ny + j)) l 0).
(** carray2hdr(img, outf, header=header, clean=True), io.py:144-148, 186-203: the planes and the header lines written *)
Definition write_clean (fill : nat -> str -> str -> str) (img : list (image R)) (header : list str) : res (list (image R) * list str) :=
  bind (clean_header fill header) (fun h => Ok (img, h)).

(** imagetools.py:41-47 [hdr_uv2ang] *)
Definition hdr_uv2ang (fill : nat -> str -> str -> str) (f : hdrfile) : res (list (image R) * list str) :=
  let header := header_lines f in
  bind (each_plane (fun im => bind (array_uv2ang 0 im) (fun l => Ok (from_flat (im_nx im) (im_ny im) l))) (hf_planes f)) (fun img =>
  write_clean fill img header).
(** imagetools.py:63-74 [hdr_ang2uv] *)
Definition hdr_ang2uv (parse : str -> option R) (fill : nat -> str -> str -> str) (useview : bool) (f : hdrfile)
    : res (list (image R) * list str) :=
  bind (if useview then hdr_view parse f else Ok None) (fun vm =>
  let vm := match vm with None => mk_view (V3 0 1 0) 180 | Some vm => vm end in
  let header := header_lines f in
  bind (each_plane (fun im => bind (array_ang2uv vm im) (fun l => Ok (from_flat (im_ny im) (im_ny im) l))) (hf_planes f)) (fun img =>
  write_clean fill img header)).
(** imagetools.py:157-174 [hdr_solid2ang]; the header of a SolidViewMapper is that of AngularMixin as well, with viewproj
    'vta' (angularmixin.py:121-128) *)
Definition hdr_solid2ang (show : R -> str) (parse : str -> option R) (fill : nat -> str -> str -> str) (nearest reverse : bool)
    (viewangle : option R) (f : hdrfile) : res (list (image R) * list str) :=
  let header := header_lines f in
  bind (match viewangle with
        | Some a => Ok a
        | None => bind (hdr_view parse f) (fun vm => Ok (match vm with None => 180 | Some vm => vm_viewangle vm end))
        end) (fun viewangle =>
  bind (each_plane (array_solid2ang nearest reverse viewangle) (hf_planes f)) (fun img =>
  write_clean fill img (header ++ [vm_header show (mk_view (V3 0 1 0) viewangle) vzero]))).
(** str(True), str(False), imagetools.py:190 *)
Definition show_bool (b : bool) : str := if b then s "True" else s "False".
(** str of None or of a tuple of ints, imagetools.py:190 *)
Definition show_center (c : option (list Z)) : str :=
  match c with None => s "None" | Some l => s "(" ++ join (s ", ") (map show_int l) ++ s ")" end.
(** the argument center of array_rotate, imagetools.py:103-116: four values, or the first two; a shorter one raises *)
Definition center_arg (c : option (list Z)) : option rcenter :=
  match c with
  | None => Some NoCenter
  | Some [a; b; x; y] => Some (Center4 (IZR a, IZR b) (IZR x, IZR y))
  | Some (a :: b :: _) => Some (Center2 (IZR a, IZR b))
  | Some _ => None
  end.
(** imagetools.py:177-194 [hdr_rotate] with a center of integers, as cli.py:193-213 gives it; center[1] of a shorter one
    raises IndexError (line 184) *)
Definition hdr_rotate (show : R -> str) (fill : nat -> str -> str -> str) (rotate : R) (center : option (list Z))
    (rotate_first nearest : bool) (f : hdrfile) : res (list (image R) * list str) :=
  match center_arg center with
  | None => Raise IndexError
  | Some c =>
    let header := header_lines f ++
      [s "hdr_rotate rotate:" ++ show rotate ++ s " center:" ++ show_center center ++ s ", rotate_first:" ++ show_bool rotate_first
       ++ s ", nearest:" ++ show_bool nearest] in
    bind (each_plane (fun im => array_rotate im rotate c rotate_first None nearest) (hf_planes f)) (fun img =>
    write_clean fill img header)
  end.
