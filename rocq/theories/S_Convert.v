(** Specification vocabulary for Prop_Convert.v *)
From Coq Require Import Ascii String.
From Verif Require Import Base M_Translate M_Mapper S_Mapper M_Utility M_Header S_Header M_Rotate M_Convert.
Import ListNotations.
Local Open Scope R_scope.

(** what getinfo prints of a file to which the lines h were added: something before them, and after them at most lines
    without a view *)
Definition file_text (h : list str) (text : str) : Prop :=
  exists pre tail, text = pre ++ join newline h ++ tail /\
    (tail = [] \/ exists post, tail = newline ++ post /\ ~ occurs (s "VIEW= -vta") post).
(** numbers print with the characters of numbers *)
Definition number_chars (num : R -> Prop) (show : R -> str) : Prop :=
  forall x, num x -> Forall (fun c => In c (s "0123456789+-.einfa")) (show x).
(** the view angle solid2ang should use: the argument; else that of the view of the file; else 180 *)
Definition angle_used (parse : str -> option R) (f : hdrfile) (a : option R) (va : R) : Prop :=
  a = Some va \/ a = None /\ (exists vm, hdr_view parse f = Ok (Some vm) /\ va = vm_viewangle vm) \/
  a = None /\ hdr_view parse f = Ok None /\ va = 180.
(** the last view of the header of a file is that of a ViewMapper; a line that mentions RADIANCE is not kept *)
Definition views_as (show : R -> str) (f : hdrfile) (vm : viewmapper) (pt : vec3) : Prop :=
  exists before h after v, splitlines (strip (hf_text f)) = before ++ h :: after /\ view_line h v /\ ~ occurs (s "RADIANCE") h /\
    Forall (fun h => forall v, ~ view_line h v) after /\ s "VIEW=" ++ v = vm_header show vm pt.
(** the pixels of an image, row by row (the first index numbers the rows) *)
Definition rows_of {A} (im : image A) : list A := flat_map (fun i => map (im_px im i) (zrange (im_ny im))) (zrange (im_nx im)).
(** what the numbers of the option center mean: a point to move to the middle, or a point and where to move it *)
Inductive center_means : option (list Z) -> rcenter -> Prop :=
| Cm_none : center_means None NoCenter
| Cm_middle x y : center_means (Some [x; y]) (Center2 (IZR x, IZR y))
| Cm_three x y z : center_means (Some [x; y; z]) (Center2 (IZR x, IZR y))
| Cm_point x y x' y' : center_means (Some [x; y; x'; y']) (Center4 (IZR x, IZR y) (IZR x', IZR y'))
| Cm_more x y a b c l : center_means (Some (x :: y :: a :: b :: c :: l)) (Center2 (IZR x, IZR y)).
(** the planes of a file have pixels *)
Definition with_pixels (f : hdrfile) : Prop := Forall (fun im => 0 < im_nx im /\ 0 < im_ny im)%Z (hf_planes f).
