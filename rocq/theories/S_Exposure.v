(** What C154 speaks about. *)
From Coq Require Import String.
From Verif Require Import Base BaseX M_Translate M_Mapper M_Io M_Peak M_Retina M_Imgmetric.
Local Open Scope R_scope.

(** the same ray with all channels multiplied by k *)
Definition brighter_pix (k : R) (r : pix) : pix := Pix (p_v r) (p_o r) (map (Rmult k) (p_l r)).
(** the same arguments of the peak normalisation with a scale that is k times as large *)
Definition peak_scaled (k : R) (p : peak_args) : peak_args :=
  PeakArgs (k * a_scale p) (a_peaka p) (a_peakt p) (a_peakr p) (a_blurtol p) (a_peakc p) (a_peakrad p) (a_blursun p).
(** the order found by a sort depends on nothing but the comparisons of the keys *)
Definition by_comparison (order : (nat -> R) -> list nat -> list nat) : Prop :=
  forall key key' l, (forall i j, key i <= key j <-> key' i <= key' j) -> order key l = order key' l.
(** the image file with all pixels multiplied by k *)
Definition brighter_file (k : R) (f : imgfile) : imgfile :=
  ImgFile (if_vm f) (if_item f) (Img (im_nx (if_im f)) (im_ny (if_im f)) (fun i j => map (Rmult k) (im_px (if_im f) i j))).
(** the same options of imgmetric with a scale that is k times as large *)
Definition mopts_scaled (k : R) (o : mopts) : mopts :=
  MOpts (mo_peakn o) (k * mo_scale o) (mo_lumrgb o) (mo_threshold o) (mo_lowlight o) (mo_peaka o) (mo_peakt o) (mo_peakr o) (mo_blursun o).
(** the function is blur_sun with its default arguments *)
Definition is_blur_sun (blur : R -> R -> R) : Prop := forall a l, 0 < a -> blur_sun fwhm0 lmin0 a l = Fin (blur a l).
