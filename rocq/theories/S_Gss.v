(** Specifications for the glare sensation score. *)
From Verif Require Import Base M_Mapper M_Gss.
Local Open Scope R_scope.

(** what is assumed of scipy's filters: smoothing stays within the range of the image and keeps its size, for
    every width; convolution with a non negative kernel stays within the range times the sum of the kernel, and with any kernel
    it multiplies a uniform image by the sum of the kernel (scipy's borders repeat the image) *)
Definition all_between (lo hi : R) (l : list R) : Prop := Forall (fun x => lo <= x <= hi) l.
Definition smoothing (g : list R -> list R) : Prop :=
  forall l, length (g l) = length l /\ forall lo hi, all_between lo hi l -> all_between lo hi (g l).
Definition filters_ok (fl : filters) : Prop :=
  (forall w, smoothing (flt_gauss fl w)) /\ (forall t w, smoothing (flt_gauss_trunc fl t w)) /\
  (forall l k, length (flt_conv fl l k) = length l) /\
  (forall l k lo hi, Forall (fun x => 0 <= x) k -> all_between lo hi l ->
     all_between (lo * Rsum k) (hi * Rsum k) (flt_conv fl l k)) /\
  (forall l k c, all_between c c l -> all_between (c * Rsum k) (c * Rsum k) (flt_conv fl l k)).
(** the filters that leave an image unchanged and multiply it by the sum of the kernel satisfy this *)
Definition trivial_filters : filters :=
  Filters (fun _ l => l) (fun _ _ l => l) (fun l k => map (fun x => x * Rsum k) l).

(** a filter width no other width is closer to *)
Definition nearest_in (widths : list R) (e w : R) : Prop :=
  In w widths /\ forall w', In w' widths -> Rabs (e - w) <= Rabs (e - w').

(** the arrays that belong to a view and a resolution: direction by direction, for the pixels of the r x r grid *)
Definition arrays_of (vm : viewmapper) (r : Z) (st : gstate) : Prop :=
  gs_res st = r /\
  gs_vecs st = Some (pixelrays vm r) /\
  gs_mask st = Some (map (in_view vm 0) (pixelrays vm r)) /\
  gs_omega st = Some (map (fun p => if in_view vm 0 (fst p) : bool then snd p else 0)
                          (combine (pixelrays vm r) (pixel_omegas vm r))) /\
  gs_ctheta st = Some (map (cos_theta vm) (pixelrays vm r)) /\
  gs_pparcmin st = Some (IZR r / (60 * vm_viewangle vm)) /\
  gs_sigma st = Some (map (sigma_of vm) (pixelrays vm r)).

(** one assignment to the object *)
Inductive gop := SetImage (i : gimg) | SetView (vm : viewmapper).
(** assignments are attempted one after the other; a caller may catch an exception and go on *)
Definition gstep (scale : R) (st : gstate) (op : gop) : gstate :=
  match op with SetImage i => fst (set_lum scale st i) | SetView vm => set_vm st vm end.
Definition grun (scale : R) (st : gstate) (ops : list gop) : gstate := fold_left (gstep scale) ops st.
(** square images with as many values as pixels *)
Definition square_img (i : gimg) : Prop :=
  (0 < gi_nx i)%Z /\ gi_ny i = gi_nx i /\ length (gi_px i) = Z.to_nat (gi_nx i * gi_ny i).
Definition square_op (op : gop) : Prop := match op with SetImage i => square_img i | SetView _ => False end.

(** the illuminance at the eye: luminance x solid angle x cosine over the pixels in view, row by row *)
Definition seen_illuminance (vm : viewmapper) (i : gimg) : R :=
  Rsumf (fun q => let '(v, w, l) := q in if in_view vm 0 v then Rmax 0 (clip (dot (vm_dxyz vm) v) (-1) 1) * l * w else 0)
        (combine (combine (pixelrays vm (gi_nx i)) (pixel_omegas vm (gi_nx i))) (gi_px i)).
(** the solid angle of the pixels in view *)
Definition seen_omega (vm : viewmapper) (r : Z) : R :=
  Rsumf (fun p => if in_view vm 0 (fst p) then snd p else 0) (combine (pixelrays vm r) (pixel_omegas vm r)).
(** what is needed of the point spread kernel when it is applied *)
Definition psf_ok (par : gpar) (ppa pupd : R) : Prop :=
  exists cap k, let coef := psf_coef (g_age par) (g_pigment par) pupd in
    capture (g_fwidth par) coef = Ok cap /\ kernel_fix cap (kernel_raw (g_fwidth par) ppa coef) = Ok k /\ cap <= 1 /\ Forall (fun x => 0 <= x) k.
(** the solid angles of the pixels, 0 out of view *)
Definition masked_omega (vm : viewmapper) (r : Z) : list R :=
  map (fun p => if in_view vm 0 (fst p) : bool then snd p else 0) (combine (pixelrays vm r) (pixel_omegas vm r)).
(** the mean eccentricity scale of the pixels in view, by solid angle *)
Definition mean_ecc (vm : viewmapper) (r : Z) : R :=
  Rsumf (fun p => fst p * snd p) (combine (map (sigma_of vm) (pixelrays vm r)) (masked_omega vm r)) / seen_omega vm r.
(** an image of one pixel *)
Definition dot_img (l : R) : gimg := GImg 1 1 [l].
