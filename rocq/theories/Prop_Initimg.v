(** C125, C126, C127: empty images with their vectors and masks, the argument grow, plots. *)
From Coq Require Import Ascii String.
From Verif Require Import Base M_Translate M_Mapper M_Header M_Initimg S_Mapper S_Rotate S_Transform S_Initimg L_Mapper L_Draw L_Grow2 L_Initimg L_Initimg2 L_Initimg3 L_Plot.
Import ListNotations.
Local Open Scope R_scope.

(** * C125 *)
Theorem C125_labels : forall c show vm res pt features indices a p, names a p ->
  init_img c show vm res pt features a indices = init_img c show vm res pt features (label p) indices.
Proof. exact (fun c show vm res pt f ix a p => init_names a p c show vm res pt f ix). Qed.
Print Assumptions C125_labels.
Theorem C125_other_labels : forall c show vm res pt features indices a, a <> [] ->
  exists p, init_img c show vm res pt features a indices = init_img c show vm res pt features (label p) indices.
Proof. exact (fun c show vm res pt f ix a => init_any a c show vm res pt f ix). Qed.
Print Assumptions C125_other_labels.
Theorem C125_rejected : forall c show vm res pt features indices,
  init_img c show vm res pt features [] indices = Raise IndexError /\
  forall a, a <> [] -> (res < 0)%Z -> init_img c show vm res pt features a indices = Raise ValueError.
Proof. exact (fun c show vm res pt f ix => conj (init_empty c show vm res pt f ix) (fun a => init_negative a c show vm res pt f ix)). Qed.
Print Assumptions C125_rejected.
Example C125_example_labels : names (s "fisheye") Equiangular /\ names (s "Equisolid") Equisolid /\ names (s "uv") Square.
Proof. exact (conj (n_fish (s "eye")) (conj (n_E (s "quisolid")) (n_u (s "v")))). Qed.

Theorem C125_angular : forall d va show res pt features indices a, regular_dir d -> hemi_angle va -> (0 <= res)%Z -> names a Equiangular ->
  exists r, init_img Angular show (mk_view d va) res pt features a indices = Ok r /\ i_shape r = shape_of features res res /\ vecs_fill r res res /\
  (forall i j, (0 <= i < res)%Z -> (0 <= j < res)%Z -> vnorm (vec_at r res i j) = 1 /\ ray2pixel (mk_view d va) res (vec_at r res i j) = (i, j)) /\
  masks res res (in_circle res) indices (i_mask r) /\ masks_planes features res res (in_circle res) indices (i_mask2 r) /\
  i_header r = vm_header show (mk_view d va) pt.
Proof. exact init_angular. Qed.
Print Assumptions C125_angular.
Theorem C125_full : forall d show res pt features indices a, regular_dir d -> regular_dir (vopp d) -> (0 <= res)%Z -> names a Equiangular ->
  exists r, init_img Angular show (mk_view d 360) res pt features a indices = Ok r /\ i_shape r = shape_of features (2 * res) res /\ vecs_fill r (2 * res) res /\
  (forall i j, (0 <= i < 2 * res)%Z -> (0 <= j < res)%Z -> vnorm (vec_at r res i j) = 1 /\
     (in_circle res (i mod res) j -> ray2pixel (mk_view d 360) res (vec_at r res i j) = (i, j))) /\
  masks (2 * res) res (fun i j => in_circle res (i mod res) j) indices (i_mask r) /\
  masks_planes features (2 * res) res (fun i j => in_circle res (i mod res) j) indices (i_mask2 r) /\
  i_header r = vm_header show (mk_view d 360) pt.
Proof. exact init_full. Qed.
Print Assumptions C125_full.
Theorem C125_square : forall c d va show res pt features indices a, (hemi_angle va \/ va = 360) -> (0 <= res)%Z -> names a Square ->
  let h := (if Reqb va 360 then 2 * res else res)%Z in
  exists r, init_img c show (mk_view d va) res pt features a indices = Ok r /\ i_shape r = shape_of features h res /\ vecs_fill r h res /\
  (forall i j, (0 <= i < h)%Z -> (0 <= j < res)%Z -> vm_xyz2uv (mk_view d va) (vec_at r res i j) = ((IZR i + 1 / 2) / IZR res, (IZR j + 1 / 2) / IZR res)) /\
  i_mask r = NoMask /\ i_mask2 r = NoMask /\ header_as Square (vm_header show (mk_view d va) pt) (i_header r).
Proof. exact init_square. Qed.
Print Assumptions C125_square.
(** missing: views other than 180 degrees have another mask (below) *)
Theorem C125_equisolid_partial : forall c d va show res pt features indices a, hemi_angle va -> (0 <= res)%Z -> names a Equisolid ->
  exists r, init_img c show (mk_view d va) res pt features a indices = Ok r /\ i_shape r = shape_of features res res /\ vecs_fill r res res /\
  (forall i j, (0 <= i < res)%Z -> (0 <= j < res)%Z -> vnorm (vec_at r res i j) = 1 /\
     (in_circle res i j -> pdist (solid_xyz2vxy (mk_view d va) (vec_at r res i j)) ((IZR i + 1 / 2) / IZR res, (IZR j + 1 / 2) / IZR res)
                           <= 2 * sqrt 2 * / 10 ^ 9 / (va * PI / 180))) /\
  (regular_dir d -> va = 180 -> (res <= 10000)%Z ->
     masks res res (in_circle res) indices (i_mask r) /\ masks_planes features res res (in_circle res) indices (i_mask2 r)) /\
  header_as Equisolid (vm_header show (mk_view d va) pt) (i_header r).
Proof. exact init_equisolid. Qed.
Print Assumptions C125_equisolid_partial.
Example C125_example : regular_dir (V3 0 1 0) /\ regular_dir (V3 0 (-1) 0) /\ hemi_angle 180.
Proof. exact (conj (proj1 regular_y) (conj (proj2 regular_y) hemi_180)). Qed.
Example C125_example_circle : in_circle 4 1 1 /\ ~ in_circle 4 0 0.
Proof. exact circle_example. Qed.
(** the base class: all pixels are in view; the vectors are those of the mirrored image *)
Theorem C125_base : forall d sf bbox aspect jitter uvz res, 0 < fst sf -> 0 < snd sf ->
  let m := mk_mapper d sf bbox aspect jitter uvz in let fs := m_framesize m res in (0 < fst fs)%Z -> (0 < snd fs)%Z ->
  exists r, m_init_img m res = Ok r /\ mi_shape r = fs /\ Z.of_nat (List.length (mi_vecs r)) = (fst fs * snd fs)%Z /\ mi_header r = s "VIEW= -vtl -vv 1 -vh 1" /\
  mi_mask r = zrange (fst fs * snd fs) /\
  forall i k, (0 <= i < fst fs)%Z -> (0 <= k < snd fs)%Z -> m_ray2pixel m fs (nth (Z.to_nat (i * snd fs + k)) (mi_vecs r) vzero) = (fst fs - 1 - i, k)%Z.
Proof. exact init_base. Qed.
Print Assumptions C125_base.
(** findings: vte of a 360 degree view has vectors and masks for one half only *)
Theorem C125_full_equisolid_refuted : forall c d show res pt indices, (0 < res)%Z -> d <> vzero ->
  exists r, init_img c show (mk_view d 360) res pt 1 (s "vte") indices = Ok r /\ i_shape r = [2 * res; res]%Z /\
  i_vecs_shape r = [res; res; 3]%Z /\ Z.of_nat (List.length (i_vecs r)) = (res * res)%Z /\
  match i_mask r with Pairs l => forall p, In p l -> (0 <= fst p < res)%Z | Flat l => Z.of_nat (List.length l) = (res * res)%Z | _ => False end.
Proof. exact full_equisolid. Qed.
Print Assumptions C125_full_equisolid_refuted.
(** the corners of 2 x 2 pixels are at 60 degrees in an equisolid image; their vectors are more than 5 degrees further *)
Theorem C125_equisolid_law_refuted : forall d show pt indices, regular_dir d ->
  exists r, init_img Angular show (mk_view d 180) 2 pt 1 (s "vte") indices = Ok r /\ header_as Equisolid (vm_header show (mk_view d 180) pt) (i_header r) /\
  image_radius 2 0 0 = equisolid_radius (PI / 2) (PI / 3) /\ PI / 3 + 1 / 10 < angle (norm d) (vec_at r 2 0 0).
Proof. exact equisolid_law. Qed.
Print Assumptions C125_equisolid_law_refuted.
(** views of less than 180 degrees: pixels inside the image circle are not in the mask *)
Theorem C125_narrow_equisolid_refuted : forall d show pt, regular_dir d ->
  exists r l, init_img Angular show (mk_view d 90) 20 pt 1 (s "vte") true = Ok r /\ i_mask r = Pairs l /\ in_circle 20 0 9 /\ ~ In (0, 9)%Z l.
Proof. exact narrow_mask. Qed.
Print Assumptions C125_narrow_equisolid_refuted.
(** SolidViewMapper: the default header declares an equiangular image, the vectors are those of another projection *)
Theorem C125_solid_class_refuted : forall d show pt indices, regular_dir d ->
  exists r, init_img Solid show (mk_view d 180) 2 pt 1 (s "vta") indices = Ok r /\ i_header r = vm_header show (mk_view d 180) pt /\
  PI * image_radius 2 0 0 + 1 / 100 < angle (norm d) (vec_at r 2 0 0).
Proof. exact class_mismatch. Qed.
Print Assumptions C125_solid_class_refuted.

(** * C126 *)
Theorem C126_view_partial : forall d va im vs c grow, hemi_angle va -> constant im 0 -> (0 < grow)%Z -> (grow <= im_nx im)%Z -> (grow <= im_ny im)%Z ->
  exists out, add_vecs_grow (mk_view d va) im true None vs c grow = Ok out /\ grown im out c (hit im (ray2pixel (mk_view d va) (im_ny im)) vs) grow.
Proof. exact grown_view. Qed.
Print Assumptions C126_view_partial.
Theorem C126_full_partial : forall d im vs c grow, d <> vzero -> (forall v, In v vs -> dot v v = 1) -> constant im 0 -> (0 < grow)%Z -> (grow <= im_nx im)%Z -> (grow <= im_ny im)%Z ->
  exists out, add_vecs_grow (mk_view d 360) im true None vs c grow = Ok out /\ grown im out c (hit im (ray2pixel (mk_view d 360) (im_ny im)) vs) grow.
Proof. exact grown_360. Qed.
Print Assumptions C126_full_partial.
Theorem C126_base_partial : forall m im vs c grow, constant im 0 -> (0 < grow)%Z -> (grow <= im_nx im)%Z -> (grow <= im_ny im)%Z ->
  exists out, m_add_vecs_grow m im vs c grow = Ok out /\ grown im out c (hit im (m_ray2pixel m (im_nx im, im_ny im)) vs) grow.
Proof. exact grown_base. Qed.
Print Assumptions C126_base_partial.
Theorem C126_planes_partial : forall d va grow vs, hemi_angle va -> (0 < grow)%Z -> forall ims cs, (List.length ims <= List.length cs)%nat ->
  exists outs, add_vecs_channels_grow (mk_view d va) ims true None vs cs grow = Ok outs /\ List.length outs = List.length ims /\
  forall k im c, nth_error ims k = Some im -> nth_error cs k = Some (Some c) -> constant im 0 -> (grow <= im_nx im)%Z -> (grow <= im_ny im)%Z ->
    exists out, nth_error outs k = Some out /\ grown im out c (hit im (ray2pixel (mk_view d va) (im_ny im)) vs) grow.
Proof. exact grown_channels. Qed.
Print Assumptions C126_planes_partial.
Theorem C126_no_growth : forall d va im fisheye m vs c grow, (grow <= 0)%Z ->
  add_vecs_grow (mk_view d va) im fisheye m vs c grow = add_vecs (mk_view d va) im fisheye m vs c.
Proof. exact no_grow. Qed.
Print Assumptions C126_no_growth.
Example C126_example : apart (blank 9) 1 (fun p => p = (1, 1)%Z \/ p = (4, 5)%Z) /\ constant (blank 9) 0.
Proof. exact grow_example. Qed.
(** findings: at the corner the value is four times c, where squares overlap twice c; what the image had before is
    smoothed and multiplied, in planes with the value None too *)
Theorem C126_edge_refuted : forall d va n grow c, hemi_angle va -> (0 < grow < n)%Z ->
  exists out, add_vecs_grow (mk_view d va) (blank n) true None [ray d va n 0 0] c grow = Ok out /\ im_px out 0 0 = 4 * c.
Proof. exact corner_four. Qed.
Print Assumptions C126_edge_refuted.
Theorem C126_overlap_refuted : forall d va n grow a b c, hemi_angle va -> (0 < grow)%Z -> (grow <= a < n - grow)%Z -> (grow <= b < n - grow - 1)%Z ->
  exists out, add_vecs_grow (mk_view d va) (blank n) true None [ray d va n a b; ray d va n a (b + 1)] c grow = Ok out /\
    im_px out a b = 2 * c /\ im_px out a (b + 1) = 2 * c.
Proof. exact neighbours_two. Qed.
Print Assumptions C126_overlap_refuted.
Theorem C126_content_refuted : forall d va im k c grow, hemi_angle va -> (0 < grow)%Z -> (grow <= im_nx im)%Z -> (grow <= im_ny im)%Z -> constant im k ->
  exists out, add_vecs_grow (mk_view d va) im true None [] c grow = Ok out /\ constant out (IZR (2 * grow + 1) * IZR (2 * grow + 1) * k).
Proof. exact content_scaled. Qed.
Print Assumptions C126_content_refuted.
Theorem C126_skipped_plane_refuted : forall d va im k vs grow, hemi_angle va -> (0 < grow)%Z -> (grow <= im_nx im)%Z -> (grow <= im_ny im)%Z -> constant im k ->
  exists out, add_vecs_channels_grow (mk_view d va) [im] true None vs [None] grow = Ok [out] /\ constant out (IZR (2 * grow + 1) * IZR (2 * grow + 1) * k).
Proof. exact channel_scaled. Qed.
Print Assumptions C126_skipped_plane_refuted.

(** * C127 *)
Theorem C127_base : forall m res vs grow, (0 < grow)%Z -> let fs := m_framesize m res in (grow <= fst fs)%Z -> (grow <= snd fs)%Z ->
  exists out, m_plot m vs res grow = Ok (out, [s "VIEW= -vtl -vv 1 -vh 1"]) /\
  let im := Img (fst fs) (snd fs) (fun _ _ => 0) in grown im out 1 (hit im (m_ray2pixel m fs) vs) grow.
Proof. exact plot_base. Qed.
Print Assumptions C127_base.
Theorem C127_view : forall show d va res vs grow, hemi_angle va -> (0 < grow <= res)%Z ->
  exists out, view_plot show (mk_view d va) vs res grow = Ok (out, [vm_header show (mk_view d va) vzero]) /\
  grown (blank res) out 1 (hit (blank res) (ray2pixel (mk_view d va) res) vs) grow.
Proof. exact plot_view. Qed.
Print Assumptions C127_view.
Theorem C127_full_partial : forall show d res vs grow, d <> vzero -> (0 < grow <= res)%Z -> (forall v, In v vs -> dot v v = 1) ->
  exists out, view_plot show (mk_view d 360) vs res grow = Ok (out, [vm_header show (mk_view d 360) vzero]) /\
  grown (blank res) out 1 (hit (blank res) (ray2pixel (mk_view d 360) res) vs) grow.
Proof. exact plot_full. Qed.
Print Assumptions C127_full_partial.
(** the image of a 360 degree view has no place for directions behind the view plane *)
Theorem C127_behind_refuted : forall show d res vs grow, d <> vzero -> regular_dir (vopp d) -> (0 < grow <= res)%Z ->
  (forall v, In v vs -> dot v v = 1 /\ dot (norm d) v < 0) ->
  exists out, view_plot show (mk_view d 360) vs res grow = Ok (out, [vm_header show (mk_view d 360) vzero]) /\ constant out 0.
Proof. exact plot_behind. Qed.
Print Assumptions C127_behind_refuted.
Example C127_example : dot (V3 0 (-1) 0) (V3 0 (-1) 0) = 1 /\ dot (norm (V3 0 1 0)) (V3 0 (-1) 0) < 0 /\ regular_dir (vopp (V3 0 1 0)).
Proof. exact behind_example. Qed.
