(** Properties of ViewMapper.transform_to and array_solid2ang: C110, C111 *)
From Coq Require Import Lia Lra.
From Verif Require Import Base M_Translate M_Mapper S_Mapper M_Rotate S_Rotate M_Transform S_Transform L_Transform.
Local Open Scope R_scope.

(** C110: converting an image to its own view keeps the pixels of the image circle and blackens the others *)
Theorem C110_same_view : forall d va nearest im n, regular_dir d -> hemi_angle va -> square_image im n ->
  exists out, view_transform (mk_view d va) (mk_view d va) nearest im = Ok out /\ square_image out n /\
  forall i j, pixel_of n i j -> (image_radius n i j < 1 / 2 -> im_px out i j = im_px im i j) /\
                                (1 / 2 <= image_radius n i j -> im_px out i j = 0).
Proof. exact transform_self. Qed.
(** gradients are converted without error: each pixel has the value of the input at its own direction *)
Theorem C110_gradient : forall d1 va1 d2 va2 im n g,
  hemi_angle va1 -> regular_dir d2 -> hemi_angle va2 -> square_image im n -> bilinear g -> follows g im n ->
  exists out, view_transform (mk_view d1 va1) (mk_view d2 va2) false im = Ok out /\ square_image out n /\
  forall i j, pixel_of n i j -> let v := pixel2ray (mk_view d1 va1) n (pixel_centre i j) in
    (in_view (mk_view d2 va2) 0 v = true -> exists q, pixel2ray (mk_view d2 va2) n q = v /\ im_px out i j = g q) /\
    (in_view (mk_view d2 va2) 0 v = false -> im_px out i j = 0).
Proof. exact transform_gradient. Qed.
(** the conversion is linear in the image *)
Theorem C110_linear : forall self other nearest a b x y n, square_image x n -> square_image y n -> vm_aspect self <> 2%Z ->
  exists o p q, view_transform self other nearest (mix a b x y) = Ok o /\ view_transform self other nearest x = Ok p /\
    view_transform self other nearest y = Ok q /\ same_image o (mix a b p q).
Proof. exact transform_mix. Qed.
(** the nearest method makes no new values *)
Theorem C110_nearest_values : forall self other im n, square_image im n -> vm_aspect self <> 2%Z ->
  exists out, view_transform self other true im = Ok out /\ square_image out n /\
  forall i j, im_px out i j = 0 \/ exists a b, pixel_of n a b /\ im_px out i j = im_px im a b.
Proof. exact transform_nearest. Qed.
(** no image can be converted from a 360 degree view *)
Theorem C110_full_view_refuted : forall d other nearest im, view_transform (mk_view d 360) other nearest im = Raise ValueError.
Proof. exact full_rejects. Qed.
Example C110_nonvacuous : regular_dir (V3 0 1 0) /\ hemi_angle 180 /\ hemi_angle 60 /\
  square_image (Img 4 4 (fun i j => 3 + 2 * (IZR i + 1 / 2))) 4 /\ bilinear (fun p => 3 + 2 * fst p) /\
  follows (fun p => 3 + 2 * fst p) (Img 4 4 (fun i j => 3 + 2 * (IZR i + 1 / 2))) 4.
Proof.
  split; [exact regular_north|]. unfold hemi_angle. do 2 (split; [lra|]). split; [unfold square_image; cbn; lia|].
  split; [exists 3, 2, 0, 0; intros; ring | intros i j _; reflexivity].
Qed.
Print Assumptions C110_same_view.
Print Assumptions C110_gradient.
Print Assumptions C110_linear.
Print Assumptions C110_nearest_values.
Print Assumptions C110_full_view_refuted.

(** C111: array_solid2ang reads, for a pixel at angle t of the angular image, the equisolid image in the same direction
    from the centre and at the equisolid radius of t *)
Theorem C111_solid2ang : forall im n g, square_image im n -> bilinear g -> follows g im n ->
  exists out, array_solid2ang false false 180 im = Ok out /\ square_image out n /\
  forall i j, pixel_of n i j -> image_radius n i j < 1 / 2 -> exists k, im_px out i j = g (along n i j k) /\
    - / 10 ^ 9 <= k * image_radius n i j - equisolid_radius (PI / 2) (PI * image_radius n i j) <= 0.
Proof. exact solid2ang_image. Qed.
(** and with reverse=True the angular image at the angle t of an equisolid radius *)
Theorem C111_ang2solid : forall im n g, square_image im n -> bilinear g -> follows g im n ->
  exists out, array_solid2ang false true 180 im = Ok out /\ square_image out n /\
  forall i j, pixel_of n i j ->
    (1 / 2 <= image_radius n i j -> im_px out i j = 0) /\
    (image_radius n i j < 1 / 2 -> exists k t, im_px out i j = g (along n i j k) /\
       0 <= t <= PI / 2 /\ equisolid_radius (PI / 2) t = image_radius n i j /\
       - / 10 ^ 9 <= k * image_radius n i j - t / PI <= 0).
Proof. exact ang2solid_image. Qed.
Theorem C111_nearest_values : forall reverse im n, square_image im n ->
  exists out, array_solid2ang true reverse 180 im = Ok out /\ square_image out n /\
  forall i j, im_px out i j = 0 \/ exists a b, pixel_of n a b /\ im_px out i j = im_px im a b.
Proof. exact solid2ang_nearest. Qed.
Theorem C111_rejected : forall nearest reverse va im, 180 < va \/ im_nx im <> im_ny im ->
  array_solid2ang nearest reverse va im = Raise ValueError.
Proof. exact solid2ang_rejects. Qed.
(** the linear method extrapolates at the rim: negative pixels from an image without *)
Theorem C111_range_refuted : exists im out, square_image im 2 /\ pixels_within im 0 1 /\
  array_solid2ang false false 180 im = Ok out /\ im_px out 0%Z 0%Z < 0.
Proof. exact solid2ang_negative. Qed.
Example C111_nonvacuous : square_image (Img 5 5 (fun i j => IZR j + 1 / 2)) 5 /\ bilinear snd /\
  follows snd (Img 5 5 (fun i j => IZR j + 1 / 2)) 5 /\ image_radius 5 2 2 < 1 / 2.
Proof.
  split; [unfold square_image; cbn; lia|]. split; [exists 0, 0, 1, 0; intros; ring|]. split; [intros i j _; reflexivity|].
  unfold image_radius, pdist, center. cbn [fst snd]. replace (_ + _) with 0 by field. rewrite sqrt_0. lra.
Qed.
Print Assumptions C111_solid2ang.
Print Assumptions C111_ang2solid.
Print Assumptions C111_nearest_values.
Print Assumptions C111_rejected.
Print Assumptions C111_range_refuted.
