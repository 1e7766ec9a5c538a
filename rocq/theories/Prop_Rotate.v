(** Properties of array_rotate (imagetools.py): C104 - C109 *)
From Coq Require Import Lia Lra.
From Verif Require Import Base M_Translate M_Mapper S_Mapper M_Rotate S_Rotate L_Rotate L_Rotate2 L_Rotate3.
Local Open Scope R_scope.

(** C104: pixel (i, j) of the result is the input at the centre of (i, j) turned by the angle *)
Theorem C104_turned : forall im n ang fill nearest, square_image im n ->
  exists out, array_rotate im ang NoCenter true fill nearest = Ok out /\ square_image out n /\
  forall i j, pixel_of n i j -> im_px out i j = rgi nearest fill n 0 (im_px im) (turned ang n (pixel_centre i j)).
Proof. exact rotate_turns. Qed.
(** in particular, an image whose pixels follow a bilinear function is turned without error *)
Theorem C104_gradient : forall im n ang a b c d, square_image im n ->
  (forall i j, pixel_of n i j -> im_px im i j = a + b * IZR i + c * IZR j + d * IZR i * IZR j) ->
  exists out, array_rotate im ang NoCenter true None false = Ok out /\ square_image out n /\
  forall i j, pixel_of n i j -> let p := turned ang n (pixel_centre i j) in
    im_px out i j = a + b * fst p + c * snd p + d * fst p * snd p.
Proof. exact rotate_gradient. Qed.
Theorem C104_rejected : forall im ang center first fill nearest,
  im_nx im <> im_ny im -> array_rotate im ang center first fill nearest = Raise ValueError.
Proof. exact rotate_rejects. Qed.
Example C104_nonvacuous : square_image (Img 5 5 (fun i j => 1 + 2 * IZR i)) 5 /\
  (forall i j, pixel_of 5 i j -> im_px (Img 5 5 (fun i j => 1 + 2 * IZR i)) i j = 1 + 2 * IZR i + 0 * IZR j + 0 * IZR i * IZR j).
Proof. split; [unfold square_image; cbn; lia | intros; cbn [im_px]; ring]. Qed.
Print Assumptions C104_turned.
Print Assumptions C104_gradient.
Print Assumptions C104_rejected.

(** C105: rotation by 0 degrees. It keeps the image for the nearest method without fill value ... *)
Theorem C105_nearest_partial : forall im n first, square_image im n ->
  exists out, array_rotate im 0 NoCenter first None true = Ok out /\ same_image out im.
Proof. exact rotate_zero_nearest. Qed.
(** ... but the linear method averages four pixels, because pixel centres are at i + 1/2 in the
    view and at i on the interpolation grid *)
Theorem C105_linear_averages : forall im n i j, square_image im n -> (0 <= i < n - 1)%Z -> (0 <= j < n - 1)%Z ->
  exists out, array_rotate im 0 NoCenter true None false = Ok out /\
  im_px out i j = (im_px im i j + im_px im i (j + 1)%Z + im_px im (i + 1)%Z j + im_px im (i + 1)%Z (j + 1)%Z) / 4.
Proof. exact rotate_zero_linear. Qed.
Theorem C105_linear_refuted : exists im out, square_image im 2 /\ pixels_within im 0 1 /\
  array_rotate im 0 NoCenter true None false = Ok out /\ ~ same_image out im /\ im_px out 1%Z 1%Z < 0.
Proof. exact zero_linear_changes. Qed.
(** with a fill value the last row and column are lost for both methods *)
Theorem C105_fill_refuted : forall im n f nearest j, square_image im n -> (0 <= j < n)%Z ->
  exists out, array_rotate im 0 NoCenter true (Some f) nearest = Ok out /\
  im_px out (n - 1)%Z j = f /\ im_px out j (n - 1)%Z = f.
Proof. exact zero_fill. Qed.
(** with the nearest method every angle between 0 and 90 degrees, however small, moves a pixel *)
Theorem C105_small_angle_refuted : forall im ang, square_image im 2 -> 0 < ang < 90 ->
  exists out, array_rotate im ang NoCenter true None true = Ok out /\ im_px out 0%Z 0%Z = im_px im 0%Z 1%Z.
Proof. exact small_angle. Qed.
Example C105_nonvacuous : square_image (Img 4 4 (fun i j => IZR (i + 4 * j))) 4 /\ square_image (Img 2 2 (fun i j => IZR i)) 2.
Proof. unfold square_image; cbn; lia. Qed.
Print Assumptions C105_nearest_partial.
Print Assumptions C105_linear_averages.
Print Assumptions C105_linear_refuted.
Print Assumptions C105_fill_refuted.
Print Assumptions C105_small_angle_refuted.

(** C106: quarter turns with the nearest method move whole pixels *)
Theorem C106_quarter : forall im n, square_image im n ->
  exists out, array_rotate im 90 NoCenter true None true = Ok out /\ same_image out (quarter_turn im).
Proof. exact rotate_quarter. Qed.
Theorem C106_four_quarters : forall im n, square_image im n ->
  exists out, bind (array_rotate im 90 NoCenter true None true) (fun a =>
              bind (array_rotate a 90 NoCenter true None true) (fun b =>
              bind (array_rotate b 90 NoCenter true None true) (fun c =>
                    array_rotate c 90 NoCenter true None true))) = Ok out /\ same_image out im.
Proof. exact rotate_four. Qed.
Example C106_nonvacuous : square_image (Img 3 3 (fun i j => IZR (i + 3 * j))) 3 /\
  im_px (quarter_turn (Img 3 3 (fun i j => IZR (i + 3 * j)))) 0%Z 1%Z = 7.
Proof. unfold square_image; cbn; split; [lia | reflexivity]. Qed.
Print Assumptions C106_quarter.
Print Assumptions C106_four_quarters.

(** C107: the values of the result *)
Theorem C107_range_with_fill : forall im n ang center first f nearest lo hi,
  square_image im n -> pixels_within im lo hi -> lo <= f <= hi ->
  exists out, array_rotate im ang center first (Some f) nearest = Ok out /\ square_image out n /\ pixels_within out lo hi.
Proof. exact rotate_range. Qed.
Theorem C107_nearest_values : forall im n ang center first, square_image im n ->
  exists out, array_rotate im ang center first None true = Ok out /\ square_image out n /\
  forall i j, pixel_of n i j -> exists a b, pixel_of n a b /\ im_px out i j = im_px im a b.
Proof. exact rotate_values. Qed.
Theorem C107_constant : forall im n ang center first nearest c, square_image im n -> pixels_within im c c ->
  exists out, array_rotate im ang center first None nearest = Ok out /\ square_image out n /\ pixels_within out c c.
Proof. exact rotate_const. Qed.
(** the default, linear without fill value, extrapolates: negative pixels from an image without *)
Theorem C107_default_range_refuted : exists im out, square_image im 2 /\ pixels_within im 0 1 /\
  array_rotate im 0 NoCenter true None false = Ok out /\ ~ same_image out im /\ im_px out 1%Z 1%Z < 0.
Proof. exact zero_linear_changes. Qed.
Example C107_nonvacuous : square_image (Img 2 2 (fun i j => IZR 3)) 2 /\ pixels_within (Img 2 2 (fun i j => IZR 3)) 3 3.
Proof. split; [unfold square_image; cbn; lia | intros i j _ _; cbn [im_px]; lra]. Qed.
Print Assumptions C107_range_with_fill.
Print Assumptions C107_nearest_values.
Print Assumptions C107_constant.
Print Assumptions C107_default_range_refuted.

(** C108: the pixel given as center is the middle pixel of the result; with four values the
    pixel given first is moved to the point given last *)
Theorem C108_centre : forall im k ang a b fill nearest, let n := (2 * k + 1)%Z in square_image im n -> pixel_of n a b ->
  regular_dir (pixel2ray rot_view n (IZR a, IZR b)) ->
  exists out, array_rotate im ang (Center2 (IZR a, IZR b)) true fill nearest = Ok out /\ im_px out k k = im_px im a b.
Proof. exact rotate_centre. Qed.
Theorem C108_align : forall im n i j a b fill nearest, square_image im n -> pixel_of n i j -> pixel_of n a b ->
  regular_dir (pixel2ray rot_view n (IZR a, IZR b)) -> regular_dir (pixel2ray rot_view n (pixel_centre i j)) ->
  exists out, array_rotate im 0 (Center4 (IZR a, IZR b) (pixel_centre i j)) true fill nearest = Ok out /\ im_px out i j = im_px im a b.
Proof. exact rotate_align. Qed.
Example C108_nonvacuous : square_image (Img 3 3 (fun i j => IZR (i + 3 * j))) (2 * 1 + 1) /\
  regular_dir (pixel2ray rot_view 3 (0, 3 / 2)).
Proof. split; [unfold square_image; cbn; lia | rewrite left_ray; exact regular_left]. Qed.
Print Assumptions C108_centre.
Print Assumptions C108_align.

(** C109: rotate_first is meant to choose the order of rotating and centering. With quarter turns and
    the nearest method, where the pixels are moved exactly, both values give the same image ... *)
Theorem C109_order_refuted : forall im n center, square_image im n ->
  exists a b, array_rotate im 90 center true None true = Ok a /\ array_rotate im 90 center false None true = Ok b /\ same_image a b.
Proof. exact order_irrelevant. Qed.
(** ... which is that of centering first ... *)
Theorem C109_centre_first : forall im n center, square_image im n ->
  exists a b, array_rotate im 90 center true None true = Ok a /\
    bind (array_rotate im 0 center true None true) (fun m => array_rotate m 90 NoCenter true None true) = Ok b /\ same_image a b.
Proof. exact centre_first. Qed.
(** ... and not that of rotating first *)
Theorem C109_rotate_first_refuted : exists im c a b, square_image im 3 /\
  array_rotate im 90 (Center2 c) true None true = Ok a /\
  bind (array_rotate im 90 NoCenter true None true) (fun m => array_rotate m 0 (Center2 c) true None true) = Ok b /\
  ~ same_image a b.
Proof. exact order_witness. Qed.
Example C109_nonvacuous : square_image (Img 3 3 (fun i j => IZR (i + 3 * j))) 3.
Proof. unfold square_image; cbn; lia. Qed.
Print Assumptions C109_order_refuted.
Print Assumptions C109_centre_first.
Print Assumptions C109_rotate_first_refuted.
