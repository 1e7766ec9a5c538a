(** C136: what smoothing and resizing keep. Definitions in M_Ndimage, S_Ndimage, S_Gss and S_Data. *)
From Coq Require Import Lra Lia.
From Verif Require Import Base M_Translate M_Mapper M_Data S_Data M_Gss S_Gss M_Ndimage S_Ndimage L_Ndimage2 L_Ndimage3 L_Ndimage4 L_Ndimage5.
Local Open Scope R_scope.

(** the filters meet what the theorems about the score (C98, C99, C103) ask of them *)
Theorem C136_filters : filters_ok scipy_filters.
Proof. exact scipy_ok. Qed.
Print Assumptions C136_filters.

(** every size: enlarged by whole factors, the mean and the range stay, with and without smoothing *)
Theorem C136_up : forall a kx ky gauss radius,
  (0 < im_nx a)%Z -> (0 < im_ny a)%Z -> (1 <= kx)%Z -> (1 <= ky)%Z -> (1 < kx * ky)%Z ->
  let b := resample (gaussian_filter 4) a (Some (im_nx a * kx, im_ny a * ky)%Z) gauss radius in
  im_nx b = (im_nx a * kx)%Z /\ im_ny b = (im_ny a * ky)%Z /\ image_mean b = image_mean a /\ forall lo hi, image_between lo hi a -> image_between lo hi b.
Proof. exact up_mean. Qed.
Print Assumptions C136_up.
(** made smaller by whole factors *)
Theorem C136_down : forall a tx ty kx ky gauss radius,
  (0 < tx)%Z -> (0 < ty)%Z -> (1 <= kx)%Z -> (1 <= ky)%Z -> (1 < kx * ky)%Z -> im_nx a = (tx * kx)%Z -> im_ny a = (ty * ky)%Z ->
  let b := resample (gaussian_filter 4) a (Some (tx, ty)) gauss radius in
  im_nx b = tx /\ im_ny b = ty /\ image_mean b = image_mean a /\ forall lo hi, image_between lo hi a -> image_between lo hi b.
Proof. exact down_mean. Qed.
Print Assumptions C136_down.
(** of the same size: the range stays, and the mean with a Gaussian or a window of an odd number of values *)
Theorem C136_smooth_partial : forall a ts (gauss : bool) r,
  (0 < im_nx a)%Z -> (0 < im_ny a)%Z -> ts = None \/ ts = Some (im_nx a, im_ny a) -> (gauss = false -> 1 <= r) ->
  let b := resample (gaussian_filter 4) a ts gauss (Some r) in
  im_nx b = im_nx a /\ im_ny b = im_ny a /\ (forall lo hi, image_between lo hi a -> image_between lo hi b) /\
  (gauss = true \/ (exists k, (0 <= k)%Z /\ IZR (2 * k + 1) <= r < IZR (2 * k + 2)) -> image_mean b = image_mean a).
Proof. exact smooth_mean. Qed.
Print Assumptions C136_smooth_partial.
(** a window of two values: the image 0, 1 has the mean 1/2 before and 1/4 after *)
Theorem C136_even_refuted : let a := Img 2 1 (fun i _ => IZR i) in
  image_mean a = 1 / 2 /\ image_mean (resample (gaussian_filter 4) a None false (Some 2)) = 1 / 4.
Proof. exact even_moves. Qed.
Print Assumptions C136_even_refuted.

(** mirror images of the input give mirror images of the result, and exchanged axes exchanged axes *)
Theorem C136_mirror_up : forall a kx ky gauss radius,
  (0 < im_nx a)%Z -> (0 < im_ny a)%Z -> (1 <= kx)%Z -> (1 <= ky)%Z -> (1 < kx * ky)%Z ->
  let f b ts := resample (gaussian_filter 4) b (Some ts) gauss radius in let ts := (im_nx a * kx, im_ny a * ky)%Z in
  same_image (f (flip0 a) ts) (flip0 (f a ts)) /\ same_image (f (flip1 a) ts) (flip1 (f a ts)) /\
  same_image (f (transposed a) (im_ny a * ky, im_nx a * kx)%Z) (transposed (f a ts)).
Proof. exact up_mirror. Qed.
Print Assumptions C136_mirror_up.
Theorem C136_mirror_down : forall a tx ty kx ky gauss radius,
  (0 < tx)%Z -> (0 < ty)%Z -> (1 <= kx)%Z -> (1 <= ky)%Z -> (1 < kx * ky)%Z -> im_nx a = (tx * kx)%Z -> im_ny a = (ty * ky)%Z ->
  let f b ts := resample (gaussian_filter 4) b (Some ts) gauss radius in
  same_image (f (flip0 a) (tx, ty)) (flip0 (f a (tx, ty))) /\ same_image (f (flip1 a) (tx, ty)) (flip1 (f a (tx, ty))) /\
  same_image (f (transposed a) (ty, tx)) (transposed (f a (tx, ty))).
Proof. exact down_mirror. Qed.
Print Assumptions C136_mirror_down.
(** the Gaussian filter itself, for every width of each axis *)
Theorem C136_mirror_gauss : forall t s1 s2 a,
  same_image (gaussian_filter t (s1, s2) (flip0 a)) (flip0 (gaussian_filter t (s1, s2) a)) /\
  same_image (gaussian_filter t (s1, s2) (flip1 a)) (flip1 (gaussian_filter t (s1, s2) a)) /\
  same_image (gaussian_filter t (s1, s2) (transposed a)) (transposed (gaussian_filter t (s2, s1) a)).
Proof. exact (fun t s1 s2 a => conj (gaussian_flip0 t (s1, s2) a) (conj (gaussian_flip1 t (s1, s2) a) (gaussian_transposed t s1 s2 a))). Qed.
Print Assumptions C136_mirror_gauss.

(** a bright pixel away from the borders becomes a Gaussian spot of the radius r, cut off at 4 r *)
Theorem C136_spot : forall r L n m p q, 1e-15 < r -> IZR L <= 4 * r + 1 / 2 < IZR L + 1 ->
  (L <= p)%Z -> (p + L < n)%Z -> (L <= q)%Z -> (q + L < m)%Z ->
  let a := Img n m (fun i j => if ((i =? p) && (j =? q))%Z then 1 else 0) in
  let b := resample (gaussian_filter 4) a None true (Some r) in
  0 < im_px b p q /\
  forall i j, (0 <= i < n)%Z -> (0 <= j < m)%Z ->
    im_px b i j = if ((Z.abs (i - p) <=? L) && (Z.abs (j - q) <=? L))%Z
                  then exp (- (IZR (i - p) ^ 2 + IZR (j - q) ^ 2) / (2 * r ^ 2)) * im_px b p q else 0.
Proof. exact gauss_spot. Qed.
Print Assumptions C136_spot.
Example C136_spot_case : 1e-15 < 1 /\ IZR 4 <= 4 * 1 + 1 / 2 < IZR 4 + 1 /\ (4 <= 5)%Z /\ (5 + 4 < 10)%Z.
Proof. exact spot_case. Qed.

(** a convolution puts the kernel, its middle first, at a bright pixel *)
Theorem C136_kernel : forall n m p q k, (0 <= p < n)%Z -> (0 <= q < m)%Z -> (0 < im_nx k)%Z -> (0 < im_ny k)%Z ->
  (im_nx k - im_nx k / 2 - 1 <= p)%Z -> (p + im_nx k / 2 < n)%Z -> (im_ny k - im_ny k / 2 - 1 <= q)%Z -> (q + im_ny k / 2 < m)%Z ->
  let b := convolve (Img n m (fun i j => if ((i =? p) && (j =? q))%Z then 1 else 0)) k in
  forall i j, (0 <= i < n)%Z -> (0 <= j < m)%Z ->
    let x := (i - p + im_nx k / 2)%Z in let y := (j - q + im_ny k / 2)%Z in
    im_px b i j = if ((0 <=? x) && (x <? im_nx k) && ((0 <=? y) && (y <? im_ny k)))%Z then im_px k x y else 0.
Proof. exact conv_spot. Qed.
Print Assumptions C136_kernel.
Example C136_kernel_case : (0 <= 4 < 9)%Z /\ (0 < 5)%Z /\ (5 - 5 / 2 - 1 <= 4)%Z /\ (4 + 5 / 2 < 9)%Z.
Proof. cbn. lia. Qed.

(** the movement of the eye spreads the light on the retina and loses none of it *)
Theorem C136_light : forall f ppa e e_g e2, is_square e = true ->
  Rsum (apply_eye_movement_1 (flt_gauss scipy_filters) (flt_gauss_trunc scipy_filters) ppa e) = Rsum e /\
  (apply_eye_movement_2 (flt_gauss scipy_filters) f ppa e e_g = Ok e2 -> Rsum e2 = Rsum e).
Proof. exact (fun f ppa e e_g e2 H => conj (movement_1 ppa e H) (movement_2 f ppa e e_g e2 H)). Qed.
Print Assumptions C136_light.

Example C136_case : (0 < 3)%Z /\ (0 < 5)%Z /\ (1 <= 2)%Z /\ (1 <= 1)%Z /\ (1 < 2 * 1)%Z /\ is_square [1; 2; 3; 4] = true /\
  exists e2, apply_eye_movement_2 (flt_gauss scipy_filters) 17 1 [1; 2; 3; 4] 1 = Ok e2.
Proof. repeat split; try lia. exact movement_case. Qed.
(** the filter is not the identity: of the image 0, 1, 0, with a width of 1/4 and therefore three values, some light moves to the sides *)
Example C136_moves : 0 < im_px (gaussian_filter 4 (1 / 4, 0) (Img 3 1 (fun i _ => if (i =? 1)%Z then 1 else 0))) 0 0.
Proof. exact gaussian_moves. Qed.
