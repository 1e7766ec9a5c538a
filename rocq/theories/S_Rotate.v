(** Specification vocabulary for Prop_Rotate.v *)
From Verif Require Import Base M_Mapper.
Local Open Scope R_scope.

(** the point (x, y) of an image of res x res pixels turned by ang degrees about the image centre *)
Definition turned (ang : R) (res : Z) (p : R * R) : R * R :=
  let c := cos (ang * PI / 180) in
  let s := sin (ang * PI / 180) in
  let u := fst p - IZR res / 2 in
  let v := snd p - IZR res / 2 in
  (IZR res / 2 + c * u + s * v, IZR res / 2 - s * u + c * v).

(** the centre of pixel (i, j) *)
Definition pixel_centre (i j : Z) : R * R := (IZR i + 1 / 2, IZR j + 1 / 2).

(** i and j address a pixel of an image with n x n pixels *)
Definition pixel_of (n i j : Z) : Prop := (0 <= i < n)%Z /\ (0 <= j < n)%Z.

(** images of the same size with the same pixels *)
Definition same_image {A} (a b : image A) : Prop :=
  im_nx a = im_nx b /\ im_ny a = im_ny b /\
  forall i j, (0 <= i < im_nx a)%Z -> (0 <= j < im_ny a)%Z -> im_px a i j = im_px b i j.

(** a square image of 2 x 2 pixels or more *)
Definition square_image {A} (a : image A) (n : Z) : Prop := im_nx a = n /\ im_ny a = n /\ (2 <= n)%Z.
(** the image with the same pixels turned by a quarter turn: pixel (i, j) comes from (j, n - 1 - i) *)
Definition quarter_turn {A} (a : image A) : image A :=
  Img (im_nx a) (im_ny a) (fun i j => im_px a j (im_ny a - 1 - i)%Z).
(** every pixel between lo and hi *)
Definition pixels_within (a : image R) (lo hi : R) : Prop :=
  forall i j, (0 <= i < im_nx a)%Z -> (0 <= j < im_ny a)%Z -> lo <= im_px a i j <= hi.
