(** What C110 and C111 speak about *)
From Verif Require Import Base M_Translate M_Mapper S_Mapper S_Rotate.
Local Open Scope R_scope.

(** distance of the centre of pixel (i, j) from the image centre, in units of the image size *)
Definition image_radius (n i j : Z) : R := pdist ((IZR i + 1 / 2) / IZR n, (IZR j + 1 / 2) / IZR n) center.
(** the pixels have the values of the function g at their centres *)
Definition follows (g : R * R -> R) (im : image R) (n : Z) : Prop :=
  forall i j, pixel_of n i j -> im_px im i j = g (pixel_centre i j).
(** functions without curvature along x and y *)
Definition bilinear (g : R * R -> R) : Prop :=
  exists a b c d, forall p, g p = a + b * fst p + c * snd p + d * fst p * snd p.
(** the point k times as far from the image centre as pixel (i, j), in the same direction *)
Definition along (n i j : Z) (k : R) : R * R :=
  (IZR n / 2 + k * (IZR i + 1 / 2 - IZR n / 2), IZR n / 2 + k * (IZR j + 1 / 2 - IZR n / 2)).
(** a times the first plus b times the second image *)
Definition mix (a b : R) (x y : image R) : image R := Img (im_nx x) (im_ny x) (fun i j => a * im_px x i j + b * im_px y i j).
