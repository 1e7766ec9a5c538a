(** Specifications for the filters: the sum of an image, and its mirror images. *)
From Verif Require Import Base M_Mapper S_Data.
Local Open Scope R_scope.

Definition image_total (a : image R) : R := zsum (im_nx a) (fun i => zsum (im_ny a) (fun j => im_px a i j)).
Definition image_mean (a : image R) : R := image_total a / (IZR (im_nx a) * IZR (im_ny a)).
Definition image_between (lo hi : R) (a : image R) : Prop :=
  forall i j, (0 <= i < im_nx a)%Z -> (0 <= j < im_ny a)%Z -> lo <= im_px a i j <= hi.
(** the first axis, and the second axis, from the far end *)
Definition flip0 (a : image R) : image R := Img (im_nx a) (im_ny a) (fun i j => im_px a (im_nx a - 1 - i)%Z j).
Definition flip1 (a : image R) : image R := Img (im_nx a) (im_ny a) (fun i j => im_px a i (im_ny a - 1 - j)%Z).
(** x and y exchanged *)
Definition transposed (a : image R) : image R := Img (im_ny a) (im_nx a) (fun i j => im_px a j i).
