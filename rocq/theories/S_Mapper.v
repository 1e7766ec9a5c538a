(** Specification vocabulary for the view mappers *)
From Verif Require Import Base M_Mapper S_Translate.
Local Open Scope R_scope.

(** angle between two unit vectors *)
Definition angle (a b : vec3) : R := acos (dot a b).

(** view directions for which the yaw/pitch construction is exact: on the z axis, or more
    than 1e-8 off it and more than 1e-10 + 1e-5*pi rad away from -z *)
Definition regular_dir (d : vec3) : Prop :=
  (vx d = 0 /\ vy d = 0 /\ vz d <> 0) \/
  (d <> vzero /\
   / 10 ^ 8 * vnorm d < Rmax (Rabs (vx d)) (Rabs (vy d)) /\
   acos (vz d / vnorm d) < PI - cap_bot).

(** view angles of one hemisphere or less, in degrees *)
Definition hemi_angle (va : R) : Prop := 0 < va <= 180.

(** a point of the unit square / of its inscribed circle *)
Definition in_unit_square (p : R * R) : Prop := 0 <= fst p <= 1 /\ 0 <= snd p <= 1.
Definition pdist (p q : R * R) : R :=
  sqrt ((fst p - fst q) * (fst p - fst q) + (snd p - snd q) * (snd p - snd q)).
Definition center : R * R := (1 / 2, 1 / 2).

(** true equisolid angle image radius: proportional to sin(t/2), for a view of
    half angle h that ends at 1/2 *)
Definition equisolid_radius (h t : R) : R := sin (t / 2) / (2 * sin (h / 2)).
(** perspective (gnomonic) image radius, ending at 1/2 for half angle h *)
Definition perspective_radius (h t : R) : R := tan t / (2 * tan h).

(** painting the pixels of a set in one colour, leaving all others alone *)
Definition in_image {A} (im : image A) (p : Z * Z) : Prop :=
  (0 <= fst p < im_nx im)%Z /\ (0 <= snd p < im_ny im)%Z.
Definition paints {A} (im im' : image A) (c : A) (P : Z * Z -> Prop) : Prop :=
  im_nx im' = im_nx im /\ im_ny im' = im_ny im /\
  forall p, (P p -> im_px im' (fst p) (snd p) = c) /\ (~ P p -> im_px im' (fst p) (snd p) = im_px im (fst p) (snd p)).

(** linear interpolation reproduces affine images, also outside the grid *)
Definition linear_interp (interp : (Z -> Z -> R) -> R * R -> R) : Prop :=
  forall im a b c, (forall i j, im i j = a * (IZR i + 1 / 2) + b * (IZR j + 1 / 2) + c) ->
  forall p, interp im p = a * fst p + b * snd p + c.
