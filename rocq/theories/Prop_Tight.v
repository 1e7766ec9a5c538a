(** Properties C67, C81, C88 and C93: the ends of the density tables, the box of a mapper, and a blur tolerance
    above one. *)
From Coq Require Import Lra Lia.
From Verif Require Import Base M_Translate M_Mapper M_Io M_Peak S_Peak L_Peak3 M_Retina L_Tight.
Local Open Scope R_scope.

(** C67: beyond 88 degrees the density no longer changes; below the gaze it is the least density, one *)
Theorem C67_far deg : 88 <= deg ->
  rgc_density_on_meridian deg 0 = 10.732960056617229 /\ rgc_density_on_meridian deg 1 = 5.3828977637443405 /\
  rgc_density_on_meridian deg 2 = 8.62649206015602 /\ rgc_density_on_meridian deg 3 = 1.
Proof. exact (far_density deg). Qed.
Print Assumptions C67_far.
Example C67_far_example : 88 <= 90.
Proof. lra. Qed.

(** C88: without an aspect ratio the frame has the shape of the bounding box, up to the rounding of the shorter side *)
Theorem C88_box d sf x0 y0 x1 y1 j z res : x0 < x1 -> y0 < y1 -> (0 <= res)%Z ->
  let (x, y) := m_framesize (mk_mapper d sf ((x0, y0), (x1, y1)) None j z) res in
  (x1 - x0 <= y1 - y0 -> y = res /\ Rabs (IZR x - (x1 - x0) / (y1 - y0) * IZR res) <= 1 / 2) /\
  (y1 - y0 <= x1 - x0 -> x = res /\ Rabs (IZR y - (y1 - y0) / (x1 - x0) * IZR res) <= 1 / 2).
Proof. exact (box_frame d sf x0 y0 x1 y1 j z res). Qed.
Print Assumptions C88_box.

(** C81: the pixels of a mapper have the same area and share the area of the bounding box *)
Theorem C81_box d sf x0 y0 x1 y1 a j z res :
  let m := mk_mapper d sf ((x0, y0), (x1, y1)) a j z in
  let '(xres, yres) := m_framesize m res in (0 < xres)%Z -> (0 < yres)%Z ->
  m_pixel2omega m res * (IZR xres * IZR yres) = (x1 - x0) * (y1 - y0).
Proof. exact (box_area d sf x0 y0 x1 y1 a j z res). Qed.
Print Assumptions C81_box.
Example C81_box_example : 0 < 3 /\ 1 < 2 /\ (0 <= 100)%Z.
Proof. repeat split; try lra. lia. Qed.

(** C93: with a blur tolerance above one no ray counts as near the peak, the source is never complete, and without
    corrections it keeps the channels of a brightest ray *)
Theorem C93_tolerance_above_one order blur vlambda p rays :
  sorts_down order -> (forall a l, 0 < blur a l) -> args_ok p -> rays_ok vlambda p rays ->
  a_peakc p <= 1 -> a_blursun p = false -> 1 < a_blurtol p ->
  (exists i, (i < length rays)%nat /\ is_bright vlambda p (nth i rays dummy_pix)) ->
  exists kept peak top, normalize_peak order blur vlambda p false rays = Ok (kept ++ [peak]) /\
    In top rays /\ (forall r, In r rays -> rgb2rad vlambda (p_l r) <= rgb2rad vlambda (p_l top)) /\
    p_l peak = p_l top.
Proof. exact (normalize_intolerant order blur vlambda p rays). Qed.
Print Assumptions C93_tolerance_above_one.
Example C93_tolerance_example :
  let p := PeakArgs 1 PI 0 4 2 1 1 false in
  args_ok p /\ rays_ok vl3 p red_green /\ is_bright vl3 p (nth 0 red_green dummy_pix) /\ 1 < a_blurtol p.
Proof. intros p. refine (conj args1_ok (conj red_green_ok (conj red_bright _))). cbn. lra. Qed.
