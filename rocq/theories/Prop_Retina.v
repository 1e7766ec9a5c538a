(** Properties C66, C67 and C95: the eye's point spread and the retinal densities. *)
From Coq Require Import Lra.
From Verif Require Import Base BaseX M_Retina S_Retina L_Retina.
Local Open Scope R_scope.

(** C66: the point spread is 1 on the axis, one half at half the width, strictly decreasing and within (0,1] *)
Theorem C66_spread fwhm : 0 < fwhm ->
  hpsf fwhm 0 = 1 /\ hpsf fwhm (fwhm / 2) = 1 / 2 /\
  (forall x, 0 < hpsf fwhm x <= 1) /\ (forall x y, 0 <= x < y -> hpsf fwhm y < hpsf fwhm x).
Proof. exact (fun H => conj (proj1 (hpsf_peak fwhm H)) (conj (proj2 (hpsf_peak fwhm H)) (conj (fun x => hpsf_range fwhm x H) (fun x y => hpsf_decr fwhm x y H)))). Qed.
Print Assumptions C66_spread.

(** C66: the two functions are inverse to each other *)
Theorem C66_inverse fwhm : 0 < fwhm ->
  (forall x, 0 <= x -> inv_hpsf fwhm (hpsf fwhm x) = Fin x) /\
  (forall y, 0 < y <= 1 -> yields (fun x => 0 <= x /\ hpsf fwhm x = y) (inv_hpsf fwhm y)).
Proof. exact (fun H => conj (fun x => inv_left fwhm x H) (fun y => inv_right fwhm y H)). Qed.
Print Assumptions C66_inverse.

(** C66: the blur factor of a source with area is a number >= 1, equal to 1 exactly when the luminance does not
    exceed lmin *)
Theorem C66_blur fwhm lmin omega lmax : 0 < fwhm -> 0 < lmin -> 0 < omega ->
  yields (fun f => 1 <= f /\ (f = 1 <-> lmax <= lmin)) (blur_sun fwhm lmin omega lmax).
Proof. exact (blur_ge_1 fwhm lmin omega lmax). Qed.
Print Assumptions C66_blur.

(** C66: it grows with the luminance, and with the default width enlarges the radius by at most one degree *)
Theorem C66_monotone fwhm lmin omega l1 l2 : 0 < fwhm -> 0 < lmin -> 0 < omega -> l1 <= l2 ->
  exists f1 f2, blur_sun fwhm lmin omega l1 = Fin f1 /\ blur_sun fwhm lmin omega l2 = Fin f2 /\ f1 <= f2.
Proof. exact (blur_mono fwhm lmin omega l1 l2). Qed.
Print Assumptions C66_monotone.
Theorem C66_one_degree lmin omega lmax : 0 < lmin -> 0 < omega ->
  yields (fun f => f <= square (1 + 1 / (sqrt (omega / PI) * 180 / PI))) (blur_sun fwhm0 lmin omega lmax).
Proof. exact (blur_bound lmin omega lmax). Qed.
Print Assumptions C66_one_degree.

(** a source without solid angle has no finite factor: area and luminance times and over the factor are nan and 0 *)
Theorem C66_no_area_refuted fwhm lmin lmax : 0 < fwhm -> 0 < lmin -> lmin < lmax ->
  blur_sun fwhm lmin 0 lmax = PInf /\ xmul (Fin 0) PInf = NaN.
Proof. exact (fun H1 H2 H3 => conj (blur_zero fwhm lmin lmax H1 H2 H3) zero_times_inf). Qed.
Print Assumptions C66_no_area_refuted.

(** the hypotheses are met by the default width and threshold and the sun's solid angle *)
Example C66_example : 0 < fwhm0 /\ 0 < lmin0 /\ 0 < 0.00006 /\ lmin0 < 1000000000.
Proof. unfold fwhm0, lmin0. lra. Qed.

(** C67: both binocular densities are positive everywhere; the ganglion cell density is between 1 and 2375 *)
Theorem C67_positive xy : 0 < rgcf_density xy /\ 1 <= rgc_density xy <= 2375.
Proof. exact (conj (binocular_pos rgcf_density_on_meridian xy meridian_pos) (rgc_range xy)). Qed.
Print Assumptions C67_positive.

(** C67: the same to the left and to the right *)
Theorem C67_symmetric x y : rgcf_density (- x, y) = rgcf_density (x, y) /\ rgc_density (- x, y) = rgc_density (x, y).
Proof. exact (conj (binocular_sym rgcf_density_on_meridian x y) (binocular_sym rgc_density_on_meridian x y)). Qed.
Print Assumptions C67_symmetric.

(** C67: the field density falls with eccentricity along each meridian *)
Theorem C67_decreasing d1 d2 mi : 0 <= d1 < d2 -> rgcf_density_on_meridian d2 mi < rgcf_density_on_meridian d1 mi.
Proof. exact (meridian_decr d1 d2 mi). Qed.
Print Assumptions C67_decreasing.

(** C67: off the meridians the density lies between the values of the four meridians at that eccentricity *)
Theorem C67_between func x y : (forall r m, 0 <= r -> 0 < func r m) ->
  let r := sqrt (square x + square y) in
  Rmin (Rmin (func r 0%nat) (func r 1%nat)) (Rmin (func r 2%nat) (func r 3%nat)) <= rgcf_density_xy func (x, y) <=
  Rmax (Rmax (func r 0%nat) (func r 1%nat)) (Rmax (func r 2%nat) (func r 3%nat)).
Proof. exact (density_between func x y). Qed.
Print Assumptions C67_between.

(** C67: the quadrants do not use their own meridians: the sign of x decides both, so that above and below the
    horizon are the same *)
Theorem C67_quadrant_refuted : ~ uses_own_quadrant rgcf_density_xy.
Proof. exact quadrant_counter. Qed.
Print Assumptions C67_quadrant_refuted.
Theorem C67_quadrant_partial func x y : (forall r m, 0 <= r -> 0 < func r m) -> 0 < x * x + y * y ->
  let r := sqrt (x * x + y * y) in
  rgcf_density_xy func (x, y) =
    if Rlt_dec 0 x then (r * r) / (x * x / func r 0%nat + y * y / func r 1%nat)
    else (r * r) / (x * x / func r 2%nat + y * y / func r 3%nat).
Proof. exact (quadrant_actual func x y). Qed.
Print Assumptions C67_quadrant_partial.
Theorem C67_above_below_refuted func x y : rgcf_density_xy func (x, - y) = rgcf_density_xy func (x, y).
Proof. exact (density_updown func x y). Qed.
Print Assumptions C67_above_below_refuted.

Example C67_example : (forall r m, 0 <= r -> 0 < rgcf_density_on_meridian r m) /\ 0 < 3 * 3 + 4 * 4.
Proof. split; [exact meridian_pos|lra]. Qed.

(** C95: the meridians do not meet in one foveal density *)
Theorem C95_fovea_refuted : rgcf_density_on_meridian 0 2 < 32300 /\ 33000 < rgcf_density_on_meridian 0 3.
Proof. exact fovea_differs. Qed.
Print Assumptions C95_fovea_refuted.
