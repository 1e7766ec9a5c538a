(** Property theorems for raytools/translate.py: C01 - C18 *)
From Coq Require Import Lra Lia.
From Verif Require Import Base L_Base M_Translate S_Translate L_Concentric L_Bins L_Angles.
Local Open Scope R_scope.

(** C01 *)
Theorem C01_uv2xyz_unit : forall axes xsign uv,
  axes_ok axes -> xsign = 1 \/ xsign = -1 -> in_dsquare uv ->
  vnorm (uv2xyz axes xsign uv) = 1.
Proof. exact uv2xyz_unit. Qed.
Theorem C01_uv2xyz_hemisphere : forall axes xsign uv,
  axes_ok axes -> in_dsquare uv ->
  (fst uv <= 1 -> 0 <= vget (uv2xyz axes xsign uv) (snd axes)) /\
  (1 < fst uv -> vget (uv2xyz axes xsign uv) (snd axes) <= 0).
Proof. exact uv2xyz_hemisphere. Qed.
Example C01_nonvacuous : axes_ok (0, 2, 1)%nat /\ in_dsquare (3 / 2, 1 / 3).
Proof. unfold axes_ok, in_dsquare; simpl; split; [lia|lra]. Qed.
Print Assumptions C01_uv2xyz_unit.
Print Assumptions C01_uv2xyz_hemisphere.

(** C02 *)
Theorem C02_uv_roundtrip_flipped : forall u v,
  (0 <= u <= 1 /\ 0 <= v <= 1) \/ (1 < u < 2 /\ 0 < v < 1) ->
  xyz2uv false xyz_axes true (uv2xyz xyz_axes (-1) (u, v)) = (u, v).
Proof. exact uv_roundtrip_flip. Qed.
Theorem C02_uv_roundtrip_upper : forall u v,
  0 <= u <= 1 -> 0 <= v <= 1 ->
  xyz2uv false xyz_axes false (uv2xyz xyz_axes 1 (u, v)) = (u, v).
Proof. exact uv_roundtrip_upper. Qed.
Theorem C02_uv_roundtrip_lower_is_mirrored : forall u v,
  1 < u < 2 -> 0 < v < 1 ->
  xyz2uv false xyz_axes false (uv2xyz xyz_axes 1 (u, v)) = (3 - u, v).
Proof. exact uv_roundtrip_lower_mirrored. Qed.
Example C02_nonvacuous : (1 < 5 / 4 < 2 /\ 0 < 1 / 3 < 1).
Proof. lra. Qed.
Print Assumptions C02_uv_roundtrip_flipped.
Print Assumptions C02_uv_roundtrip_upper.
Print Assumptions C02_uv_roundtrip_lower_is_mirrored.

(** C03 *)
Theorem C03_xyz_roundtrip_flipped : forall w,
  vnorm w = 1 -> uv2xyz xyz_axes (-1) (xyz2uv false xyz_axes true w) = w.
Proof. exact xyz_roundtrip_flip. Qed.
Theorem C03_xyz_roundtrip_upper : forall w,
  vnorm w = 1 -> 0 <= vz w -> uv2xyz xyz_axes 1 (xyz2uv false xyz_axes false w) = w.
Proof. exact xyz_roundtrip_upper. Qed.
Theorem C03_xyz_roundtrip_lower_is_mirrored : forall w,
  vnorm w = 1 -> vz w < 0 ->
  uv2xyz xyz_axes 1 (xyz2uv false xyz_axes false w) = V3 (- vx w) (vy w) (vz w).
Proof. exact xyz_roundtrip_lower_mirrored. Qed.
Theorem C03_axes : forall axes flipu xsign w,
  axes_ok axes -> vnorm w = 1 ->
  (xsign = -1 /\ flipu = true) \/ (xsign = 1 /\ flipu = false /\ 0 <= vget w (snd axes)) ->
  uv2xyz axes xsign (xyz2uv false axes flipu w) = w.
Proof. exact xyz_roundtrip_axes. Qed.
Example C03_nonvacuous : vnorm (V3 (2 / 7) (3 / 7) (- (6 / 7))) = 1 /\ vnorm (V3 (2 / 7) (3 / 7) (6 / 7)) = 1.
Proof. split; apply vnorm_1; unfold dot; simpl; field. Qed.
Print Assumptions C03_xyz_roundtrip_flipped.
Print Assumptions C03_xyz_roundtrip_upper.
Print Assumptions C03_xyz_roundtrip_lower_is_mirrored.
Print Assumptions C03_axes.

(** C04 *)
Theorem C04_xyz2uv_range : forall flipu w,
  vnorm w = 1 ->
  let uv := xyz2uv false xyz_axes flipu w in
  (0 <= vz w -> 0 <= fst uv <= 1) /\ (vz w < 0 -> 1 < fst uv < 2) /\ 0 <= snd uv <= 1.
Proof. exact xyz2uv_range0. Qed.
Theorem C04_xyz2uv_normalize : forall axes flipu w,
  w <> vzero -> xyz2uv true axes flipu w = xyz2uv false axes flipu (norm w) /\ vnorm (norm w) = 1.
Proof. exact xyz2uv_normalize. Qed.
Print Assumptions C04_xyz2uv_range.
Print Assumptions C04_xyz2uv_normalize.

(** C05 *)
Theorem C05_uv2xy_radius : forall u v,
  u <= 1 ->
  let '(x, y) := uv2xy (u, v) in
  sqrt (x * x + y * y) = Rmax (Rabs (2 * u - 1)) (Rabs (2 * v - 1)).
Proof. exact uv2xy_radius. Qed.
Theorem C05_uv2xy_lifts_to_uv2xyz : forall u v,
  let '(x, y) := uv2xy (u, v) in
  let r2 := x * x + y * y in
  let n := if Rgtb u 1 then -1 else 1 in
  uv2xyz xyz_axes 1 (u, v) = V3 (x * sqrt (2 - r2)) (y * sqrt (2 - r2)) (n * (1 - r2)).
Proof. exact uv2xy_uv2xyz. Qed.
Print Assumptions C05_uv2xy_radius.
Print Assumptions C05_uv2xy_lifts_to_uv2xyz.

(** C06 *)
Theorem C06_uv2ij_range : forall uv side aspect,
  (0 < side)%Z ->
  let '(i, j) := uv2ij uv side aspect in
  (0 <= i < (if Z.eqb aspect 2 then 2 * side else side))%Z /\ (0 <= j < side)%Z.
Proof. exact uv2ij_range. Qed.
Theorem C06_uv2bin_range : forall uv side,
  (0 < side)%Z -> (0 <= uv2bin uv side < 2 * side * side)%Z.
Proof. exact uv2bin_range. Qed.
Print Assumptions C06_uv2ij_range.
Print Assumptions C06_uv2bin_range.

(** C07 *)
Theorem C07_bin_roundtrip : forall b side offset,
  (0 < side)%Z -> (0 <= b < 2 * side * side)%Z -> 0 <= offset < 1 ->
  uv2bin (bin2uv b side offset) side = b.
Proof. exact bin_roundtrip. Qed.
Theorem C07_bin2uv_injective : forall b c side offset,
  (0 < side)%Z -> (0 <= b < 2 * side * side)%Z -> (0 <= c < 2 * side * side)%Z -> 0 <= offset < 1 ->
  bin2uv b side offset = bin2uv c side offset -> b = c.
Proof. exact bin2uv_injective. Qed.
Example C07_nonvacuous : (0 <= 150 < 2 * 10 * 10)%Z /\ 0 <= 1 / 2 < 1.
Proof. split; [lia|lra]. Qed.
Print Assumptions C07_bin_roundtrip.
Print Assumptions C07_bin2uv_injective.

(** C08 *)
Theorem C08_bin_is_cell : forall u v side b,
  (0 < side)%Z -> 0 <= u < 2 -> 0 <= v < 1 ->
  uv2bin (u, v) side = b <->
  (let '(u0, v0) := bin2uv b side 0 in
   u0 <= u < u0 + 1 / IZR side /\ v0 <= v < v0 + 1 / IZR side).
Proof. exact uv2bin_cell. Qed.
Theorem C08_top_edge_wraps : forall u side, (0 < side)%Z -> uv2bin (u, 1) side = uv2bin (u, 0) side.
Proof. exact uv2bin_wrap. Qed.
Print Assumptions C08_bin_is_cell.
Print Assumptions C08_top_edge_wraps.

(** C09 *)
Theorem C09_skybin_roundtrip : forall b side,
  (0 < side)%Z -> (0 <= b < side * side)%Z -> xyz2skybin (skybin2xyz b side) side false = b.
Proof. exact skybin_roundtrip. Qed.
Theorem C09_skybin_below_horizon : forall b side,
  (0 < side)%Z -> (side * side <= b < 2 * side * side)%Z ->
  skybin2xyz b side = V3 0 0 (-1) /\ (side * side <= xyz2skybin (skybin2xyz b side) side false)%Z.
Proof. exact skybin_lower. Qed.
Print Assumptions C09_skybin_roundtrip.
Print Assumptions C09_skybin_below_horizon.

(** C10: full statement is false at and near the poles; what holds *)
Theorem C10_tp2xyz_unit : forall normalize tp, vnorm (tp2xyz normalize tp) = 1.
Proof. exact tp2xyz_unit. Qed.
Theorem C10_tp_roundtrip_partial : forall t p,
  cap_top < t -> t < PI - cap_bot -> 0 <= p < 2 * PI -> xyz2tp (tp2xyz true (t, p)) = (t, p).
Proof. exact tp_roundtrip. Qed.
Theorem C10_tp_roundtrip_in_caps : forall t p,
  0 < t < PI -> (t <= cap_top \/ PI - cap_bot <= t) -> xyz2tp (tp2xyz true (t, p)) = (t, PI).
Proof. exact tp_roundtrip_cap. Qed.
Theorem C10_xyz_roundtrip_partial : forall v,
  dot v v = 1 -> cap_top < acos (vz v) < PI - cap_bot -> tp2xyz true (xyz2tp v) = v.
Proof. exact xyz_tp_roundtrip. Qed.
Theorem C10_xyz_roundtrip_error : forall v,
  dot v v = 1 -> v <> V3 0 0 (-1) -> vnorm (vsub (tp2xyz true (xyz2tp v)) v) <= 2 * cap_bot.
Proof. exact xyz_tp_residual. Qed.
Theorem C10_xyz_roundtrip_refuted : exists v,
  vnorm v = 1 /\ tp2xyz true (xyz2tp v) = vopp v.
Proof. exact xyz_tp_nadir_opposite. Qed.
Theorem C10_tpnorm_range : forall tp, 0 <= fst (tpnorm tp) < PI /\ 0 <= snd (tpnorm tp) < 2 * PI.
Proof. exact tpnorm_range. Qed.
Example C10_nonvacuous : cap_top < 1 /\ 1 < PI - cap_bot /\ 0 <= 4 < 2 * PI.
Proof. pose proof caps_small; pose proof PI_gt_3; lra. Qed.
Print Assumptions C10_tp2xyz_unit.
Print Assumptions C10_tp_roundtrip_partial.
Print Assumptions C10_tp_roundtrip_in_caps.
Print Assumptions C10_xyz_roundtrip_partial.
Print Assumptions C10_xyz_roundtrip_error.
Print Assumptions C10_xyz_roundtrip_refuted.
Print Assumptions C10_tpnorm_range.

(** C11 *)
Theorem C11_aa2xyz_unit : forall aa, vnorm (aa2xyz aa) = 1.
Proof. exact aa2xyz_unit. Qed.
Theorem C11_aa_roundtrip_partial : forall alt az,
  -90 + aa_cap_bot < alt < 90 - aa_cap_top -> -90 < az <= 270 ->
  xyz2aa (aa2xyz (alt, az)) = (alt, az).
Proof. exact aa_roundtrip. Qed.
Theorem C11_aa_roundtrip_west : forall alt az,
  -90 + aa_cap_bot < alt < 90 - aa_cap_top -> -450 < az <= -90 ->
  xyz2aa (aa2xyz (alt, az)) = (alt, az + 360).
Proof. exact aa_roundtrip_west. Qed.
(** the documented azimuth range (-180, 180) is not preserved *)
Theorem C11_aa_roundtrip_refuted : exists alt az,
  -90 < alt < 90 /\ -180 < az < 180 /\ xyz2aa (aa2xyz (alt, az)) = (alt, az + 360).
Proof. exact aa_roundtrip_doc_refuted. Qed.
Theorem C11_xyz_aa_roundtrip_partial : forall v,
  dot v v = 1 -> cap_top < acos (vz v) < PI - cap_bot -> aa2xyz (xyz2aa v) = v.
Proof. exact xyz_aa_roundtrip. Qed.
Theorem C11_nadir_refuted : forall az, aa2xyz (-90, az) = V3 0 0 1.
Proof. exact aa2xyz_nadir. Qed.
Example C11_nonvacuous : -90 + aa_cap_bot < 45 < 90 - aa_cap_top.
Proof. exact aa_cap_example. Qed.
Print Assumptions C11_aa2xyz_unit.
Print Assumptions C11_aa_roundtrip_partial.
Print Assumptions C11_aa_roundtrip_west.
Print Assumptions C11_aa_roundtrip_refuted.
Print Assumptions C11_xyz_aa_roundtrip_partial.
Print Assumptions C11_nadir_refuted.

(** C12 *)
Theorem C12_theta_chord_theta : forall t, 0 <= t <= PI -> chord2theta (theta2chord t) = t.
Proof. exact chord_theta. Qed.
Theorem C12_chord_theta_chord : forall c, -2 <= c <= 2 -> theta2chord (chord2theta c) = c.
Proof. exact theta_chord. Qed.
Theorem C12_chord_is_distance : forall a b,
  dot a a = 1 -> dot b b = 1 -> theta2chord (radians a b) = vnorm (vsub a b).
Proof. exact chord_distance. Qed.
Print Assumptions C12_theta_chord_theta.
Print Assumptions C12_chord_theta_chord.
Print Assumptions C12_chord_is_distance.

(** C13 *)
Theorem C13_radians_range : forall a b, 0 <= radians a b <= PI.
Proof. exact radians_range. Qed.
Theorem C13_radians_symmetric : forall a b, radians a b = radians b a.
Proof. exact radians_sym. Qed.
Theorem C13_radians_zero : forall a b, dot a a = 1 -> dot b b = 1 -> radians a b = 0 <-> a = b.
Proof. exact radians_zero. Qed.
Theorem C13_radians_pi : forall a b, dot a a = 1 -> dot b b = 1 -> radians a b = PI <-> a = vopp b.
Proof. exact radians_pi. Qed.
Theorem C13_cosine : forall a b, dot a a = 1 -> dot b b = 1 -> cos (radians a b) = dot a b.
Proof. exact cos_radians_unit. Qed.
Theorem C13_degrees : forall a b,
  0 <= degrees a b <= 180 /\ degrees a b = radians a b * (180 / PI).
Proof. exact degrees_spec. Qed.
Print Assumptions C13_radians_range.
Print Assumptions C13_radians_symmetric.
Print Assumptions C13_radians_zero.
Print Assumptions C13_radians_pi.
Print Assumptions C13_cosine.
Print Assumptions C13_degrees.

(** C14 *)
Theorem C14_rmtx_yp_rotations : forall v, rotation (fst (rmtx_yp v)) /\ rotation (snd (rmtx_yp v)).
Proof. exact rmtx_yp_rotation. Qed.
Theorem C14_rmtx_yp_reversible : forall v w,
  yp_backward (rmtx_yp v) (yp_forward (rmtx_yp v) w) = w /\
  yp_forward (rmtx_yp v) (yp_backward (rmtx_yp v) w) = w.
Proof. exact rmtx_yp_reversible. Qed.
Theorem C14_rmtx_yp_maps_to_z : forall v,
  v <> vzero ->
  / 10 ^ 8 < Rmax (Rabs (vx (norm v))) (Rabs (vy (norm v))) ->
  acos (vz (norm v)) < PI - cap_bot ->
  yp_forward (rmtx_yp v) (norm v) = V3 0 0 1 /\
  vx (yp_forward (rmtx_yp v) (V3 0 0 1)) = 0 /\ 0 < vy (yp_forward (rmtx_yp v) (V3 0 0 1)).
Proof. exact rmtx_yp_exact. Qed.
Theorem C14_rmtx_yp_maps_near_z : forall v,
  v <> vzero -> 1 - / 10 ^ 7 <= vz (yp_forward (rmtx_yp v) (norm v)).
Proof. exact rmtx_yp_everywhere. Qed.
Theorem C14_rmtx_yp_z : forall k, 0 < k -> rmtx_yp (V3 0 0 k) = (mid, mid).
Proof. exact rmtx_yp_z. Qed.
Theorem C14_rmtx_yp_minus_z : forall k, 0 < k ->
  forall w, yp_forward (rmtx_yp (V3 0 0 (- k))) w = V3 (- vx w) (vy w) (- vz w).
Proof. exact rmtx_yp_negz_image. Qed.
(** inside the lower cap the image is not exactly z *)
Theorem C14_rmtx_yp_exact_everywhere_refuted :
  exists v, dot v v = 1 /\ yp_forward (rmtx_yp v) v <> V3 0 0 1.
Proof. exact rmtx_yp_nadir_refuted. Qed.
Example C14_nonvacuous : V3 1 0 0 <> vzero /\
  / 10 ^ 8 < Rmax (Rabs (vx (norm (V3 1 0 0)))) (Rabs (vy (norm (V3 1 0 0)))) /\
  acos (vz (norm (V3 1 0 0))) < PI - cap_bot.
Proof. exact rmtx_yp_example. Qed.
Print Assumptions C14_rmtx_yp_rotations.
Print Assumptions C14_rmtx_yp_reversible.
Print Assumptions C14_rmtx_yp_maps_to_z.
Print Assumptions C14_rmtx_yp_maps_near_z.
Print Assumptions C14_rmtx_yp_z.
Print Assumptions C14_rmtx_yp_minus_z.
Print Assumptions C14_rmtx_yp_exact_everywhere_refuted.

(** C15 *)
Theorem C15_rotation : forall t axis d, (0 <= axis <= 2)%Z -> rotation (rmtx_elem t axis d).
Proof. exact rmtx_elem_rotation. Qed.
Theorem C15_isometry : forall v w t axis d, (0 <= axis <= 2)%Z ->
  dot (rotate_elem v t axis d) (rotate_elem w t axis d) = dot v w.
Proof. exact rotate_elem_dot. Qed.
Theorem C15_additive : forall v s t axis d, (0 <= axis <= 2)%Z ->
  rotate_elem (rotate_elem v s axis d) t axis d = rotate_elem v (s + t) axis d.
Proof. exact rotate_elem_add. Qed.
Theorem C15_inverse : forall v t axis d, (0 <= axis <= 2)%Z ->
  rotate_elem (rotate_elem v t axis d) (- t) axis d = v.
Proof. exact rotate_elem_inverse. Qed.
Theorem C15_fixes_axis : forall t axis d k, (0 <= axis <= 2)%Z ->
  rotate_elem (vscale k (unit_axis axis)) t axis d = vscale k (unit_axis axis).
Proof. exact rotate_elem_axis. Qed.
Theorem C15_degrees : forall v t axis,
  rotate_elem v t axis true = rotate_elem v (t * PI / 180) axis false.
Proof. exact rotate_elem_degrees. Qed.
(** counter clockwise: a quarter turn about axis k takes axis k+1 to axis k+2 *)
Theorem C15_orientation : forall axis, (0 <= axis <= 2)%Z ->
  rotate_elem (unit_axis ((axis + 1) mod 3)) 90 axis true = unit_axis ((axis + 2) mod 3).
Proof. exact rotate_elem_orientation. Qed.
Print Assumptions C15_rotation.
Print Assumptions C15_isometry.
Print Assumptions C15_additive.
Print Assumptions C15_inverse.
Print Assumptions C15_fixes_axis.
Print Assumptions C15_degrees.
Print Assumptions C15_orientation.

(** C16 *)
Theorem C16_isometry : forall a b n, dot n n = 1 ->
  dot (fst (reflect1 a n)) (fst (reflect1 b n)) = dot a b.
Proof. exact reflect_dot. Qed.
Theorem C16_involution : forall a n, dot n n = 1 -> fst (reflect1 (fst (reflect1 a n)) n) = a.
Proof. exact reflect_invol. Qed.
Theorem C16_fixes_plane : forall a n, dot a n = 0 -> fst (reflect1 a n) = a.
Proof. exact reflect_perp. Qed.
Theorem C16_negates_normal : forall n, dot n n = 1 -> fst (reflect1 n n) = vopp n.
Proof. exact reflect_normal. Qed.
Theorem C16_valid : forall a n, dot n n = 1 -> dot a a = 1 -> snd (reflect1 a n) = true.
Proof. exact reflect_valid. Qed.
(** array level: entry (i, j) is the reflection of ray i in normal j *)
Theorem C16_all_pairs : forall rays normals i j ray normal,
  nth_error rays i = Some ray -> nth_error normals j = Some normal ->
  exists row, nth_error (reflect rays normals) i = Some row /\ nth_error row j = Some (reflect1 ray normal).
Proof. exact reflect_nth. Qed.
Theorem C16_masked_all : forall rays normals,
  (forall r, In r rays -> dot r r = 1) -> (forall n, In n normals -> dot n n = 1) ->
  reflect_masked rays normals = map fst (concat (reflect rays normals)).
Proof. exact reflect_masked_all. Qed.
Print Assumptions C16_isometry.
Print Assumptions C16_involution.
Print Assumptions C16_fixes_plane.
Print Assumptions C16_negates_normal.
Print Assumptions C16_valid.
Print Assumptions C16_all_pairs.
Print Assumptions C16_masked_all.

(** C17 *)
Theorem C17_norm_unit : forall v, v <> vzero -> vnorm (norm v) = 1.
Proof. exact norm_vnorm. Qed.
Theorem C17_norm_direction : forall v, v <> vzero -> 0 < vnorm v /\ v = vscale (vnorm v) (norm v).
Proof. exact norm_direction. Qed.
Theorem C17_norm_idempotent : forall v, v <> vzero -> norm (norm v) = norm v.
Proof. exact norm_idem. Qed.
Theorem C17_norm_scale : forall k v, 0 < k -> v <> vzero -> norm (vscale k v) = norm v.
Proof. exact norm_scale. Qed.
Theorem C17_norm1_nonzero : forall v, v <> vzero -> norm1 v = norm v.
Proof. exact norm1_nonzero. Qed.
Theorem C17_norm1_zero : norm1 vzero = vzero.
Proof. exact norm1_zero. Qed.
Example C17_nonvacuous : V3 0 3 4 <> vzero.
Proof. intros E; inversion E; lra. Qed.
Print Assumptions C17_norm_unit.
Print Assumptions C17_norm_direction.
Print Assumptions C17_norm_idempotent.
Print Assumptions C17_norm_scale.
Print Assumptions C17_norm1_nonzero.
Print Assumptions C17_norm1_zero.

(** C18 *)
Theorem C18_fisheye_radius : forall v x y,
  dot v v = 1 -> xyz2xy xyz_axes false v = (x, y) ->
  sqrt (x * x + y * y) = radians v (V3 0 0 1) / (PI / 2).
Proof. exact xyz2xy_radius. Qed.
Theorem C18_fisheye_azimuth : forall v x y,
  xyz2xy xyz_axes false v = (x, y) ->
  let h := sqrt (vx v * vx v + vy v * vy v) in
  let r := sqrt (x * x + y * y) in
  h * x = r * vx v /\ h * y = r * vy v.
Proof. exact xyz2xy_azimuth. Qed.
Theorem C18_flip_mirrors : forall axes v,
  xyz2xy axes true v = (- fst (xyz2xy axes false v), snd (xyz2xy axes false v)).
Proof. exact xyz2xy_flip. Qed.
Print Assumptions C18_fisheye_radius.
Print Assumptions C18_fisheye_azimuth.
Print Assumptions C18_flip_mirrors.
