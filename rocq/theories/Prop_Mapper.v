(** Property theorems for raytools/mapper and the reprojections built on it: C19 - C31, C76 - C81 *)
From Coq Require Import Lra Lia.
From Verif Require Import Base L_Base M_Translate S_Translate M_Mapper S_Mapper L_Angles L_Mapper L_Solid L_Draw.
From Verif Require L_Convert3.
Local Open Scope R_scope.

(** a generic view used to show that hypotheses can be met *)
Example regular_example : regular_dir (V3 0 1 0) /\ regular_dir (vopp (V3 0 1 0)) /\ hemi_angle 110.
Proof.
  destruct regular_y as [A B]. split; [exact A|]. split; [|unfold hemi_angle; lra].
  replace (vopp (V3 0 1 0)) with (V3 0 (-1) 0); [exact B|]. unfold vopp; simpl. rewrite Ropp_0. reflexivity.
Qed.

(** C19 *)
Theorem C19_view_world_inverse : forall d viewangle x,
  view2world (mk_view d viewangle) (world2view (mk_view d viewangle) x) = x /\
  world2view (mk_view d viewangle) (view2world (mk_view d viewangle) x) = x.
Proof. exact (fun d va x => conj (v2w_w2v d va x) (w2v_v2w d va x)). Qed.
Theorem C19_view_world_rigid : forall d viewangle x y,
  dot (world2view (mk_view d viewangle) x) (world2view (mk_view d viewangle) y) = dot x y /\
  dot (view2world (mk_view d viewangle) x) (view2world (mk_view d viewangle) y) = dot x y.
Proof. exact (fun d va x y => conj (w2v_dot d va x y) (v2w_dot d va x y)). Qed.
Theorem C19_view_direction_to_z_partial : forall d viewangle, regular_dir d ->
  world2view (mk_view d viewangle) (vm_dxyz (mk_view d viewangle)) = V3 0 0 1.
Proof. exact w2v_dir. Qed.
Theorem C19_view_direction_near_z : forall d viewangle, d <> vzero ->
  1 - / 10 ^ 7 <= vz (world2view (mk_view d viewangle) (norm d)).
Proof. exact view_dir_near. Qed.
(** missing from _partial: exactly near the poles the direction is only approximately mapped *)
Theorem C19_view_direction_to_z_refuted : exists d, dot d d = 1 /\
  forall viewangle, world2view (mk_view d viewangle) d <> V3 0 0 1.
Proof. exact view_dir_refuted. Qed.
Print Assumptions C19_view_world_inverse.
Print Assumptions C19_view_world_rigid.
Print Assumptions C19_view_direction_to_z_partial.
Print Assumptions C19_view_direction_near_z.
Print Assumptions C19_view_direction_to_z_refuted.

(** C20 *)
Theorem C20_uv2xyz_unit : forall d viewangle uv,
  (hemi_angle viewangle /\ in_unit_square uv) \/ (viewangle = 360 /\ in_dsquare uv) ->
  vnorm (vm_uv2xyz (mk_view d viewangle) uv) = 1.
Proof. exact vm_uv2xyz_unit. Qed.
Theorem C20_uv_roundtrip : forall d viewangle uv, hemi_angle viewangle -> in_unit_square uv ->
  vm_xyz2uv (mk_view d viewangle) (vm_uv2xyz (mk_view d viewangle) uv) = uv.
Proof. exact vm_uv_roundtrip. Qed.
Theorem C20_uv_roundtrip_360 : forall d u v,
  (0 <= u <= 1 /\ 0 <= v <= 1) \/ (1 < u < 2 /\ 0 < v < 1) ->
  vm_xyz2uv (mk_view d 360) (vm_uv2xyz (mk_view d 360) (u, v)) = (u, v).
Proof. exact vm_uv_roundtrip_360. Qed.
Theorem C20_xyz_roundtrip : forall d viewangle w, hemi_angle viewangle \/ viewangle = 360 -> dot w w = 1 ->
  vm_uv2xyz (mk_view d viewangle) (vm_xyz2uv (mk_view d viewangle) w) = w.
Proof. exact vm_xyz_roundtrip. Qed.
Theorem C20_center_is_view_direction : forall d viewangle, hemi_angle viewangle -> regular_dir d ->
  vm_uv2xyz (mk_view d viewangle) (1 / 2, 1 / 2) = norm d.
Proof. exact vm_uv_center. Qed.
Example C20_nonvacuous : hemi_angle 110 /\ in_unit_square (1 / 3, 3 / 4) /\ in_dsquare (3 / 2, 1 / 4) /\ dot (V3 (2 / 7) (3 / 7) (6 / 7)) (V3 (2 / 7) (3 / 7) (6 / 7)) = 1.
Proof. unfold hemi_angle, in_unit_square, in_dsquare, dot; simpl. lra. Qed.
Print Assumptions C20_uv2xyz_unit.
Print Assumptions C20_uv_roundtrip.
Print Assumptions C20_uv_roundtrip_360.
Print Assumptions C20_xyz_roundtrip.
Print Assumptions C20_center_is_view_direction.

(** C21 *)
Theorem C21_pixel2ray_unit : forall d viewangle res p, vnorm (pixel2ray (mk_view d viewangle) res p) = 1.
Proof. exact (fun d va res p => vxy2xyz_unit d va _). Qed.
Theorem C21_pixel_roundtrip : forall d viewangle res p, hemi_angle viewangle -> (0 < res)%Z ->
  0 <= fst p <= IZR res -> 0 <= snd p <= IZR res ->
  ray2pixelf (mk_view d viewangle) res (pixel2ray (mk_view d viewangle) res p) = p.
Proof. exact pixel_roundtripf. Qed.
Theorem C21_pixelrays_roundtrip : forall d viewangle res, hemi_angle viewangle ->
  map (ray2pixel (mk_view d viewangle) res) (pixelrays (mk_view d viewangle) res) = zgrid res res.
Proof. exact pixelrays_roundtrip. Qed.
Theorem C21_ray_roundtrip : forall d viewangle v, regular_dir d -> hemi_angle viewangle -> dot v v = 1 ->
  in_view (mk_view d viewangle) 0 v = true ->
  vxy2xyz (mk_view d viewangle) (xyz2vxy (mk_view d viewangle) v) = v.
Proof. exact xyz_vxy. Qed.
Example C21_nonvacuous : hemi_angle 60 /\ (0 < 7)%Z /\ 0 <= 13 / 2 <= IZR 7 /\ length (zgrid 7 7) = 49%nat /\
  in_view (mk_view (V3 0 1 0) 60) 0 (V3 0 1 0) = true.
Proof.
  split; [unfold hemi_angle; lra|]. split; [lia|]. split; [lra|]. split; [reflexivity|].
  apply in_view_complete.
  - apply regular_nonzero, regular_y.
  - unfold dot; simpl; ring.
  - unfold hemi_angle; lra.
  - rewrite norm_unit_id by (unfold dot; simpl; ring). unfold angle, dot, half; simpl.
    replace (0 * 0 + 1 * 1 + 0 * 0) with 1 by ring. rewrite acos_1. pose proof PI_RGT_0. lra.
Qed.
Print Assumptions C21_pixel2ray_unit.
Print Assumptions C21_pixel_roundtrip.
Print Assumptions C21_pixelrays_roundtrip.
Print Assumptions C21_ray_roundtrip.

(** C22 *)
Theorem C22_in_view_sound_partial : forall d viewangle v, d <> vzero -> dot v v = 1 -> hemi_angle viewangle ->
  in_view (mk_view d viewangle) 0 v = true -> angle (norm d) v < viewangle * PI / 360.
Proof. exact in_view_sound. Qed.
Theorem C22_in_view_complete_partial : forall d viewangle v, d <> vzero -> dot v v = 1 -> hemi_angle viewangle ->
  angle (norm d) v < 89 / 100 * (viewangle * PI / 360) -> in_view (mk_view d viewangle) 0 v = true.
Proof. exact in_view_complete. Qed.
Theorem C22_in_view_180 : forall d viewangle v, d <> vzero -> dot v v = 1 -> viewangle = 180 \/ viewangle = 360 ->
  in_view (mk_view d viewangle) 0 v = true <-> 0 < dot (norm d) v.
Proof. exact in_view_180. Qed.
(** the cone that is reported in view, exactly *)
Theorem C22_in_view_exact : forall d viewangle tol v, d <> vzero -> dot v v = 1 -> hemi_angle viewangle ->
  let h := viewangle * PI / 360 in
  in_view (mk_view d viewangle) tol v = true <-> angle (norm d) v - tol < sqrt 2 * h * h / (PI * sin (h / 2)).
Proof. exact L_Convert3.in_view_exact. Qed.
(** for every view below 180 degrees some direction within viewangle/2 is reported out of view *)
Theorem C22_in_view_complete_refuted : forall d viewangle, d <> vzero -> hemi_angle viewangle -> viewangle < 180 ->
  exists v, dot v v = 1 /\ angle (norm d) v < viewangle * PI / 360 /\ in_view (mk_view d viewangle) 0 v = false.
Proof. exact in_view_misses. Qed.
Print Assumptions C22_in_view_sound_partial.
Print Assumptions C22_in_view_complete_partial.
Print Assumptions C22_in_view_180.
Print Assumptions C22_in_view_exact.
Print Assumptions C22_in_view_complete_refuted.

(** C23 *)
Theorem C23_front_half : forall d v, regular_dir d -> dot v v = 1 -> 0 < dot (norm d) v ->
  let p := xyz2vxy (mk_view d 360) v in 0 < fst p < 1 /\ 0 < snd p < 1 /\ pdist p center < 1 / 2.
Proof. exact view360_front. Qed.
Theorem C23_back_half : forall d v, d <> vzero -> regular_dir (vopp d) -> dot v v = 1 -> dot (norm d) v <= 0 ->
  let p := xyz2vxy (mk_view d 360) v in 1 <= fst p <= 2 /\ 0 <= snd p <= 1 /\ pdist p (3 / 2, 1 / 2) <= 1 / 2.
Proof. exact view360_back. Qed.
Theorem C23_pixelrays_two_halves : forall d res, d <> vzero ->
  pixelrays (mk_view d 360) res = pixelrays (mk_view d 180) res ++ pixelrays (mk_view (vopp d) 180) res.
Proof. exact pixelrays_360. Qed.
Theorem C23_roundtrip_front : forall d xy, regular_dir d -> in_unit_square xy -> pdist xy center < 1 / 2 ->
  xyz2vxy (mk_view d 360) (vxy2xyz (mk_view d 180) xy) = xy.
Proof. exact view360_roundtrip_front. Qed.
Theorem C23_roundtrip_back : forall d xy, d <> vzero -> regular_dir (vopp d) -> in_unit_square xy -> pdist xy center <= 1 / 2 ->
  xyz2vxy (mk_view d 360) (vxy2xyz (mk_view (vopp d) 180) xy) = (fst xy + 1, snd xy).
Proof. exact view360_roundtrip_back. Qed.
Example C23_nonvacuous : dot (norm (V3 0 1 0)) (V3 0 (3 / 5) (4 / 5)) = 3 / 5 /\ in_unit_square (3 / 4, 1 / 2) /\ pdist (3 / 4, 1 / 2) center < 1 / 2.
Proof.
  split; [rewrite norm_unit_id by (unfold dot; simpl; ring); unfold dot; simpl; field|].
  split; [unfold in_unit_square; simpl; lra|]. unfold pdist, center; simpl.
  replace ((3 / 4 - 1 / 2) * (3 / 4 - 1 / 2) + (1 / 2 - 1 / 2) * (1 / 2 - 1 / 2)) with (1 / 4 * (1 / 4)) by field. rewrite sqrt_square; lra.
Qed.
Print Assumptions C23_front_half.
Print Assumptions C23_back_half.
Print Assumptions C23_pixelrays_two_halves.
Print Assumptions C23_roundtrip_front.
Print Assumptions C23_roundtrip_back.

(** C24 *)
Theorem C24_solid_roundtrip : forall d viewangle p, hemi_angle viewangle -> pdist p center <= 1 / 2 ->
  pdist (solid_xyz2vxy (mk_view d viewangle) (solid_vxy2xyz (mk_view d viewangle) p)) p
  <= 2 * sqrt 2 * / 10 ^ 9 / (viewangle * PI / 180).
Proof. exact (fun d va p H => solid_roundtrip d va H p). Qed.
Theorem C24_solid_view_angle : forall d viewangle, 180 < viewangle -> mk_solid d viewangle = Raise ValueError.
Proof. exact solid_view_angle. Qed.
Example C24_nonvacuous : hemi_angle 120 /\ pdist (7 / 10, 1 / 2) center <= 1 / 2.
Proof.
  split; [unfold hemi_angle; lra|]. unfold pdist, center; simpl.
  replace ((7 / 10 - 1 / 2) * (7 / 10 - 1 / 2) + (1 / 2 - 1 / 2) * (1 / 2 - 1 / 2)) with (1 / 5 * (1 / 5)) by field. rewrite sqrt_square; lra.
Qed.
Print Assumptions C24_solid_roundtrip.
Print Assumptions C24_solid_view_angle.

(** C25: the projection of PerspectiveViewMapper is a copy of the equisolid one *)
Theorem C25_perspective_is_tan_refuted : forall d, regular_dir d ->
  exists v1 v2, dot v1 v1 = 1 /\ dot v2 v2 = 1 /\
    angle (norm d) v1 = PI / 6 /\ angle (norm d) v2 = PI / 4 /\
    in_view (mk_view d 120) 0 v1 = true /\ in_view (mk_view d 120) 0 v2 = true /\
    pdist (solid_xyz2vxy (mk_view d 120) v2) center * tan (PI / 6) <
    pdist (solid_xyz2vxy (mk_view d 120) v1) center * tan (PI / 4).
Proof. exact perspective_not_tan. Qed.
Theorem C25_smaller_angle_ignored_refuted : forall d vv vh, vv <= vh -> mk_perspective d vv vh = mk_perspective d vh vh.
Proof. exact perspective_ignores_small. Qed.
Theorem C25_limit : forall d vv vh, 180 <= Rmax vh vv -> mk_perspective d vv vh = Raise ValueError.
Proof. exact perspective_limit. Qed.
Example C25_nonvacuous : mk_perspective (V3 0 1 0) 120 120 = Ok (mk_view (V3 0 1 0) 120).
Proof. unfold mk_perspective. rewrite Rmax_left by lra. unfold Rgeb. destruct (Rleb 180 120) eqn:E; [apply Rleb_true in E; lra|reflexivity]. Qed.
Print Assumptions C25_perspective_is_tan_refuted.
Print Assumptions C25_smaller_angle_ignored_refuted.
Print Assumptions C25_limit.

(** C26 *)
Theorem C26_mapper_uv_roundtrip : forall dxyz sf bbox aspect jitterrate uvz uv, fst sf <> 0 -> snd sf <> 0 ->
  let m := mk_mapper dxyz sf bbox aspect jitterrate uvz in m_xyz2uv m (m_uv2xyz m uv) = uv.
Proof. exact mapper_uv_roundtrip. Qed.
Theorem C26_mapper_xyz_roundtrip : forall dxyz sf bbox aspect jitterrate uvz v, fst sf <> 0 -> snd sf <> 0 ->
  let m := mk_mapper dxyz sf bbox aspect jitterrate uvz in m_uv2xyz m (m_xyz2uv m v) = V3 (vx v) (vy v) uvz.
Proof. exact mapper_xyz_roundtrip. Qed.
Example C26_nonvacuous : fst (2, -3) <> 0 /\ snd (2, -3) <> 0. Proof. simpl; lra. Qed.
Print Assumptions C26_mapper_uv_roundtrip.
Print Assumptions C26_mapper_xyz_roundtrip.

(** C27 *)
Theorem C27_idx_roundtrip : forall nx ny off i, (0 < nx)%Z -> (0 < ny)%Z -> (0 <= i < nx * ny)%Z ->
  0 <= fst off < 1 -> 0 <= snd off < 1 ->
  exists uv, idx2uv (nx, ny) off i = Ok uv /\ uv2idx (nx, ny) uv = i.
Proof. exact idx_roundtrip. Qed.
Theorem C27_jitter_offsets : forall jitter jitterrate off, 0 <= jitterrate <= 1 -> offset_ok jitter jitterrate off -> 0 <= off < 1.
Proof. exact offset_range. Qed.
Theorem C27_view_idx_square : forall n off i, (0 < n)%Z -> (0 <= i < n * n)%Z -> 0 <= fst off < 1 -> 0 <= snd off < 1 ->
  exists uv, vm_idx2uv (n, n) off i = Ok uv /\ uv2idx (n, n) uv = i.
Proof. exact (fun n off i N I O1 O2 => idx_roundtrip n n off i N N I O1 O2). Qed.
Theorem C27_view_idx_two_squares : forall n off i, (0 < n)%Z -> (0 <= i < 2 * n * n)%Z -> 0 <= fst off < 1 -> 0 <= snd off < 1 ->
  exists uv, vm_idx2uv (2 * n, n)%Z off i = Ok uv /\ uv2bin uv n = i.
Proof. exact vm_idx_uv2bin. Qed.
(** ViewMapper.idx2uv and Mapper.uv2idx disagree on every grid that is not square *)
Theorem C27_view_idx_roundtrip_refuted : exists off i, 0 <= fst off < 1 /\ 0 <= snd off < 1 /\ (0 <= i < 4 * 2)%Z /\
  exists uv, vm_idx2uv (4, 2)%Z off i = Ok uv /\ uv2idx (4, 2)%Z uv <> i.
Proof. exact vm_idx_fails. Qed.
Example C27_nonvacuous : (0 <= 5 < 3 * 2)%Z /\ offset_ok true (1 / 2) (3 / 10).
Proof. split; [lia|]. unfold offset_ok, Rgtb. destruct (Rltb 0 (1 / 2)) eqn:E; [simpl; lra|apply Rltb_false in E; lra]. Qed.
Print Assumptions C27_idx_roundtrip.
Print Assumptions C27_jitter_offsets.
Print Assumptions C27_view_idx_square.
Print Assumptions C27_view_idx_two_squares.
Print Assumptions C27_view_idx_roundtrip_refuted.

(** C28: pixel2ray mirrors the image horizontally, ray2pixel does not *)
Theorem C28_pixel_roundtrip_mirrored_partial : forall dxyz sf bbox aspect jitterrate uvz fs p,
  fst sf <> 0 -> snd sf <> 0 -> (0 < fst fs)%Z -> (0 < snd fs)%Z ->
  let m := mk_mapper dxyz sf bbox aspect jitterrate uvz in
  m_ray2pixelf m fs (m_pixel2ray m fs p) = (IZR (fst fs) - fst p, snd p).
Proof. exact mapper_pixel_mirrored. Qed.
Theorem C28_pixel_roundtrip_refuted : forall dxyz sf bbox aspect jitterrate uvz fs x y,
  fst sf <> 0 -> snd sf <> 0 -> (0 < fst fs)%Z -> (0 < snd fs)%Z ->
  let m := mk_mapper dxyz sf bbox aspect jitterrate uvz in
  m_ray2pixel m fs (m_pixel2ray m fs (IZR x + 1 / 2, IZR y + 1 / 2)) = (fst fs - 1 - x, y)%Z.
Proof. exact mapper_pixel_mirrored_int. Qed.
Print Assumptions C28_pixel_roundtrip_mirrored_partial.
Print Assumptions C28_pixel_roundtrip_refuted.

(** C29 *)
Theorem C29_pixel_centers : forall xres yres draw, exists f, m_pixels xres yres 0 draw = Ok f /\
  forall x y, f x y = (IZR x + 1 / 2, IZR y + 1 / 2).
Proof. exact pixels_nojitter. Qed.
Theorem C29_jitter_inside_partial : forall xres yres jitter draw f, 0 <= jitter <= 1 -> draw_ok jitter draw ->
  m_pixels xres yres jitter draw = Ok f ->
  forall x y, IZR x <= fst (f x y) < IZR x + 1 /\ IZR y <= snd (f x y) < IZR y + 1.
Proof. exact pixels_inside. Qed.
(** with jitter, every frame that is not 1 or 2 pixels wide raises ValueError *)
Theorem C29_jitter_refuted : forall xres yres jitter draw, 0 < jitter -> xres <> 1%Z -> xres <> 2%Z ->
  m_pixels xres yres jitter draw = Raise ValueError.
Proof. exact pixels_jitter_fails. Qed.
Example C29_nonvacuous : draw_ok (1 / 2) (fun _ _ => 1 / 3).
Proof. intros i j. lra. Qed.
Print Assumptions C29_pixel_centers.
Print Assumptions C29_jitter_inside_partial.
Print Assumptions C29_jitter_refuted.

(** C30 *)
Theorem C30_base_draw : forall A m (im : image A) vs c,
  exists im', m_add_vecs m im vs c = Ok im' /\
  paints im im' c (fun p => in_image im p /\ exists v, In v vs /\ m_ray2pixel m (im_nx im, im_ny im) v = p).
Proof. exact @base_draw. Qed.
Theorem C30_view_draw : forall A d viewangle (im : image A) vs c, hemi_angle viewangle ->
  exists im', add_vecs (mk_view d viewangle) im true None vs c = Ok im' /\
  paints im im' c (fun p => in_image im p /\ exists v, In v vs /\ ray2pixel (mk_view d viewangle) (im_ny im) v = p).
Proof. exact @view_draw. Qed.
Theorem C30_view_draw_360 : forall A d (im : image A) vs c, d <> vzero -> (forall v, In v vs -> dot v v = 1) ->
  exists im', add_vecs (mk_view d 360) im true None vs c = Ok im' /\
  paints im im' c (fun p => in_image im p /\ exists v, In v vs /\ ray2pixel (mk_view d 360) (im_ny im) v = p).
Proof. exact @view_draw_360. Qed.
Theorem C30_view_draw_mask : forall A d viewangle (im : image A) m vs c, hemi_angle viewangle ->
  (forall p, In p m -> in_image im p) ->
  exists im', add_vecs (mk_view d viewangle) im true (Some m) vs c = Ok im' /\
  paints im im' c (fun p => In p m /\ exists v, In v vs /\ ray2pixel (mk_view d viewangle) (im_ny im) v = p).
Proof. exact @view_draw_mask. Qed.
Theorem C30_view_draw_channels : forall A d viewangle vs, hemi_angle viewangle ->
  forall (ims : list (image A)) cs, (length ims <= length cs)%nat ->
  exists ims', add_vecs_channels (mk_view d viewangle) ims true None vs cs = Ok ims' /\ length ims' = length ims /\
  forall k im c, nth_error ims k = Some im -> nth_error cs k = Some c ->
    exists im', nth_error ims' k = Some im' /\
    match c with
    | None => im' = im
    | Some c => paints im im' c (fun p => in_image im p /\ exists v, In v vs /\ ray2pixel (mk_view d viewangle) (im_ny im) v = p)
    end.
Proof. exact (fun A d va vs H => view_draw_channels (mk_view d va) _ vs (fun im c => view_draw d va im vs c H)). Qed.
Theorem C30_square_draw_180 : forall A d (im : image A) vs c, regular_dir d -> (forall v, In v vs -> dot v v = 1) ->
  (0 < im_ny im)%Z -> im_nx im = im_ny im ->
  exists im', add_vecs (mk_view d 180) im false None vs c = Ok im' /\
  paints im im' c (fun p => exists v, In v vs /\ in_view (mk_view d 180) 0 v = true /\ uv2ij (vm_xyz2uv (mk_view d 180) v) (im_ny im) 2 = p).
Proof. exact @square_draw_180. Qed.
Theorem C30_square_draw_360 : forall A d (im : image A) vs c, (0 < im_ny im)%Z -> im_nx im = (2 * im_ny im)%Z ->
  exists im', add_vecs (mk_view d 360) im false None vs c = Ok im' /\
  paints im im' c (fun p => exists v, In v vs /\ uv2ij (vm_xyz2uv (mk_view d 360) v) (im_ny im) 2 = p).
Proof. exact @square_draw_360. Qed.
(** square projection (fisheye=False), view below 180 degrees: a vector that in_view accepts raises IndexError *)
Theorem C30_square_draw_refuted : forall A d viewangle (im : image A) c, regular_dir d -> hemi_angle viewangle -> viewangle < 180 ->
  (0 < im_nx im)%Z -> im_nx im = im_ny im ->
  exists v, dot v v = 1 /\ in_view (mk_view d viewangle) 0 v = true /\
  add_vecs (mk_view d viewangle) im false None [v] c = Raise IndexError.
Proof. exact @square_draw_fails. Qed.
Example C30_nonvacuous : exists im' : image Z,
  paints (Img 4 4 (fun _ _ => 0%Z)) im' 1%Z (fun p => p = (2, 3)%Z) /\ im_px im' 2 3 = 1%Z /\ im_px im' 3 2 = 0%Z.
Proof.
  exists (Img 4 4 (fun x y => if pair_eqb (x, y) (2, 3)%Z then 1%Z else 0%Z)). split; [|split; reflexivity].
  split; [reflexivity|]. split; [reflexivity|]. intros [x y]; cbn [im_px fst snd]. destruct (pair_eqb (x, y) (2, 3)%Z) eqn:E.
  - apply pair_eqb_eq in E. tauto.
  - split; intros H; [apply pair_eqb_eq in H; congruence|reflexivity].
Qed.
Print Assumptions C30_base_draw.
Print Assumptions C30_view_draw.
Print Assumptions C30_view_draw_360.
Print Assumptions C30_view_draw_mask.
Print Assumptions C30_view_draw_channels.
Print Assumptions C30_square_draw_180.
Print Assumptions C30_square_draw_360.
Print Assumptions C30_square_draw_refuted.

(** C31 *)
Theorem C31_ang2uv_in_range : forall A d viewangle (im : image A), regular_dir d -> hemi_angle viewangle ->
  (0 < im_ny im)%Z -> (im_ny im <= im_nx im)%Z ->
  let src b := let p := xyz2vxy (mk_view d viewangle) (vm_uv2xyz (mk_view d viewangle) (bin2uv b (im_ny im) (1 / 2))) in
               (Rfloor (fst p * IZR (im_ny im)), Rfloor (snd p * IZR (im_ny im))) in
  array_ang2uv (mk_view d viewangle) im = Ok (map (fun b => im_px im (fst (src b)) (snd (src b))) (zrange (im_ny im * im_ny im))) /\
  forall b, In b (zrange (im_ny im * im_ny im)) -> in_image im (src b).
Proof. exact @ang2uv_ok. Qed.
Theorem C31_ang2uv_360 : forall A d (im : image A), regular_dir d -> (0 < im_ny im)%Z ->
  array_ang2uv (mk_view d 360) im = array_ang2uv (mk_view d 180) im.
Proof. exact @ang2uv_360. Qed.
Theorem C31_uv2ang_square : forall A (z : A) (im : image A), (0 < im_ny im)%Z -> im_nx im = im_ny im ->
  let vm := mk_view (V3 0 1 0) 180 in
  array_uv2ang z im = Ok (map (fun v => if in_view vm 0 v
      then let p := uv2ij (vm_xyz2uv vm v) (im_ny im) 2 in im_px im (fst p) (snd p) else z) (pixelrays vm (im_ny im))) /\
  forall v, In v (pixelrays vm (im_ny im)) -> in_view vm 0 v = true -> in_image im (uv2ij (vm_xyz2uv vm v) (im_ny im) 2).
Proof. exact @uv2ang_square. Qed.
Theorem C31_uv2ang_two_squares : forall A (z : A) (im : image A), (0 < im_ny im)%Z -> im_nx im = (2 * im_ny im)%Z ->
  let vm := mk_view (V3 0 1 0) 360 in
  let a := mk_view (V3 0 1 0) 180 in
  let b := mk_view (V3 0 (-1) 0) 180 in
  let src v := let p := uv2ij (vm_xyz2uv vm v) (im_ny im) 2 in im_px im (fst p) (snd p) in
  array_uv2ang z im = Ok (map (fun v => if in_view a 0 v then src v else z) (pixelrays a (im_ny im)) ++
                          map (fun v => if in_view b 0 v then src v else z) (pixelrays b (im_ny im))) /\
  forall v, in_image im (uv2ij (vm_xyz2uv vm v) (im_ny im) 2).
Proof. exact @uv2ang_360. Qed.
(** every other shape is rejected *)
Theorem C31_uv2ang_other_shapes : forall A (z : A) (im : image A), (0 < im_ny im)%Z -> (0 < im_nx im)%Z ->
  im_nx im <> im_ny im -> im_nx im <> (2 * im_ny im)%Z -> array_uv2ang z im = Raise IndexError.
Proof. exact @uv2ang_other. Qed.
Example C31_nonvacuous : In 7%Z (zrange (4 * 4)) /\ im_nx (Img 8 4 (fun x _ : Z => x)) = (2 * im_ny (Img 8 4 (fun x _ : Z => x)))%Z.
Proof. split; [apply in_zrange; lia|reflexivity]. Qed.
Print Assumptions C31_ang2uv_in_range.
Print Assumptions C31_ang2uv_360.
Print Assumptions C31_uv2ang_square.
Print Assumptions C31_uv2ang_two_squares.
Print Assumptions C31_uv2ang_other_shapes.

(** C76: converting an equisolid fisheye image to an angular one and back *)
Theorem C76_solid2ang_radius : forall d xy, pdist xy center <= 1 / 2 ->
  let q := xyz2vxy (mk_view d 180) (solid_vxy2xyz (mk_view d 180) xy) in
  exists k, 0 <= k /\ q = (1 / 2 + (fst xy - 1 / 2) * k, 1 / 2 + (snd xy - 1 / 2) * k) /\
  - / 10 ^ 9 <= pdist q center - equisolid_radius (PI / 2) (PI * pdist xy center) <= 0.
Proof. exact solid2ang_radius. Qed.
Theorem C76_ang2solid_radius : forall d xy, pdist xy center <= 1 / 2 ->
  let q := solid_xyz2vxy (mk_view d 180) (vxy2xyz (mk_view d 180) xy) in
  exists k, 0 <= k /\ q = (1 / 2 + (fst xy - 1 / 2) * k, 1 / 2 + (snd xy - 1 / 2) * k) /\
  exists t, 0 <= t <= PI / 2 /\ equisolid_radius (PI / 2) t = pdist xy center /\
            - / 10 ^ 9 <= pdist q center - t / PI <= 0.
Proof. exact ang2solid_radius. Qed.
Print Assumptions C76_solid2ang_radius.
Print Assumptions C76_ang2solid_radius.

(** C77 *)
Theorem C77_solid_is_equisolid_refuted : forall d, regular_dir d ->
  exists v1 v2, dot v1 v1 = 1 /\ dot v2 v2 = 1 /\
    angle (norm d) v1 = PI / 6 /\ angle (norm d) v2 = PI / 3 /\
    pdist (solid_xyz2vxy (mk_view d 180) v1) center * sin (PI / 3 / 2) <
    pdist (solid_xyz2vxy (mk_view d 180) v2) center * sin (PI / 6 / 2).
Proof. exact solid_not_equisolid. Qed.
Print Assumptions C77_solid_is_equisolid_refuted.

(** C78 *)
Theorem C78_transform_reads_same_direction_partial : forall A (zero : A) d1 va1 d2 va2 interp (im : image A) i j,
  regular_dir d2 -> hemi_angle va2 -> (0 < im_ny im)%Z ->
  let self := mk_view d1 va1 in let other := mk_view d2 va2 in let res := im_ny im in
  let v := pixel2ray self res (IZR i + 1 / 2, IZR j + 1 / 2) in
  (in_view other 0 v = true ->
   exists q, pixel2ray other res q = v /\
     transform_to zero (pixel2ray self res) other (ray2pixelf other res) interp im i j = interp (im_px im) q) /\
  (in_view other 0 v = false ->
     transform_to zero (pixel2ray self res) other (ray2pixelf other res) interp im i j = zero).
Proof. exact @transform_reads. Qed.
(** the input is in the projection of other and the output in that of self, not the documented reverse *)
Theorem C78_transform_direction_refuted : forall interp d, linear_interp interp -> regular_dir d ->
  let self := mk_view d 180 in let other := mk_view d 90 in
  let im := Img 4 4 (fun i _ => IZR i) in
  exists i j, (0 <= i < 4)%Z /\ (0 <= j < 4)%Z /\
    in_view self 0 (pixel2ray other 4 (IZR i + 1 / 2, IZR j + 1 / 2)) = true /\
    in_view other 0 (pixel2ray self 4 (IZR i + 1 / 2, IZR j + 1 / 2)) = true /\
    transform_to 0 (pixel2ray self 4) other (ray2pixelf other 4) interp im i j <>
    interp (im_px im) (ray2pixelf self 4 (pixel2ray other 4 (IZR i + 1 / 2, IZR j + 1 / 2))).
Proof. exact transform_is_reversed. Qed.
Example C78_nonvacuous : exists interp, linear_interp interp.
Proof. exact linear_interp_exists. Qed.
Print Assumptions C78_transform_reads_same_direction_partial.
Print Assumptions C78_transform_direction_refuted.

(** C79 *)
Theorem C79_in_view_is_image_circle : forall d viewangle v, regular_dir d -> hemi_angle viewangle -> dot v v = 1 ->
  in_view (mk_view d viewangle) 0 v = true <-> pdist (xyz2vxy (mk_view d viewangle) v) center < 1 / 2.
Proof. exact in_view_circle. Qed.
Theorem C79_uv_square_in_view : forall d viewangle uv, regular_dir d -> hemi_angle viewangle ->
  (0 < fst uv < 1 /\ 0 < snd uv < 1) \/ (viewangle < 180 /\ in_unit_square uv) ->
  in_view (mk_view d viewangle) 0 (vm_uv2xyz (mk_view d viewangle) uv) = true.
Proof. exact uv_in_view. Qed.
Theorem C79_in_view_pixel_in_image : forall d viewangle res v, regular_dir d -> hemi_angle viewangle -> (0 < res)%Z ->
  dot v v = 1 -> in_view (mk_view d viewangle) 0 v = true ->
  (0 <= fst (ray2pixel (mk_view d viewangle) res v) < res)%Z /\ (0 <= snd (ray2pixel (mk_view d viewangle) res v) < res)%Z.
Proof. exact view_pixel_in. Qed.
Print Assumptions C79_in_view_is_image_circle.
Print Assumptions C79_uv_square_in_view.
Print Assumptions C79_in_view_pixel_in_image.

(** C80 *)
Theorem C80_value_independent_of_argument_kind : forall d viewangle k xys,
  fst (vxy2xyz_call (mk_view d viewangle) k xys) = map (vxy2xyz (mk_view d viewangle)) xys.
Proof. exact vxy_call_value. Qed.
Theorem C80_sequence_argument_kept_partial : forall d viewangle xys,
  snd (vxy2xyz_call (mk_view d viewangle) pysequence xys) = xys.
Proof. exact vxy_call_sequence. Qed.
Theorem C80_array_argument_kept_refuted : forall d viewangle,
  snd (vxy2xyz_call (mk_view d viewangle) ndarray [(1 / 2, 1 / 2)]) = [(0, 0)].
Proof. exact vxy_call_mutates. Qed.
Theorem C80_base_argument_kept_refuted : forall m, snd (m_vxy2xyz_call m [(1, 0)]) = [(0, 0)].
Proof. exact m_vxy_call_mutates. Qed.
Print Assumptions C80_value_independent_of_argument_kind.
Print Assumptions C80_sequence_argument_kept_partial.
Print Assumptions C80_array_argument_kept_refuted.
Print Assumptions C80_base_argument_kept_refuted.

(** C81 *)
Theorem C81_pixel_areas_sum_to_area : forall m res,
  let '(xres, yres) := m_framesize m res in (0 < xres)%Z -> (0 < yres)%Z ->
  m_pixel2omega m res * (IZR xres * IZR yres) = m_area m.
Proof. exact pixel_area. Qed.
Print Assumptions C81_pixel_areas_sum_to_area.
