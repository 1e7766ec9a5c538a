(** Proofs about the view mappers *)
From Coq Require Import Lra Lia Psatz.
From Verif Require Import Base L_Base L_Trig M_Translate S_Translate L_Concentric L_Bins L_Angles M_Mapper S_Mapper.
Local Open Scope R_scope.

(** * view construction *)
Definition half (va : R) : R := va * PI / 360.

Lemma va_not_360 va : hemi_angle va -> Reqb va 360 = false.
Proof. intros H; apply Reqb_false; unfold hemi_angle in H; lra. Qed.

Lemma mk_view_dxyz d va : d <> vzero -> vm_dxyz (mk_view d va) = norm d.
Proof. intros; unfold mk_view; cbn [vm_dxyz]; apply norm1_nonzero; auto. Qed.
Lemma mk_view_dxyz_unit d va : d <> vzero -> dot (vm_dxyz (mk_view d va)) (vm_dxyz (mk_view d va)) = 1.
Proof. intros; rewrite mk_view_dxyz by auto; apply norm_dot; auto. Qed.
Lemma mk_view_hemi_va d va : hemi_angle va -> vm_viewangle (mk_view d va) = va.
Proof. intros H; unfold mk_view; cbn [vm_viewangle]. rewrite va_not_360; auto. Qed.
Lemma mk_view_hemi_aspect d va : hemi_angle va -> vm_aspect (mk_view d va) = 1%Z.
Proof. intros H; unfold mk_view; cbn [vm_aspect]. rewrite va_not_360; auto. Qed.
Lemma eqb_360 : Reqb 360 360 = true. Proof. apply Reqb_true; auto. Qed.
Lemma mk_view_360 d : vm_viewangle (mk_view d 360) = 180 /\ vm_aspect (mk_view d 360) = 2%Z.
Proof. unfold mk_view; cbn [vm_viewangle vm_aspect]; rewrite eqb_360; auto. Qed.

Lemma view_inverse m v : rotation (fst m) -> rotation (snd m) ->
  view2world_m m (world2view_m m v) = v /\ world2view_m m (view2world_m m v) = v.
Proof. intros A B; apply (yp_forward_backward m v A B). Qed.
Lemma vm_rot d va : rotation (fst (vm_rmtx (mk_view d va))) /\ rotation (snd (vm_rmtx (mk_view d va))).
Proof. apply rmtx_yp_rotation. Qed.
Lemma v2w_w2v d va v : view2world (mk_view d va) (world2view (mk_view d va) v) = v.
Proof. apply view_inverse; apply vm_rot. Qed.
Lemma w2v_v2w d va v : world2view (mk_view d va) (view2world (mk_view d va) v) = v.
Proof. apply view_inverse; apply vm_rot. Qed.
Lemma w2v_dot d va v w : dot (world2view (mk_view d va) v) (world2view (mk_view d va) w) = dot v w.
Proof. apply yp_forward_dot; apply vm_rot. Qed.
Lemma v2w_dot d va v w : dot (view2world (mk_view d va) v) (view2world (mk_view d va) w) = dot v w.
Proof. rewrite <- (w2v_dot d va), !w2v_v2w. reflexivity. Qed.

Lemma regular_nonzero d : regular_dir d -> d <> vzero.
Proof. intros [[_ [_ H]]|[H _]]; auto. intros ->; apply H; reflexivity. Qed.

Lemma norm_z k : k <> 0 -> norm (V3 0 0 k) = V3 0 0 (k / Rabs k).
Proof.
  intros H. unfold norm, vnorm, dot. cbn [vx vy vz].
  replace (0 * 0 + 0 * 0 + k * k) with (Rsqr k) by (unfold Rsqr; ring). rewrite sqrt_Rsqr_abs.
  pose proof (Rabs_no_R0 _ H). apply vec3_ext; cbn [vx vy vz]; field; auto.
Qed.

Lemma w2v_dir d va : regular_dir d -> world2view (mk_view d va) (vm_dxyz (mk_view d va)) = V3 0 0 1.
Proof.
  intros H. pose proof (regular_nonzero d H) as N. rewrite mk_view_dxyz by auto.
  unfold world2view. unfold mk_view; cbn [vm_rmtx]. rewrite norm1_nonzero by auto.
  change (yp_forward (rmtx_yp (norm d)) (norm d) = V3 0 0 1).
  destruct H as [[Hx [Hy Hz]]|[_ [Hxy Hz]]].
  - assert (E : d = V3 0 0 (vz d)) by (apply vec3_ext; auto). rewrite E, norm_z by auto.
    destruct (Rtotal_order (vz d) 0) as [L|[C|G]]; [| contradiction |].
    + rewrite Rabs_left by auto. replace (vz d / - vz d) with (- (1)) by (field; auto).
      rewrite rmtx_yp_negz_image by lra. apply vec3_ext; cbn [vx vy vz]; ring.
    + rewrite Rabs_right by lra. replace (vz d / vz d) with 1 by (field; auto).
      rewrite rmtx_yp_z by lra. unfold yp_forward; cbn [fst snd]. rewrite !mmulv_id; auto.
  - pose proof (vnorm_pos d N) as P. assert (N2 : norm d <> vzero) by (apply unit_nonzero, norm_dot; auto).
    pose proof (rmtx_yp_exact (norm d) N2) as X. rewrite norm_idem in X by auto. apply X.
    + unfold norm; cbn [vx vy]. unfold Rdiv. rewrite !Rabs_mult, (Rabs_right (/ vnorm d)) by (left; apply Rinv_0_lt_compat; auto).
      rewrite !(Rmult_comm _ (/ vnorm d)), RmaxRmult by (left; apply Rinv_0_lt_compat; auto).
      unfold atol_default. apply Rmult_lt_reg_l with (vnorm d); [auto|].
      rewrite <- Rmult_assoc, Rinv_r by lra. lra.
    + exact Hz.
Qed.

(** the angle to the view direction is the polar angle in view space *)
Lemma w2v_z d va v : regular_dir d -> vz (world2view (mk_view d va) v) = dot (vm_dxyz (mk_view d va)) v.
Proof.
  intros H. rewrite <- (w2v_dot d va), w2v_dir by auto. unfold dot; cbn [vx vy vz]; ring.
Qed.
Lemma vm_radians_eq d va v : d <> vzero -> dot v v = 1 ->
  vm_radians (mk_view d va) v = acos (dot (vm_dxyz (mk_view d va)) v).
Proof.
  intros N H. unfold vm_radians. f_equal. apply ctheta_unit; auto. apply mk_view_dxyz_unit; auto.
Qed.

(** * chord factor *)
Lemma chordfactor_hemi d va : hemi_angle va ->
  vm_chordfactor (mk_view d va) = sqrt 2 * half va / (PI * sin (half va / 2)).
Proof.
  intros H. unfold mk_view; cbn [vm_chordfactor]. rewrite va_not_360 by auto. fold (half va).
  unfold theta2chord. replace (PI / 2 / 2) with (PI / 4) by field. rewrite sin_PI4'.
  pose proof PI_pos. assert (0 < half va) by (unfold half, hemi_angle in *; nra).
  assert (half va <= PI / 2) by (unfold half, hemi_angle in *; nra).
  assert (0 < sin (half va / 2)) by (apply sin_gt_0; lra). field. repeat split; lra.
Qed.
Lemma chordfactor_360 d : vm_chordfactor (mk_view d 360) = 1.
Proof.
  unfold mk_view; cbn [vm_chordfactor]. rewrite eqb_360. pose proof PI_pos.
  replace (180 * PI / 360) with (PI / 2) by field. unfold theta2chord.
  replace (PI / 2 / 2) with (PI / 4) by field. rewrite sin_PI4'. pose proof sqrt2_pos. field. split; lra.
Qed.
Lemma half_range va : hemi_angle va -> 0 < half va <= PI / 2.
Proof. pose proof PI_pos; unfold half, hemi_angle; intros; split; nra. Qed.

Lemma chordfactor_bounds d va : hemi_angle va ->
  89 / 100 <= sqrt 2 * 2 / PI /\ sqrt 2 * 2 / PI <= vm_chordfactor (mk_view d va) <= 1.
Proof.
  intros H. rewrite chordfactor_hemi by auto. pose proof (half_range va H) as B. set (h := half va) in *.
  pose proof PI_pos. pose proof sqrt2_pos. pose proof sqrt2_sqr.
  assert (S : 0 < sin (h / 2)) by (apply sin_gt_0; lra).
  split; [|split].
  - pose proof (PI_hi). 
    apply Rmult_le_reg_r with PI; [lra|]. replace (sqrt 2 * 2 / PI * PI) with (sqrt 2 * 2) by (field; lra).
    assert (1.4142 < sqrt 2) by nra. nra.
  - apply Rmult_le_reg_r with (PI * sin (h / 2)); [nra|].
    replace (sqrt 2 * h / (PI * sin (h / 2)) * (PI * sin (h / 2))) with (sqrt 2 * h) by (field; lra).
    replace (sqrt 2 * 2 / PI * (PI * sin (h / 2))) with (sqrt 2 * (2 * sin (h / 2))) by (field; lra).
    apply Rmult_le_compat_l; [lra|]. pose proof (sin_le_x (h / 2)). lra.
  - apply Rmult_le_reg_r with (PI * sin (h / 2)); [nra|].
    replace (sqrt 2 * h / (PI * sin (h / 2)) * (PI * sin (h / 2))) with (sqrt 2 * h) by (field; lra).
    pose proof (sin_chord_le (h / 2) (PI / 4)) as C. rewrite sin_PI4' in C.
    assert (h / 2 * (sqrt 2 / 2) <= PI / 4 * sin (h / 2)) by (apply C; lra). lra.
Qed.

Lemma chordfactor_lt1 d va : hemi_angle va -> va < 180 -> vm_chordfactor (mk_view d va) < 1.
Proof.
  intros H L. rewrite chordfactor_hemi by auto. pose proof (half_range va H) as B.
  assert (half va < PI / 2) by (unfold half; pose proof PI_pos; nra). set (h := half va) in *.
  pose proof PI_pos. pose proof sqrt2_pos.
  assert (S : 0 < sin (h / 2)) by (apply sin_gt_0; lra).
  apply Rmult_lt_reg_r with (PI * sin (h / 2)); [nra|].
  replace (sqrt 2 * h / (PI * sin (h / 2)) * (PI * sin (h / 2))) with (sqrt 2 * h) by (field; lra).
  pose proof (sin_chord (h / 2) (PI / 4)) as C. rewrite sin_PI4' in C.
  assert (h / 2 * (sqrt 2 / 2) < PI / 4 * sin (h / 2)) by (apply C; lra). lra.
Qed.
Lemma chordfactor_180 d : vm_chordfactor (mk_view d 180) = 1.
Proof.
  assert (H : hemi_angle 180) by (unfold hemi_angle; lra). rewrite chordfactor_hemi by auto.
  pose proof PI_pos. pose proof sqrt2_pos. unfold half. replace (180 * PI / 360 / 2) with (PI / 4) by field.
  rewrite sin_PI4'. field. lra.
Qed.

(** * field of view *)
Lemma in_view_angle d va tol v : d <> vzero -> dot v v = 1 ->
  in_view (mk_view d va) tol v = true <->
  angle (norm d) v - tol < vm_chordfactor (mk_view d va) * vm_viewangle (mk_view d va) * PI / 360.
Proof.
  intros N H. unfold in_view. rewrite Rltb_true, vm_radians_eq by auto.
  rewrite mk_view_dxyz by auto. reflexivity.
Qed.
Lemma in_view_sound d va v : d <> vzero -> dot v v = 1 -> hemi_angle va ->
  in_view (mk_view d va) 0 v = true -> angle (norm d) v < half va.
Proof.
  intros N H V. rewrite in_view_angle by auto. rewrite mk_view_hemi_va by auto.
  pose proof (chordfactor_bounds d va V). pose proof (half_range va V). unfold half in *. nra.
Qed.
Lemma in_view_complete d va v : d <> vzero -> dot v v = 1 -> hemi_angle va ->
  angle (norm d) v < 89 / 100 * half va -> in_view (mk_view d va) 0 v = true.
Proof.
  intros N H V L. rewrite in_view_angle by auto. rewrite mk_view_hemi_va by auto.
  pose proof (chordfactor_bounds d va V). pose proof (half_range va V). unfold half in *. nra.
Qed.
Lemma acos_half_pi x : -1 <= x <= 1 -> acos x < PI / 2 <-> 0 < x.
Proof.
  intros H. rewrite <- acos_0. split; intros L.
  - destruct (Rlt_le_dec 0 x) as [|C]; auto. exfalso. destruct C as [C|C].
    + pose proof (acos_decr x 0 ltac:(lra) ltac:(lra) C). lra.
    + rewrite C in L; lra.
  - apply acos_decr; lra.
Qed.
Lemma in_view_180 d va v : d <> vzero -> dot v v = 1 -> va = 180 \/ va = 360 ->
  in_view (mk_view d va) 0 v = true <-> 0 < dot (norm d) v.
Proof.
  intros N H V. rewrite in_view_angle by auto.
  assert (E : vm_chordfactor (mk_view d va) * vm_viewangle (mk_view d va) * PI / 360 = PI / 2).
  { destruct V as [-> | ->].
    - rewrite chordfactor_180, mk_view_hemi_va by (unfold hemi_angle; lra). field.
    - rewrite chordfactor_360. rewrite (proj1 (mk_view_360 d)). field. }
  rewrite E, Rminus_0_r. apply acos_half_pi. apply dot_unit_bound; auto. apply norm_dot; auto.
Qed.

(** a unit vector at any angle from a given one *)
Lemma perp_exists d : dot d d = 1 -> exists e, dot e e = 1 /\ dot d e = 0.
Proof.
  intros H. destruct (Req_EM_T (vx d * vx d + vy d * vy d) 0) as [E|E].
  - exists (V3 1 0 0). assert (vx d = 0) by nra. unfold dot; cbn [vx vy vz]. rewrite H0. split; ring.
  - set (s := sqrt (vx d * vx d + vy d * vy d)).
    assert (P : 0 < vx d * vx d + vy d * vy d) by nra.
    assert (S : s * s = vx d * vx d + vy d * vy d) by (apply sqrt_sqrt; lra).
    assert (0 < s) by (apply sqrt_lt_R0; auto).
    exists (V3 (vy d / s) (- vx d / s) 0). unfold dot; cbn [vx vy vz]. split; [|field; lra].
    replace (vy d / s * (vy d / s) + - vx d / s * (- vx d / s) + 0 * 0) with ((vx d * vx d + vy d * vy d) / (s * s)) by (field; lra).
    rewrite S. field. lra.
Qed.
Lemma direction_at d t : dot d d = 1 -> 0 <= t <= PI -> exists v, dot v v = 1 /\ angle d v = t.
Proof.
  intros H B. destruct (perp_exists d H) as [e [He Hd]].
  exists (vadd (vscale (cos t) d) (vscale (sin t) e)).
  assert (D : dot d (vadd (vscale (cos t) d) (vscale (sin t) e)) = cos t).
  { unfold dot, vadd, vscale in *; cbn [vx vy vz] in *.
    transitivity (cos t * (vx d * vx d + vy d * vy d + vz d * vz d) + sin t * (vx d * vx e + vy d * vy e + vz d * vz e)); [ring|].
    rewrite H, Hd; ring. }
  split.
  - transitivity (cos t * cos t * dot d d + 2 * (cos t * sin t) * dot d e + sin t * sin t * dot e e).
    + unfold dot, vadd, vscale; cbn [vx vy vz]; ring.
    + rewrite H, Hd, He. pose proof (sin2cos2 t). lra.
  - unfold angle. rewrite D. apply acos_cos; auto.
Qed.
Lemma in_view_misses d va : d <> vzero -> hemi_angle va -> va < 180 ->
  exists v, dot v v = 1 /\ angle (norm d) v < half va /\ in_view (mk_view d va) 0 v = false.
Proof.
  intros N V L. pose proof (half_range va V) as B. pose proof (chordfactor_bounds d va V) as C.
  pose proof (chordfactor_lt1 d va V L) as C1. set (cf := vm_chordfactor (mk_view d va)) in *.
  destruct (direction_at (norm d) (cf * half va) (norm_dot d N)) as [v [Hv Ha]]; [pose proof PI_pos; nra|].
  exists v. split; [auto|]. split; [rewrite Ha; nra|].
  apply Bool.not_true_is_false. rewrite in_view_angle, mk_view_hemi_va by auto. rewrite Ha.
  fold cf. unfold half. lra.
Qed.

(** * uv square of the view *)
Lemma vm_uv_hemi d va uv : hemi_angle va ->
  vm_uv2xyz (mk_view d va) uv = view2world (mk_view d va) (uv2xyz xyz_axes (-1)
    (1 / 2 + (fst uv - 1 / 2) * (va / 180), 1 / 2 + (snd uv - 1 / 2) * (va / 180))).
Proof.
  intros H. unfold vm_uv2xyz. f_equal. unfold mk_view; cbn [vm_bbox0 vm_sf]. rewrite va_not_360 by auto.
  f_equal. apply pair_eq; cbn [fst snd]; field.
Qed.
Lemma vm_uv_roundtrip d va uv : hemi_angle va -> in_unit_square uv ->
  vm_xyz2uv (mk_view d va) (vm_uv2xyz (mk_view d va) uv) = uv.
Proof.
  intros H U. unfold vm_xyz2uv. rewrite vm_uv_hemi, w2v_v2w by auto. unfold in_unit_square, hemi_angle in *.
  rewrite uv_roundtrip_flip by (left; split; nra).
  unfold mk_view; cbn [vm_bbox0 vm_sf]. rewrite va_not_360 by (unfold hemi_angle; lra). cbn [fst snd].
  destruct uv as [u v]. cbn [fst snd]. apply pair_eq; field; lra.
Qed.
Lemma vm_uv_roundtrip_360 d u v :
  (0 <= u <= 1 /\ 0 <= v <= 1) \/ (1 < u < 2 /\ 0 < v < 1) ->
  vm_xyz2uv (mk_view d 360) (vm_uv2xyz (mk_view d 360) (u, v)) = (u, v).
Proof.
  intros U. unfold vm_xyz2uv, vm_uv2xyz. rewrite w2v_v2w.
  unfold mk_view; cbn [vm_bbox0 vm_sf]. rewrite eqb_360. cbn [fst snd].
  replace (0 + u * 1) with u by ring. replace (0 + v * 1) with v by ring.
  rewrite uv_roundtrip_flip by auto. cbn [fst snd]. apply pair_eq; field.
Qed.
Lemma vm_xyz_roundtrip d va w : hemi_angle va \/ va = 360 -> dot w w = 1 ->
  vm_uv2xyz (mk_view d va) (vm_xyz2uv (mk_view d va) w) = w.
Proof.
  intros H W. unfold vm_uv2xyz, vm_xyz2uv. set (uv := xyz2uv false xyz_axes true (world2view (mk_view d va) w)).
  assert (E : forall s b x, s <> 0 -> b + (x - b) / s * s = x) by (intros; field; auto).
  assert (S : fst (vm_sf (mk_view d va)) <> 0 /\ snd (vm_sf (mk_view d va)) <> 0).
  { unfold mk_view; cbn [vm_sf]. destruct H as [H| ->]; [rewrite va_not_360 by auto|rewrite eqb_360]; cbn [fst snd];
      unfold hemi_angle in *; lra. }
  cbn [fst snd]. rewrite !E by apply S. rewrite <- surjective_pairing. unfold uv. 
  rewrite xyz_roundtrip_flip; [apply v2w_w2v|]. apply vnorm_1. rewrite w2v_dot; auto.
Qed.
Lemma vm_uv2xyz_unit d va uv : 
  (hemi_angle va /\ in_unit_square uv) \/ (va = 360 /\ in_dsquare uv) ->
  vnorm (vm_uv2xyz (mk_view d va) uv) = 1.
Proof.
  intros H. apply vnorm_1. unfold vm_uv2xyz. rewrite v2w_dot. apply vnorm_1, uv2xyz_unit.
  - unfold axes_ok; simpl; lia.
  - right; reflexivity.
  - unfold mk_view; cbn [vm_bbox0 vm_sf]. destruct H as [[H U]|[-> U]].
    + rewrite va_not_360 by auto. unfold hemi_angle, in_unit_square, in_dsquare in *; cbn [fst snd].
      split; split; nra.
    + rewrite eqb_360. unfold in_dsquare in *; cbn [fst snd]. lra.
Qed.
Lemma uv2xyz_center : uv2xyz xyz_axes (-1) (1 / 2, 1 / 2) = V3 0 0 1.
Proof.
  rewrite uv2xyz_eq. unfold sgn_u, red_u. unfold Rgtb. 
  replace (Rltb 1 (1 / 2)) with false by (symmetry; apply Rltb_false; lra).
  replace (2 * (1 / 2) - 1) with 0 by field. cbv zeta.
  assert (rr 0 0 = 0) as R0.
  { assert (Rabs (rr 0 0) = 0) by (rewrite rr_abs, Rabs_R0; apply Rmax_left; lra).
    destruct (Req_EM_T (rr 0 0) 0); auto. exfalso; apply (Rabs_no_R0 (rr 0 0)); auto. }
  destruct disk_0 as [-> ->]. rewrite R0. apply vec3_ext; cbn [vx vy vz]; ring.
Qed.
Lemma vm_uv_center d va : hemi_angle va -> regular_dir d -> vm_uv2xyz (mk_view d va) (1 / 2, 1 / 2) = norm d.
Proof.
  intros H G. rewrite vm_uv_hemi by auto. cbn [fst snd].
  replace (1 / 2 + (1 / 2 - 1 / 2) * (va / 180)) with (1 / 2) by (field).
  rewrite uv2xyz_center, <- (w2v_dir d va) by auto. rewrite v2w_w2v. apply mk_view_dxyz, regular_nonzero; auto.
Qed.

(** * angular image coordinates *)
Definition pd (p : R * R) : R := sqrt (square (fst p) + square (snd p)).
Lemma pd_nonneg p : 0 <= pd p. Proof. apply sqrt_pos. Qed.
Lemma pd_sqr p : pd p * pd p = fst p * fst p + snd p * snd p.
Proof. unfold pd, square. apply sqrt_sqrt. nra. Qed.
Lemma pd_zero p : pd p = 0 -> fst p = 0 /\ snd p = 0.
Proof. intros H. pose proof (pd_sqr p) as S. rewrite H in S. split; nra. Qed.
Lemma pd_scale k p : pd (k * fst p, k * snd p) = Rabs k * pd p.
Proof.
  unfold pd, square; cbn [fst snd]. rewrite <- sqrt_Rsqr_abs, <- sqrt_mult by (unfold Rsqr; nra).
  f_equal. unfold Rsqr; ring.
Qed.

Lemma ang2dir_eq p : 0 < pd p < 1 ->
  ang2dir p = V3 (fst p * (sin (PI * pd p) / pd p)) (snd p * (sin (PI * pd p) / pd p)) (cos (PI * pd p)).
Proof.
  intros H. unfold ang2dir. fold (pd p). set (d := pd p) in *.
  replace (Rleb d 0) with false by (symmetry; apply Rleb_false; lra).
  assert (S : sqrt (1 - cos (PI * d) * cos (PI * d)) = sin (PI * d)).
  { replace (1 - cos (PI * d) * cos (PI * d)) with (sin (PI * d) * sin (PI * d)) by (pose proof (sin2cos2 (PI * d)); lra).
    apply sqrt_square. pose proof PI_pos. apply sin_ge_0; nra. }
  rewrite S. reflexivity.
Qed.
Lemma ang2dir_0 p : pd p = 0 -> ang2dir p = V3 0 0 1.
Proof.
  intros H. unfold ang2dir. fold (pd p). rewrite H. destruct (pd_zero p H) as [-> ->].
  replace (PI * 0) with 0 by ring. rewrite cos_0. apply vec3_ext; cbn [vx vy vz]; ring.
Qed.
Lemma ang2dir_unit p : 0 <= pd p < 1 -> dot (ang2dir p) (ang2dir p) = 1.
Proof.
  intros H. destruct (Req_EM_T (pd p) 0) as [E|E]; [rewrite ang2dir_0 by auto; unfold dot; cbn [vx vy vz]; ring|].
  rewrite ang2dir_eq by lra. unfold dot; cbn [vx vy vz]. set (k := sin (PI * pd p)). set (d := pd p) in *.
  transitivity ((fst p * fst p + snd p * snd p) * (k / d * (k / d)) + cos (PI * d) * cos (PI * d)); [ring|].
  rewrite <- pd_sqr. fold d. unfold k. pose proof (sin2cos2 (PI * d)).
  replace (d * d * (sin (PI * d) / d * (sin (PI * d) / d))) with (sin (PI * d) * sin (PI * d)) by (field; auto). lra.
Qed.
(** every vector, including those outside the frame: unit length *)
Lemma ang2dir_unit_all p : dot (ang2dir p) (ang2dir p) = 1.
Proof.
  pose proof (pd_nonneg p) as P. destruct (Req_EM_T (pd p) 0) as [E|E]; [rewrite ang2dir_0 by auto; unfold dot; cbn [vx vy vz]; ring|].
  unfold ang2dir. fold (pd p). replace (Rleb (pd p) 0) with false by (symmetry; apply Rleb_false; lra).
  unfold dot; cbn [vx vy vz]. set (d := pd p) in *. set (z := cos (PI * d)).
  pose proof (COS_bound (PI * d)) as B. fold z in B.
  assert (S : sqrt (1 - z * z) * sqrt (1 - z * z) = 1 - z * z) by (apply sqrt_sqrt; nra).
  transitivity ((fst p * fst p + snd p * snd p) * (sqrt (1 - z * z) * sqrt (1 - z * z)) / (d * d) + z * z); [field; auto|].
  rewrite <- pd_sqr, S. fold d. field; auto.
Qed.
Lemma ang2dir_z p : vz (ang2dir p) = cos (PI * pd p).
Proof. reflexivity. Qed.
Lemma xyz2xy_ang2dir p : pd p < 1 -> xyz2xy xyz_axes true (ang2dir p) = (- (2 * fst p), 2 * snd p).
Proof.
  intros H. pose proof (pd_nonneg p) as P. destruct (Req_EM_T (pd p) 0) as [E|E].
  - rewrite ang2dir_0 by auto. destruct (pd_zero p E) as [-> ->].
    pose proof (xyz2xy_polar true (V3 0 0 1)) as X. destruct (xyz2xy xyz_axes true (V3 0 0 1)) as [x y].
    cbn [vx vy vz] in X. destruct X as [_ [X _]]. replace (0 * 0 + 0 * 0) with 0 in X by ring. rewrite sqrt_0 in X.
    assert (A : arctan2 0 1 = 0).
    { pose proof (arctan2_unique 1 0) as A. rewrite sin_0, cos_0 in A. rewrite !Rmult_1_l in A. apply A; pose proof PI_pos; lra. }
    rewrite A in X. assert (sqrt (x * x + y * y) = 0) by (rewrite X; unfold Rdiv; ring).
    assert (x * x + y * y = 0) by (apply sqrt_eq_0; [nra|auto]). apply pair_eq; nra.
  - pose proof PI_pos as PP. rewrite ang2dir_eq by lra. set (d := pd p) in *. set (s := sin (PI * d)).
    assert (S : 0 < s) by (apply sin_gt_0; nra).
    pose proof (xyz2xy_polar true (V3 (fst p * (s / d)) (snd p * (s / d)) (cos (PI * d)))) as X.
    destruct (xyz2xy xyz_axes true (V3 (fst p * (s / d)) (snd p * (s / d)) (cos (PI * d)))) as [x y].
    cbn [vx vy vz] in X.
    assert (Hh : sqrt (fst p * (s / d) * (fst p * (s / d)) + snd p * (s / d) * (snd p * (s / d))) = s).
    { replace (fst p * (s / d) * (fst p * (s / d)) + snd p * (s / d) * (snd p * (s / d)))
        with ((fst p * fst p + snd p * snd p) * (s * s) / (d * d)) by (field; auto).
      rewrite <- pd_sqr. fold d. replace (d * d * (s * s) / (d * d)) with (s * s) by (field; auto).
      apply sqrt_square; lra. }
    rewrite !Hh in X. assert (A : arctan2 s (cos (PI * d)) = PI * d).
    { pose proof (arctan2_unique 1 (PI * d)) as A. rewrite !Rmult_1_l in A. apply A; [lra|split; nra]. }
    rewrite A in X. destruct X as [_ [_ [X1 X2]]].
    replace (PI * d / (PI / 2)) with (2 * d) in * by (field; lra).
    apply pair_eq; apply Rmult_eq_reg_l with s; try lra; [rewrite X1|rewrite X2]; field; auto.
Qed.

Definition vscl (d : vec3) (va : R) : R := vm_viewangle (mk_view d va) * vm_chordfactor (mk_view d va) / 180.
Lemma vscl_range d va : hemi_angle va -> 0 < vscl d va <= 1.
Proof.
  intros H. unfold vscl. rewrite mk_view_hemi_va by auto. pose proof (chordfactor_bounds d va H).
  unfold hemi_angle in H. nra.
Qed.
Lemma vxy2xyz_eq d va xy : vxy2xyz (mk_view d va) xy =
  view2world (mk_view d va) (ang2dir ((fst xy - 1 / 2) * (-1 * vscl d va), (snd xy - 1 / 2) * (1 * vscl d va))).
Proof. reflexivity. Qed.
Lemma pd_neg_scale s x y : 0 <= s -> pd (x * (-1 * s), y * (1 * s)) = s * pd (x, y).
Proof.
  intros H. rewrite <- (Rabs_right s) at 3 by lra. rewrite <- pd_scale. unfold pd, square; cbn [fst snd]. f_equal; ring.
Qed.
Lemma pdist_pd p q : pdist p q = pd (fst p - fst q, snd p - snd q).
Proof. reflexivity. Qed.
Lemma pdist_center xy : pdist xy center = pd (fst xy - 1 / 2, snd xy - 1 / 2).
Proof. reflexivity. Qed.
Lemma square_in_disk xy : in_unit_square xy -> pdist xy center <= sqrt 2 / 2.
Proof.
  intros H. rewrite pdist_center. pose proof sqrt2_pos. pose proof sqrt2_sqr.
  pose proof (pd_sqr (fst xy - 1 / 2, snd xy - 1 / 2)) as S. cbn [fst snd] in S.
  pose proof (pd_nonneg (fst xy - 1 / 2, snd xy - 1 / 2)). unfold in_unit_square in H.
  set (q := pd (fst xy - 1 / 2, snd xy - 1 / 2)) in *.
  assert (q * q <= 1 / 2) by nra. nra.
Qed.
Lemma vxy2xyz_unit d va xy : vnorm (vxy2xyz (mk_view d va) xy) = 1.
Proof. apply vnorm_1. rewrite vxy2xyz_eq, v2w_dot. apply ang2dir_unit_all. Qed.

Lemma xyz2vxy1_of d va xy : hemi_angle va -> pdist xy center * vscl d va < 1 ->
  xyz2vxy1 (mk_view d va) (vxy2xyz (mk_view d va) xy) = xy.
Proof.
  intros H L. pose proof (vscl_range d va H) as V. unfold xyz2vxy1. rewrite vxy2xyz_eq, w2v_v2w, xyz2xy_ang2dir.
  - cbn [fst snd]. unfold vscl in *. rewrite mk_view_hemi_va in * by auto. destruct xy as [x y]; cbn [fst snd].
    pose proof (chordfactor_bounds d va H) as C. unfold hemi_angle in H.
    apply pair_eq; field; split; lra.
  - rewrite pd_neg_scale, <- pdist_center by lra. lra.
Qed.
Lemma xyz2vxy_of d va xy : hemi_angle va -> pdist xy center * vscl d va < 1 ->
  xyz2vxy (mk_view d va) (vxy2xyz (mk_view d va) xy) = xy.
Proof. intros H L. unfold xyz2vxy. rewrite mk_view_hemi_aspect by auto. cbn [Z.eqb Pos.eqb]. apply xyz2vxy1_of; auto. Qed.
Lemma frame_ok d va xy : hemi_angle va -> in_unit_square xy -> pdist xy center * vscl d va < 1.
Proof.
  intros H U. pose proof (square_in_disk xy U). pose proof (vscl_range d va H). pose proof sqrt2_bound.
  assert (0 <= pdist xy center) by apply sqrt_pos. nra.
Qed.
Lemma vxy_roundtrip d va xy : hemi_angle va -> in_unit_square xy ->
  xyz2vxy (mk_view d va) (vxy2xyz (mk_view d va) xy) = xy.
Proof. intros; apply xyz2vxy_of; auto. apply frame_ok; auto. Qed.
Lemma pixel_roundtripf d va res p : hemi_angle va -> (0 < res)%Z ->
  0 <= fst p <= IZR res -> 0 <= snd p <= IZR res ->
  ray2pixelf (mk_view d va) res (pixel2ray (mk_view d va) res p) = p.
Proof.
  intros H Hr Hx Hy. apply IZR_lt in Hr. unfold ray2pixelf, pixel2ray.
  assert (D : forall x, 0 <= x <= IZR res -> 0 <= x / IZR res <= 1).
  { intros x B. split; [apply Rmult_le_pos; [lra|left; apply Rinv_0_lt_compat; lra]|].
    apply Rmult_le_reg_r with (IZR res); [lra|]. unfold Rdiv. rewrite Rmult_assoc, Rinv_l by lra. lra. }
  rewrite vxy_roundtrip by (auto; split; cbn [fst snd]; auto). destruct p; cbn [fst snd]. apply pair_eq; field; lra.
Qed.
Lemma pixel_roundtrip d va res i j : hemi_angle va -> (0 <= i < res)%Z -> (0 <= j < res)%Z ->
  ray2pixel (mk_view d va) res (pixel2ray (mk_view d va) res (IZR i + 1 / 2, IZR j + 1 / 2)) = (i, j).
Proof.
  intros H Hi Hj. unfold ray2pixel.
  assert (E : forall k, (0 <= k < res)%Z -> 0 <= IZR k + 1 / 2 <= IZR res).
  { intros k [B1 B2]. apply IZR_le in B1. assert (k + 1 <= res)%Z as B3 by lia. apply IZR_le in B3. rewrite plus_IZR in B3. lra. }
  rewrite pixel_roundtripf by (auto; try lia; cbn [fst snd]; auto). cbn [fst snd].
  f_equal; apply Rfloor_unique; lra.
Qed.

Lemma in_zrange n i : In i (zrange n) <-> (0 <= i < n)%Z.
Proof.
  unfold zrange. rewrite in_map_iff. split.
  - intros [k [<- H]]. apply in_seq in H. lia.
  - intros H. exists (Z.to_nat i). split; [lia|]. apply in_seq. lia.
Qed.
Lemma in_zgrid nx ny p : In p (zgrid nx ny) <-> (0 <= fst p < nx)%Z /\ (0 <= snd p < ny)%Z.
Proof.
  unfold zgrid. rewrite in_flat_map. split.
  - intros [i [Hi H]]. apply in_map_iff in H. destruct H as [j [<- Hj]]. cbn [fst snd].
    split; apply in_zrange; auto.
  - intros [A B]. exists (fst p). split; [apply in_zrange; auto|]. apply in_map_iff. exists (snd p).
    split; [destruct p; auto|apply in_zrange; auto].
Qed.
Lemma pixelrays_roundtrip d va res : hemi_angle va -> 
  map (ray2pixel (mk_view d va) res) (pixelrays (mk_view d va) res) = zgrid res res.
Proof.
  intros H. unfold pixelrays. rewrite mk_view_hemi_aspect by auto. cbn [Z.eqb Pos.eqb]. unfold pixelrays1.
  rewrite map_map. rewrite <- map_id. apply map_ext_in. intros [i j] I. apply in_zgrid in I. cbn [fst snd] in *.
  apply pixel_roundtrip; tauto.
Qed.

(** * directions to image and back *)
Lemma ang2dir_xyz2xy w x y : dot w w = 1 -> w <> V3 0 0 (-1) -> xyz2xy xyz_axes true w = (x, y) ->
  ang2dir (- (x / 2), y / 2) = w.
Proof.
  intros H N E. pose proof (xyz2xy_polar true w) as X. rewrite E in X. destruct X as [_ [Xr [X1 X2]]].
  rewrite arctan2_acos in * by auto. pose proof PI_pos as PP. pose proof (unit_z w H) as Z.
  set (t := acos (vz w)) in *.
  assert (Ez : cos t = vz w) by (apply cos_acos; auto).
  assert (T : t < PI).
  { apply acos_lt_PI. split; [|lra]. destruct (Req_EM_T (vz w) (-1)) as [C|C]; [|lra]. exfalso; apply N.
    unfold dot in H. rewrite C in H. apply vec3_ext; cbn [vx vy vz]; nra. }
  assert (T0 : 0 <= t) by apply acos_bound.
  assert (Hd : pd (- (x / 2), y / 2) = t / PI).
  { unfold pd, square; cbn [fst snd]. replace (- (x / 2) * - (x / 2) + y / 2 * (y / 2)) with ((x * x + y * y) * ((1 / 2) * (1 / 2))) by field.
    rewrite sqrt_mult by nra. rewrite Xr, sqrt_square by lra. field; lra. }
  assert (Hh : sqrt (vx w * vx w + vy w * vy w) = sin t) by (symmetry; apply unit_sin_acos; auto).
  rewrite Hh in *.
  destruct (Req_EM_T t 0) as [C|C].
  - rewrite ang2dir_0 by (rewrite Hd, C; unfold Rdiv; ring). rewrite C, cos_0 in Ez.
    unfold dot in H. rewrite <- Ez in H. apply vec3_ext; cbn [vx vy vz]; nra.
  - assert (S : 0 < sin t) by (apply sin_gt_0; lra).
    rewrite ang2dir_eq.
    + rewrite Hd. replace (PI * (t / PI)) with t by (field; lra). cbn [fst snd].
      apply vec3_ext; cbn [vx vy vz]; [| |auto].
      * replace (- (x / 2) * (sin t / (t / PI))) with (- (sin t * x) * PI / (2 * t)) by (field; lra).
        rewrite X1. field; lra.
      * replace (y / 2 * (sin t / (t / PI))) with ((sin t * y) * PI / (2 * t)) by (field; lra).
        rewrite X2. field; lra.
    + rewrite Hd. split; [apply Rdiv_lt_0_compat; lra|]. apply Rmult_lt_reg_r with PI; [lra|].
      unfold Rdiv. rewrite Rmult_assoc, Rinv_l by lra. lra.
Qed.
Lemma xyz_vxy_roundtrip d va v : hemi_angle va -> dot v v = 1 -> 
  world2view (mk_view d va) v <> V3 0 0 (-1) ->
  vxy2xyz (mk_view d va) (xyz2vxy (mk_view d va) v) = v.
Proof.
  intros H V N. unfold xyz2vxy. rewrite mk_view_hemi_aspect by auto. cbn [Z.eqb Pos.eqb].
  rewrite vxy2xyz_eq. unfold xyz2vxy1. pose proof (vscl_range d va H) as S. unfold vscl in *.
  set (k := vm_viewangle (mk_view d va) * vm_chordfactor (mk_view d va)) in *.
  destruct (xyz2xy xyz_axes true (world2view (mk_view d va) v)) as [x y] eqn:E. cbn [fst snd].
  replace ((x * 180 / k / 2 + 1 / 2 - 1 / 2) * (-1 * (k / 180))) with (- (x / 2)) by (field; lra).
  replace ((y * 180 / k / 2 + 1 / 2 - 1 / 2) * (1 * (k / 180))) with (y / 2) by (field; lra).
  rewrite (ang2dir_xyz2xy (world2view (mk_view d va) v)) by (auto; rewrite w2v_dot; auto).
  apply v2w_w2v.
Qed.

(** image radius is proportional to the angle *)
Lemma pdist_radius d va v : regular_dir d -> hemi_angle va -> dot v v = 1 ->
  pdist (xyz2vxy1 (mk_view d va) v) center = angle (norm d) v / (2 * vm_chordfactor (mk_view d va) * half va).
Proof.
  intros G H V. pose proof (xyz2xy_polar true (world2view (mk_view d va) v)) as X. 
  unfold xyz2vxy1. rewrite pdist_center. cbn [fst snd].
  destruct (xyz2xy xyz_axes true (world2view (mk_view d va) v)) as [x y] eqn:E. cbn [fst snd].
  destruct X as [_ [X _]]. rewrite arctan2_acos in X by (rewrite w2v_dot; auto).
  rewrite w2v_z, mk_view_dxyz in X by (auto; apply regular_nonzero; auto).
  rewrite mk_view_hemi_va by auto. pose proof (chordfactor_bounds d va H) as [_ C]. set (cf := vm_chordfactor (mk_view d va)) in *.
  pose proof PI_pos. pose proof sqrt2_pos. assert (0 < cf) by (apply Rlt_le_trans with (sqrt 2 * 2 / PI); [apply Rdiv_lt_0_compat; lra|lra]).
  unfold hemi_angle in H.
  set (k := 180 / (va * cf) / 2).
  replace (x * 180 / (va * cf) / 2 + 1 / 2 - 1 / 2) with (k * x) by (unfold k; field; lra).
  replace (y * 180 / (va * cf) / 2 + 1 / 2 - 1 / 2) with (k * y) by (unfold k; field; lra).
  assert (0 < va * cf) by nra.
  assert (K : 0 < k) by (unfold k; repeat apply Rdiv_lt_0_compat; lra).
  change (k * x, k * y) with (k * fst (x, y), k * snd (x, y)). rewrite (pd_scale k (x, y)). rewrite Rabs_right by lra. unfold pd, square; cbn [fst snd]. rewrite X.
  unfold angle, k, half. field. repeat split; lra.
Qed.
Lemma cf_half_pos d va : hemi_angle va -> 0 < vm_chordfactor (mk_view d va) * half va.
Proof.
  intros H. pose proof (half_range va H). pose proof (chordfactor_bounds d va H). nra.
Qed.
(** in_view is the open circle inscribed in the image *)
Lemma in_view_circle d va v : regular_dir d -> hemi_angle va -> dot v v = 1 ->
  in_view (mk_view d va) 0 v = true <-> pdist (xyz2vxy (mk_view d va) v) center < 1 / 2.
Proof.
  intros G H V. unfold xyz2vxy. rewrite mk_view_hemi_aspect by auto. cbn [Z.eqb Pos.eqb].
  rewrite pdist_radius, in_view_angle, mk_view_hemi_va by (auto; apply regular_nonzero; auto).
  pose proof (cf_half_pos d va H) as C. set (cf := vm_chordfactor (mk_view d va)) in *. set (a := angle (norm d) v).
  rewrite Rminus_0_r. replace (cf * va * PI / 360) with (cf * half va) by (unfold half; field).
  split; intros L.
  - apply Rmult_lt_reg_r with (2 * (cf * half va)); [lra|].
    replace (a / (2 * cf * half va) * (2 * (cf * half va))) with a by (field; split; intros Q; rewrite Q in C; lra). lra.
  - apply Rmult_lt_compat_r with (r := 2 * (cf * half va)) in L; [|lra].
    replace (a / (2 * cf * half va) * (2 * (cf * half va))) with a in L by (field; split; intros Q; rewrite Q in C; lra). lra.
Qed.

Lemma pdist_coord p q : Rabs (fst p - fst q) <= pdist p q /\ Rabs (snd p - snd q) <= pdist p q.
Proof.
  rewrite pdist_pd. pose proof (pd_sqr (fst p - fst q, snd p - snd q)) as S. cbn [fst snd] in S.
  pose proof (pd_nonneg (fst p - fst q, snd p - snd q)) as P.
  set (r := pd (fst p - fst q, snd p - snd q)) in *.
  assert (A : forall a b, r * r = a * a + b * b -> Rabs a <= r).
  { intros a b E. rewrite <- (Rabs_right r) by lra. apply Rsqr_le_abs_0. unfold Rsqr. nra. }
  split; [apply A with (snd p - snd q); lra|apply A with (fst p - fst q); lra].
Qed.

Lemma vopp_nonzero d : d <> vzero -> vopp d <> vzero.
Proof.
  intros H E. apply H. pose proof (f_equal vx E) as Ex. pose proof (f_equal vy E) as Ey. pose proof (f_equal vz E) as Ez.
  unfold vopp, vzero in *; cbn [vx vy vz] in *. apply vec3_ext; cbn [vx vy vz]; lra.
Qed.
Lemma norm_vopp d : norm (vopp d) = vopp (norm d).
Proof.
  unfold norm. assert (vnorm (vopp d) = vnorm d) as ->. { unfold vnorm. f_equal. unfold dot, vopp; cbn [vx vy vz]; ring. }
  unfold vopp; cbn [vx vy vz]. apply vec3_ext; cbn [vx vy vz]; unfold Rdiv; ring.
Qed.
Lemma mk_view_norm d va : d <> vzero -> mk_view (norm d) va = mk_view d va.
Proof.
  intros N. assert (N2 : norm d <> vzero) by (apply unit_nonzero, norm_dot; auto).
  unfold mk_view. rewrite !norm1_nonzero, norm_idem by auto. reflexivity.
Qed.
Lemma ivm_eq d va : d <> vzero -> vm_ivm (mk_view d va) = mk_view (vopp d) 180.
Proof.
  intros N. unfold vm_ivm. rewrite mk_view_dxyz, <- norm_vopp by auto. apply mk_view_norm, vopp_nonzero; auto.
Qed.
Lemma hemi_180 : hemi_angle 180. Proof. unfold hemi_angle; lra. Qed.
Lemma half_180 : half 180 = PI / 2. Proof. unfold half; field. Qed.

Lemma w2v_360 d v : world2view (mk_view d 360) v = world2view (mk_view d 180) v.
Proof. reflexivity. Qed.
Lemma xyz2vxy_360 d v : d <> vzero -> dot v v = 1 -> xyz2vxy (mk_view d 360) v =
  if Rltb 0 (dot (norm d) v) then xyz2vxy1 (mk_view d 180) v
  else (fst (xyz2vxy1 (mk_view (vopp d) 180) v) + 1, snd (xyz2vxy1 (mk_view (vopp d) 180) v)).
Proof.
  intros N V. unfold xyz2vxy. rewrite (proj2 (mk_view_360 d)). cbn [Z.eqb Pos.eqb].
  pose proof (in_view_180 d 360 v N V ltac:(auto)) as I. rewrite ivm_eq by auto.
  destruct (Rltb 0 (dot (norm d) v)) eqn:B; [apply Rltb_true in B|apply Rltb_false in B].
  - rewrite (proj2 I) by auto. unfold xyz2vxy1. rewrite chordfactor_360, chordfactor_180, w2v_360.
    rewrite mk_view_hemi_va by apply hemi_180. apply pair_eq; field.
  - destruct (in_view (mk_view d 360) 0 v); [|reflexivity]. exfalso. assert (0 < dot (norm d) v) by (apply I; auto). lra.
Qed.
Lemma pdist_180 d v : regular_dir d -> dot v v = 1 ->
  pdist (xyz2vxy1 (mk_view d 180) v) center = angle (norm d) v / PI.
Proof.
  intros G V. rewrite pdist_radius, chordfactor_180, half_180 by (auto; apply hemi_180). unfold Rdiv. f_equal. field.
  pose proof PI_pos; lra.
Qed.
Lemma view360_front d v : regular_dir d -> dot v v = 1 -> 0 < dot (norm d) v ->
  let p := xyz2vxy (mk_view d 360) v in 0 < fst p < 1 /\ 0 < snd p < 1 /\ pdist p center < 1 / 2.
Proof.
  intros G V L p. pose proof (regular_nonzero d G) as N. unfold p. rewrite xyz2vxy_360 by auto.
  rewrite (proj2 (Rltb_true _ _) L).
  assert (B : pdist (xyz2vxy1 (mk_view d 180) v) center < 1 / 2).
  { rewrite pdist_180 by auto. pose proof PI_pos. apply Rmult_lt_reg_r with PI; [lra|].
    unfold Rdiv. rewrite Rmult_assoc, Rinv_l by lra. 
    assert (angle (norm d) v < PI / 2) by (apply acos_half_pi; auto; apply dot_unit_bound; auto; apply norm_dot; auto). lra. }
  pose proof (pdist_coord (xyz2vxy1 (mk_view d 180) v) center) as [C1 C2]. unfold center in C1, C2; cbn [fst snd] in C1, C2.
  apply Rle_lt_trans with (r3 := 1/2) in C1; [|auto]. apply Rle_lt_trans with (r3 := 1/2) in C2; [|auto].
  apply Rabs_def2 in C1. apply Rabs_def2 in C2. repeat split; try lra; auto.
Qed.
Lemma dot_vopp_l a b : dot (vopp a) b = - dot a b.
Proof. unfold dot, vopp; cbn [vx vy vz]; ring. Qed.
Lemma view360_back d v : d <> vzero -> regular_dir (vopp d) -> dot v v = 1 -> dot (norm d) v <= 0 ->
  let p := xyz2vxy (mk_view d 360) v in 1 <= fst p <= 2 /\ 0 <= snd p <= 1 /\ pdist p (3 / 2, 1 / 2) <= 1 / 2.
Proof.
  intros N G V L p. unfold p. rewrite xyz2vxy_360 by auto.
  replace (Rltb 0 (dot (norm d) v)) with false by (symmetry; apply Rltb_false; auto).
  assert (B : pdist (xyz2vxy1 (mk_view (vopp d) 180) v) center <= 1 / 2).
  { rewrite pdist_180 by auto. pose proof PI_pos. apply Rmult_le_reg_r with PI; [lra|].
    unfold Rdiv. rewrite Rmult_assoc, Rinv_l by lra. 
    assert (angle (norm (vopp d)) v <= PI / 2); [|lra]. unfold angle. rewrite norm_vopp, dot_vopp_l.
    pose proof (dot_unit_bound (norm d) v (norm_dot d N) V).
    rewrite <- acos_0. destruct L as [L|L]; [left; apply acos_decr; lra|rewrite L, Ropp_0; lra]. }
  set (q := xyz2vxy1 (mk_view (vopp d) 180) v) in *. pose proof (pdist_coord q center) as [C1 C2].
  unfold center in C1, C2, B; cbn [fst snd] in C1, C2 |- *.
  assert (C3 : Rabs (fst q - 1 / 2) <= 1 / 2) by lra. assert (C4 : Rabs (snd q - 1 / 2) <= 1 / 2) by lra.
  apply Rabs_le_inv in C3. apply Rabs_le_inv in C4. repeat split; try lra.
  unfold pdist in *. cbn [fst snd] in *. replace (fst q + 1 - 3 / 2) with (fst q - 1 / 2) by field. exact B.
Qed.
Lemma pixelrays1_360 d res : pixelrays1 (mk_view d 360) res = pixelrays1 (mk_view d 180) res.
Proof.
  unfold pixelrays1. apply map_ext. intros p. unfold pixel2ray, vxy2xyz.
  rewrite chordfactor_360, chordfactor_180, (proj1 (mk_view_360 d)), mk_view_hemi_va by apply hemi_180. reflexivity.
Qed.
Lemma pixelrays_360 d res : d <> vzero ->
  pixelrays (mk_view d 360) res = pixelrays (mk_view d 180) res ++ pixelrays (mk_view (vopp d) 180) res.
Proof.
  intros N. unfold pixelrays. rewrite (proj2 (mk_view_360 d)), !mk_view_hemi_aspect by apply hemi_180.
  cbn [Z.eqb Pos.eqb]. rewrite ivm_eq, pixelrays1_360 by auto. reflexivity.
Qed.
Lemma vxy2xyz_360 d xy : vxy2xyz (mk_view d 360) xy = vxy2xyz (mk_view d 180) xy.
Proof.
  unfold vxy2xyz. rewrite chordfactor_360, chordfactor_180, (proj1 (mk_view_360 d)), mk_view_hemi_va by apply hemi_180.
  reflexivity.
Qed.
(** image points of both discs of a 360 degree view come back to themselves *)
Lemma vxy_angle d xy : regular_dir d -> in_unit_square xy ->
  angle (norm d) (vxy2xyz (mk_view d 180) xy) = PI * pdist xy center.
Proof.
  intros G U. assert (V : dot (vxy2xyz (mk_view d 180) xy) (vxy2xyz (mk_view d 180) xy) = 1) by (apply vnorm_1, vxy2xyz_unit).
  pose proof (pdist_180 d _ G V) as P. rewrite xyz2vxy1_of in P by (try apply hemi_180; apply frame_ok; auto; apply hemi_180).
  rewrite P. pose proof PI_pos. field; lra.
Qed.
Lemma view360_roundtrip_front d xy : regular_dir d -> in_unit_square xy -> pdist xy center < 1 / 2 ->
  xyz2vxy (mk_view d 360) (vxy2xyz (mk_view d 180) xy) = xy.
Proof.
  intros G U L. pose proof (regular_nonzero d G) as N.
  assert (V : dot (vxy2xyz (mk_view d 180) xy) (vxy2xyz (mk_view d 180) xy) = 1) by (apply vnorm_1, vxy2xyz_unit).
  rewrite xyz2vxy_360 by auto. pose proof (vxy_angle d xy G U) as A.
  assert (0 < dot (norm d) (vxy2xyz (mk_view d 180) xy)).
  { apply acos_half_pi; [apply dot_unit_bound; auto; apply norm_dot; auto|]. 
    unfold angle in A. rewrite A. pose proof PI_pos. nra. }
  rewrite (proj2 (Rltb_true _ _)) by auto. apply xyz2vxy1_of; [apply hemi_180|apply frame_ok; auto; apply hemi_180].
Qed.
Lemma view360_roundtrip_back d xy : d <> vzero -> regular_dir (vopp d) -> in_unit_square xy -> pdist xy center <= 1 / 2 ->
  xyz2vxy (mk_view d 360) (vxy2xyz (mk_view (vopp d) 180) xy) = (fst xy + 1, snd xy).
Proof.
  intros N G U L.
  assert (V : dot (vxy2xyz (mk_view (vopp d) 180) xy) (vxy2xyz (mk_view (vopp d) 180) xy) = 1) by (apply vnorm_1, vxy2xyz_unit).
  rewrite xyz2vxy_360 by auto. pose proof (vxy_angle (vopp d) xy G U) as A.
  assert (dot (norm d) (vxy2xyz (mk_view (vopp d) 180) xy) <= 0).
  { unfold angle in A. rewrite norm_vopp, dot_vopp_l in A.
    set (c := dot (norm d) (vxy2xyz (mk_view (vopp d) 180) xy)) in *.
    destruct (Rle_lt_dec c 0) as [|C]; auto. exfalso.
    assert (-1 <= c <= 1) by (apply dot_unit_bound; auto; apply norm_dot; auto).
    pose proof (acos_decr (- c) 0 ltac:(lra) ltac:(lra) ltac:(lra)) as Q. rewrite acos_0 in Q.
    pose proof PI_pos. nra. }
  replace (Rltb 0 _) with false by (symmetry; apply Rltb_false; auto).
  rewrite xyz2vxy1_of by (try apply hemi_180; apply frame_ok; auto; apply hemi_180). reflexivity.
Qed.
