From Coq Require Import Lra Lia Psatz.
From Verif Require Import Base BaseX L_Base M_Translate S_Translate M_Mapper S_Mapper M_Io M_Metric L_Angles L_Mapper.
Local Open Scope R_scope.

Lemma exp_ge_1 x : 0 <= x -> 1 <= exp x.
Proof. intros H. destruct (Req_dec x 0) as [->|]; [rewrite exp_0; lra|].
  rewrite <- exp_0. left. apply exp_increasing. lra. Qed.
Lemma exp_le_1 x : x <= 0 -> exp x <= 1.
Proof. intros H. destruct (Req_dec x 0) as [->|]; [rewrite exp_0; lra|].
  rewrite <- exp_0. left. apply exp_increasing. lra. Qed.

Lemma exp_le x y : x <= y -> exp x <= exp y.
Proof. intros [H| ->]; [left; apply exp_increasing; auto|lra]. Qed.

(** both coefficients of the exponent are non-negative for tau in [0, 90] *)
Lemma guth_c1 tau : 0 <= tau <= 90 -> 0 <= (35.2 - 0.31889 * tau - 1.22 * exp (-2 * tau / 9)) / 1000.
Proof. intros H. pose proof (exp_le_1 (-2 * tau / 9) ltac:(lra)). lra. Qed.
Lemma guth_c2 tau : 0 <= tau <= 90 -> 0 <= (21 + 0.26667 * tau - 0.002963 * tau * tau) / 100000.
Proof. intros H. assert (tau * tau <= 90 * tau) by nra. lra. Qed.

Lemma guth_mono s1 s2 tau : 0 <= tau <= 90 -> 0 <= s1 <= s2 -> pidx_guth s1 tau <= pidx_guth s2 tau.
Proof.
  intros Ht Hs. unfold pidx_guth. apply exp_le.
  pose proof (guth_c1 tau Ht). pose proof (guth_c2 tau Ht).
  set (c1 := (35.2 - _ - _) / 1000) in *. set (c2 := (21 + _ - _) / 100000) in *.
  assert (s1 * s1 <= s2 * s2) by nra. nra.
Qed.
Lemma guth_0 tau : pidx_guth 0 tau = 1.
Proof. unfold pidx_guth. rewrite !Rmult_0_r, Rplus_0_r. apply exp_0. Qed.
Lemma guth_ge_1 s tau : 0 <= tau <= 90 -> 0 <= s -> 1 <= pidx_guth s tau.
Proof. intros Ht Hs. rewrite <- (guth_0 tau). apply guth_mono; lra. Qed.

Lemma plane_norm_pos w : sqrt (square (vx w) + square (vy w)) <> 0 -> 0 < sqrt (square (vx w) + square (vy w)).
Proof. intros H. pose proof (sqrt_pos (square (vx w) + square (vy w))). lra. Qed.
Lemma plane_ratio w : sqrt (square (vx w) + square (vy w)) <> 0 ->
  -1 <= vy w / sqrt (square (vx w) + square (vy w)) <= 1.
Proof.
  intros H. pose proof (plane_norm_pos w H) as Hp.
  assert (Hs : sqrt (square (vx w) + square (vy w)) * sqrt (square (vx w) + square (vy w)) = square (vx w) + square (vy w))
    by (apply sqrt_sqrt; unfold square; nra).
  set (n := sqrt _) in *. unfold square in Hs.
  assert (Hy : -n <= vy w <= n) by (split; nra).
  split; apply Rmult_le_reg_r with n; auto; unfold Rdiv; rewrite Rmult_assoc, Rinv_l; lra.
Qed.
Lemma acos_le_half x : 0 <= x <= 1 -> 0 <= acos x <= PI / 2.
Proof.
  intros H. split; [apply acos_bound|].
  destruct (Req_dec x 0) as [->|]; [rewrite acos_0; lra|].
  rewrite <- acos_0. left. apply acos_decr; lra.
Qed.
Lemma plane_tau_upper w t : 0 <= vy w -> plane_tau w = Some t -> 0 <= t <= 90.
Proof.
  intros Hy. unfold plane_tau. destruct (Reqb _ 0) eqn:E; [discriminate|].
  apply Reqb_false in E. intros [= <-].
  pose proof (plane_norm_pos w E). pose proof (plane_ratio w E) as [_ Hr].
  assert (H0 : 0 <= vy w / sqrt (square (vx w) + square (vy w)))
    by (apply Rmult_le_pos; auto; left; apply Rinv_0_lt_compat; auto).
  pose proof (acos_le_half _ (conj H0 Hr)) as [A B]. pose proof PI_pos.
  split.
  - apply Rmult_le_pos; [|left; apply Rinv_0_lt_compat; auto]. lra.
  - apply Rmult_le_reg_r with PI; auto. unfold Rdiv. rewrite Rmult_assoc, Rinv_l by lra. lra.
Qed.
Lemma plane_tau_range w t : plane_tau w = Some t -> 0 <= t <= 180.
Proof.
  unfold plane_tau. destruct (Reqb _ 0) eqn:E; [discriminate|]. apply Reqb_false in E. intros [= <-].
  pose proof (acos_bound (vy w / sqrt (square (vx w) + square (vy w)))). pose proof PI_pos.
  split.
  - apply Rmult_le_pos; [|left; apply Rinv_0_lt_compat; auto]. lra.
  - apply Rmult_le_reg_r with PI; auto. unfold Rdiv. rewrite Rmult_assoc, Rinv_l by lra. lra.
Qed.
Lemma iwata_nonneg w : 0 <= vz w -> 0 <= iwata_sigma w.
Proof.
  intros Hz. unfold iwata_sigma. pose proof PI_pos.
  apply Rmult_le_pos; [apply Rmult_le_pos; [lra|left; apply Rinv_0_lt_compat; auto]|].
  destruct (Reqb (vz w) 0) eqn:E; [lra|]. apply Reqb_false in E.
  rewrite <- atan_0. set (q := _ / vz w).
  assert (0 <= q) by (unfold q; apply Rmult_le_pos; [apply sqrt_pos|left; apply Rinv_0_lt_compat; lra]).
  destruct (Req_dec q 0) as [->|]; [lra|]. left. apply atan_increasing. lra.
Qed.

Lemma pidx_guth_range w s : 0 <= s -> 1 <= pidx true w s <= 16.
Proof.
  intros Hs. unfold pidx.
  destruct (Rltb (vz w) 0) eqn:Ez; cbn [option_map].
  - unfold Rmin; destruct (Rle_dec 16 16); lra.
  - apply Rltb_false in Ez. destruct (Rltb (vy w) 0) eqn:Ey; cbn [option_map].
    + pose proof (guth_ge_1 (iwata_sigma w) 90 ltac:(lra) (iwata_nonneg w Ez)).
      unfold Rmin; destruct (Rle_dec _ _); lra.
    + apply Rltb_false in Ey. destruct (plane_tau w) as [t|] eqn:Et; cbn [option_map]; [|lra].
      pose proof (guth_ge_1 s t (plane_tau_upper w t Ey Et) Hs).
      unfold Rmin; destruct (Rle_dec _ _); lra.
Qed.
Lemma vm_degrees_range vm v : 0 <= vm_degrees vm v <= 180.
Proof.
  unfold vm_degrees, vm_radians. pose proof (acos_bound (clip (dot (vm_dxyz vm) v) (-1) 1)). pose proof PI_pos.
  split.
  - apply Rmult_le_pos; [|left; apply Rinv_0_lt_compat; auto]. lra.
  - apply Rmult_le_reg_r with PI; auto. unfold Rdiv. rewrite Rmult_assoc, Rinv_l by lra. lra.
Qed.
Lemma positions_range vm v : 1 <= positions true vm v <= 16.
Proof. apply pidx_guth_range. apply vm_degrees_range. Qed.

Lemma kim_pos s t : 0 < pidx_kim s t.
Proof. apply exp_pos. Qed.
Lemma positions_kim_pos vm v : 0 < positions false vm v.
Proof.
  unfold positions, pidx. destruct (plane_tau _); cbn [option_map]; [apply kim_pos|lra].
Qed.
Lemma positions_pos g vm v : 0 < positions g vm v.
Proof. destruct g; [pose proof (positions_range vm v); lra|apply positions_kim_pos]. Qed.
(** the denominator of Kim's formula does not vanish *)
Lemma kim_denominator t : 0 <= t <= 180 -> 0 < - 0.000009 * (t * t * t) + 0.0013 * (t * t) + 0.0853 * t + 8.772.
Proof. intros H. assert (0 <= t * t * (180 - t)) by nra. nra. Qed.

Lemma plane_tau_axis z : plane_tau (V3 0 0 z) = None.
Proof.
  unfold plane_tau, square. cbn [vx vy].
  replace (0 * 0 + 0 * 0) with 0 by ring. rewrite sqrt_0.
  replace (Reqb 0 0) with true by (symmetry; apply Reqb_true; auto). auto.
Qed.
Lemma positions_ahead g d va : regular_dir d -> positions g (mk_view d va) d = 1.
Proof.
  intros Hr. pose proof (regular_nonzero d Hr) as Hd. unfold positions.
  replace (norm d) with (vm_dxyz (mk_view d va)) by (apply mk_view_dxyz; auto).
  rewrite w2v_dir by auto. unfold pidx. rewrite plane_tau_axis. cbn [vy vz vx].
  replace (Rltb 0 0) with false by (symmetry; apply Rltb_false; lra).
  replace (Rltb 1 0) with false by (symmetry; apply Rltb_false; lra).
  destruct g; auto.
Qed.
Lemma dot_norm_pos d v k : d <> vzero -> v <> vzero -> dot d v = k -> dot (norm d) (norm v) = k / (vnorm d * vnorm v).
Proof.
  intros Hd Hv <-. pose proof (vnorm_pos d Hd). pose proof (vnorm_pos v Hv).
  unfold norm, dot. cbn [vx vy vz]. field. lra.
Qed.
Lemma positions_behind d va v : regular_dir d -> v <> vzero -> dot d v < 0 -> positions true (mk_view d va) v = 16.
Proof.
  intros Hr Hv Hdot. pose proof (regular_nonzero d Hr) as Hd. unfold positions, pidx.
  rewrite w2v_z by auto. rewrite mk_view_dxyz by auto. rewrite (dot_norm_pos d v _ Hd Hv eq_refl).
  pose proof (vnorm_pos d Hd). pose proof (vnorm_pos v Hv).
  assert (0 < vnorm d * vnorm v) by (apply Rmult_lt_0_compat; auto).
  replace (Rltb (dot d v / (vnorm d * vnorm v)) 0) with true.
  - cbn [option_map]. unfold Rmin; destruct (Rle_dec 16 16); lra.
  - symmetry. apply Rltb_true. apply Rmult_lt_reg_r with (vnorm d * vnorm v); auto.
    unfold Rdiv. rewrite Rmult_assoc, Rinv_l by lra. lra.
Qed.
(** scale of the vector is irrelevant *)
Lemma positions_scale g vm k v : 0 < k -> v <> vzero -> positions g vm (vscale k v) = positions g vm v.
Proof. intros Hk Hv. unfold positions. rewrite norm_scale by auto. auto. Qed.

(** ** view space *)
Lemma v2w_unit d va w : dot w w = 1 -> dot (view2world (mk_view d va) w) (view2world (mk_view d va) w) = 1.
Proof. intros H. rewrite v2w_dot. auto. Qed.
Lemma positions_view g d va w : regular_dir d -> dot w w = 1 ->
  positions g (mk_view d va) (view2world (mk_view d va) w) = pidx g w (acos (vz w) * 180 / PI).
Proof.
  intros Hr Hw. unfold positions. rewrite norm_unit_id by (apply v2w_unit; auto).
  rewrite w2v_v2w. f_equal. unfold vm_degrees. f_equal. f_equal.
  unfold vm_radians. rewrite <- (w2v_z d va) by auto. rewrite w2v_v2w.
  assert (-1 <= vz w <= 1) by (apply unit_z; auto).
  f_equal. unfold clip, Rmin, Rmax. destruct (Rle_dec (vz w) (-1)); destruct (Rle_dec _ 1); lra.
Qed.
Lemma pidx_mirror g x y z s : pidx g (V3 (- x) y z) s = pidx g (V3 x y z) s.
Proof.
  unfold pidx, plane_tau, iwata_sigma. cbn [vx vy vz].
  replace (square (- x)) with (square x) by (unfold square; ring). auto.
Qed.
(** direction at angle t off the view direction, azimuth p measured from the right (x) towards up (y) *)
Lemma plane_tau_sph t p : 0 < t < PI -> plane_tau (sph t p) = Some (acos (sin p) * 180 / PI).
Proof.
  intros Ht. unfold plane_tau, sph, square. cbn [vx vy].
  pose proof (sin_gt_0 t (proj1 Ht) (proj2 Ht)) as Hs.
  replace (sin t * cos p * (sin t * cos p) + sin t * sin p * (sin t * sin p)) with (sin t * sin t * (sin p * sin p + cos p * cos p)) by ring.
  rewrite sin2cos2, Rmult_1_r. rewrite sqrt_square by lra.
  replace (Reqb (sin t) 0) with false by (symmetry; apply Reqb_false; lra).
  f_equal. f_equal. f_equal. f_equal. field. lra.
Qed.
Lemma iwata_mono t1 t2 p : 0 < t1 -> t1 <= t2 -> t2 <= PI / 2 -> iwata_sigma (sph t1 p) <= iwata_sigma (sph t2 p).
Proof.
  intros H1 H2 H3. pose proof PI_pos. unfold iwata_sigma, sph, square. cbn [vx vy vz].
  apply Rmult_le_compat_l; [apply Rmult_le_pos; [lra|left; apply Rinv_0_lt_compat; auto]|].
  assert (K : forall t, 0 < t -> t <= PI / 2 ->
    sqrt (sin t * cos p * (sin t * cos p) + sin t * sin p * 1.15 * (sin t * sin p * 1.15)) =
    sin t * sqrt (cos p * cos p + sin p * 1.15 * (sin p * 1.15))).
  { intros t A B. pose proof (sin_gt_0 t A ltac:(lra)).
    replace (sin t * cos p * (sin t * cos p) + sin t * sin p * 1.15 * (sin t * sin p * 1.15))
      with (sin t * sin t * (cos p * cos p + sin p * 1.15 * (sin p * 1.15))) by ring.
    rewrite sqrt_mult by nra. rewrite sqrt_square by lra. auto. }
  rewrite !K by lra. set (q := sqrt (cos p * cos p + _)). assert (Hq : 0 <= q) by apply sqrt_pos.
  destruct (Reqb (cos t2) 0) eqn:E2.
  - destruct (Reqb (cos t1) 0); [lra|]. left. apply atan_bound.
  - apply Reqb_false in E2.
    assert (Hlt : t2 < PI / 2).
    { destruct H3 as [|H3]; auto. subst t2. rewrite cos_PI2 in E2. lra. }
    assert (C1 : 0 < cos t1) by (apply cos_gt_0; lra). assert (C2 : 0 < cos t2) by (apply cos_gt_0; lra).
    replace (Reqb (cos t1) 0) with false by (symmetry; apply Reqb_false; lra).
    destruct (Req_dec t1 t2) as [->|Hne]; [lra|].
    assert (Ht : tan t1 < tan t2) by (apply tan_increasing; lra). unfold tan in Ht.
    assert (Hle : sin t1 * q / cos t1 <= sin t2 * q / cos t2).
    { replace (sin t1 * q / cos t1) with (sin t1 / cos t1 * q) by (field; lra).
      replace (sin t2 * q / cos t2) with (sin t2 / cos t2 * q) by (field; lra).
      apply Rmult_le_compat_r; lra. }
    destruct Hle as [Hle|Hle]; [left; apply atan_increasing; auto|rewrite Hle; lra].
Qed.
Lemma acos_cos' t : 0 <= t <= PI -> acos (cos t) = t. Proof. apply acos_cos. Qed.
Lemma Rmin_mono x y : x <= y -> Rmin 16 x <= Rmin 16 y.
Proof. intros H. unfold Rmin. destruct (Rle_dec 16 x), (Rle_dec 16 y); lra. Qed.
Lemma deg_mono t1 t2 : t1 <= t2 -> t1 * 180 / PI <= t2 * 180 / PI.
Proof. intros H. pose proof PI_pos. apply Rmult_le_compat_r; [left; apply Rinv_0_lt_compat; auto|lra]. Qed.
Lemma pidx_mono t1 t2 p : 0 < t1 -> t1 <= t2 -> t2 < PI ->
  pidx true (sph t1 p) (t1 * 180 / PI) <= pidx true (sph t2 p) (t2 * 180 / PI).
Proof.
  intros H1 H2 H3. pose proof PI_pos.
  destruct (Rlt_dec (cos t2) 0) as [Hc|Hc].
  - replace (pidx true (sph t2 p) (t2 * 180 / PI)) with 16.
    + apply pidx_guth_range. pose proof (deg_mono 0 t1 ltac:(lra)). lra.
    + unfold pidx. assert (V2 : vz (sph t2 p) = cos t2) by reflexivity. rewrite V2.
      replace (Rltb (cos t2) 0) with true by (symmetry; apply Rltb_true; auto). cbn [option_map]. unfold Rmin; destruct (Rle_dec 16 16); lra.
  - assert (Ht2 : t2 <= PI / 2).
    { destruct (Rle_dec t2 (PI / 2)); auto. exfalso. apply Hc. apply cos_lt_0; lra. }
    assert (C1 : 0 <= cos t1) by (apply cos_ge_0; lra). assert (C2 : 0 <= cos t2) by lra.
    unfold pidx. rewrite !plane_tau_sph by lra.
    assert (V1 : vz (sph t1 p) = cos t1) by reflexivity. assert (V2 : vz (sph t2 p) = cos t2) by reflexivity.
    rewrite V1, V2. replace (Rltb (cos t1) 0) with false by (symmetry; apply Rltb_false; auto).
    replace (Rltb (cos t2) 0) with false by (symmetry; apply Rltb_false; auto).
    pose proof (sin_gt_0 t1 ltac:(lra) ltac:(lra)) as S1. pose proof (sin_gt_0 t2 ltac:(lra) ltac:(lra)) as S2.
    assert (Y1 : vy (sph t1 p) = sin t1 * sin p) by reflexivity. assert (Y2 : vy (sph t2 p) = sin t2 * sin p) by reflexivity.
    rewrite Y1, Y2. destruct (Rlt_dec (sin p) 0) as [Hp|Hp].
    + replace (Rltb (sin t1 * sin p) 0) with true by (symmetry; apply Rltb_true; nra).
      replace (Rltb (sin t2 * sin p) 0) with true by (symmetry; apply Rltb_true; nra).
      cbn [option_map]. apply Rmin_mono. apply guth_mono; [lra|]. split; [apply iwata_nonneg; rewrite V1; auto|apply iwata_mono; lra].
    + replace (Rltb (sin t1 * sin p) 0) with false by (symmetry; apply Rltb_false; nra).
      replace (Rltb (sin t2 * sin p) 0) with false by (symmetry; apply Rltb_false; nra).
      cbn [option_map]. apply Rmin_mono. apply guth_mono.
      * assert (Hs : 0 <= sin p <= 1) by (pose proof (SIN_bound p); lra).
        pose proof (acos_le_half _ Hs) as [A B]. pose proof (deg_mono _ _ A). pose proof (deg_mono _ _ B).
        replace (PI / 2 * 180 / PI) with 90 in * by (field; lra). lra.
      * split; [pose proof (deg_mono 0 t1 ltac:(lra)); lra|apply deg_mono; auto].
Qed.
Lemma positions_mono d va t1 t2 p : regular_dir d -> 0 < t1 -> t1 <= t2 -> t2 < PI ->
  positions true (mk_view d va) (view2world (mk_view d va) (sph t1 p)) <=
  positions true (mk_view d va) (view2world (mk_view d va) (sph t2 p)).
Proof.
  intros Hr H1 H2 H3. rewrite !positions_view by (auto; apply sph_unit).
  assert (V : forall t, vz (sph t p) = cos t) by reflexivity. rewrite !V.
  rewrite !acos_cos by lra. apply pidx_mono; auto.
Qed.
Lemma positions_mirror g d va x y z : regular_dir d -> x * x + y * y + z * z = 1 ->
  positions g (mk_view d va) (view2world (mk_view d va) (V3 (- x) y z)) =
  positions g (mk_view d va) (view2world (mk_view d va) (V3 x y z)).
Proof.
  intros Hr Hu. rewrite !positions_view by (auto; unfold dot; cbn [vx vy vz]; lra).
  cbn [vz]. apply pidx_mirror.
Qed.
(** Kim's index next to the view direction: below 1/5, although it is 1 at the view direction itself *)
Lemma kim_near t : 0 < t < PI / 180 -> pidx false (sph t (PI / 2)) (t * 180 / PI) < 1 / 5.
Proof.
  intros Ht. pose proof PI_pos. unfold pidx. rewrite plane_tau_sph by lra. rewrite sin_PI2, acos_1. cbn [option_map].
  replace (0 * 180 / PI) with 0 by (field; lra). unfold pidx_kim.
  replace (- 0.000009 * (0 * 0 * 0) + 0.0014 * (0 * 0) + 0.0866 * 0 + 21.633) with 21.633 by ring.
  replace (- 0.000009 * (0 * 0 * 0) + 0.0013 * (0 * 0) + 0.0853 * 0 + 8.772) with 8.772 by ring.
  assert (Hd : t * 180 / PI < 1).
  { apply Rmult_lt_reg_r with PI; auto. unfold Rdiv. rewrite Rmult_assoc, Rinv_l by lra. lra. }
  assert (E2 : 5 < exp 2).
  { pose proof (exp_ineq1 (1 / 2) ltac:(lra)) as H1. replace 2 with (1 / 2 + 1 / 2 + (1 / 2 + 1 / 2)) by field.
    rewrite !exp_plus. set (e := exp (1 / 2)) in *. assert (2.25 < e * e) by nra. nra. }
  apply Rlt_trans with (exp (-2)).
  - apply exp_increasing. apply Rmult_lt_reg_r with 8.772; [lra|]. unfold Rdiv. rewrite Rmult_assoc, Rinv_l; lra.
  - replace (-2) with (- (2)) by ring. rewrite exp_Ropp. unfold Rdiv. rewrite Rmult_1_l. apply Rinv_lt_contravar; [|auto]. apply Rmult_lt_0_compat; [lra|apply exp_pos].
Qed.
