(** A one pixel image that the score accepts. *)
From Coq Require Import Lra Lia Psatz.
From Verif Require Import Base L_Base L_Trig M_Translate S_Translate L_Angles M_Mapper S_Mapper L_Mapper L_Draw M_Io L_Io M_Gss S_Gss L_Gss L_Gss2 L_Gss3 L_Gss4 L_Gss5 L_Gss6.
Local Open Scope R_scope.


Lemma dot_square l : square_img (dot_img l).
Proof. repeat split. Qed.
Lemma one_ray d va : regular_dir d -> hemi_angle va -> pixelrays (mk_view d va) 1 = [norm d].
Proof.
  intros G H. unfold pixelrays. rewrite mk_view_hemi_aspect by exact H. cbn [Z.eqb Pos.eqb]. unfold pixelrays1, zgrid, zrange.
  change (Z.to_nat 1) with 1%nat. cbn [seq map flat_map app fst snd Z.of_nat]. f_equal.
  unfold pixel2ray. cbn [fst snd]. rewrite vxy2xyz_eq. cbn [fst snd].
  replace ((0 + 1 / 2) / 1 - 1 / 2) with 0 by field. rewrite !Rmult_0_l.
  rewrite ang2dir_0 by (unfold pd; cbn [fst snd]; unfold square; rewrite !Rmult_0_l, Rplus_0_r; apply sqrt_0).
  rewrite <- (w2v_dir d va G), v2w_w2v. apply mk_view_dxyz. now apply regular_nonzero.
Qed.
Lemma one_in_view d va : regular_dir d -> hemi_angle va -> in_view (mk_view d va) 0 (norm d) = true.
Proof.
  intros G H. pose proof (norm_dot d (regular_nonzero d G)) as N. apply in_view_complete; auto; [now apply regular_nonzero|].
  unfold angle. rewrite N, acos_1. pose proof (half_range va H). unfold half in *. lra.
Qed.
Lemma one_omega d va : hemi_angle va -> exists w, 0 < w /\ pixel_omegas (mk_view d va) 1 = [w].
Proof.
  intros H. unfold pixel_omegas, zgrid, zrange. change (Z.to_nat 1) with 1%nat. cbn [seq map flat_map app fst snd Z.of_nat].
  eexists. split; [|reflexivity]. rewrite omega_eq. cbn [fst snd]. unfold om, vnorm. apply sqrt_lt_R0. rewrite cross_sqr.
  pose proof (vscl_range d va H) as V. set (s := vscl d va) in *. clearbody s. unfold view_at.
  replace ((0 + 1 / 2 - 1 / 2) / 1 - 1 / 2) with (- (1 / 2)) by field. replace ((0 + 1 / 2 + 1 / 2) / 1 - 1 / 2) with (1 / 2) by field.
  replace ((0 + 1 / 2) / 1 - 1 / 2) with 0 by field. rewrite !Rmult_0_l.
  replace (- (1 / 2) * (-1 * s)) with (s / 2) by field. replace (1 / 2 * (-1 * s)) with (- (s / 2)) by field.
  replace (- (1 / 2) * (1 * s)) with (- (s / 2)) by field. replace (1 / 2 * (1 * s)) with (s / 2) by field.
  rewrite ang2dir_flip.
  assert (pd (s / 2, 0) = s / 2) as P1.
  { unfold pd. cbn [fst snd]. unfold square. rewrite Rmult_0_l, Rplus_0_r. apply sqrt_square. lra. }
  assert (pd (0, s / 2) = s / 2) as P2.
  { unfold pd. cbn [fst snd]. unfold square. rewrite Rmult_0_l, Rplus_0_l. apply sqrt_square. lra. }
  assert (pd (0, - (s / 2)) = s / 2) as P3.
  { unfold pd. cbn [fst snd]. unfold square. rewrite Rmult_0_l, Rplus_0_l. replace (- (s / 2) * - (s / 2)) with (s / 2 * (s / 2)) by ring. apply sqrt_square. lra. }
  rewrite !ang2dir_eq by lra. rewrite P1, P2, P3. cbn [fst snd vx vy vz].
  assert (0 < sin (PI * (s / 2))) as S by (pose proof PI_RGT_0; apply sin_gt_0; [apply Rmult_lt_0_compat; lra|nra]).
  set (c := cos (PI * (s / 2))). set (q := sin (PI * (s / 2))) in *. clearbody c q.
  unfold vsub, dot. cbn [vx vy vz]. rewrite !Rmult_0_l.
  match goal with |- 0 < ?x => replace x with (16 * q ^ 4) by (field; lra) end. apply Rmult_lt_0_compat; [lra|]. apply pow_lt. exact S.
Qed.
Lemma dot_accepted d va l scale : regular_dir d -> hemi_angle va -> l * scale <> 0 ->
  snd (set_lum scale (gss_new (mk_view d va)) (dot_img l)) = None.
Proof.
  intros G H Hl. apply accept_iff; [now apply mk_view_hemi_aspect|apply dot_square|]. exists 0%nat. cbn [dot_img gi_px gi_nx length nth].
  rewrite one_ray by assumption. destruct (one_omega d va H) as (w & Hw & ->). cbn [nth]. rewrite one_in_view by assumption. repeat split; auto; lra.
Qed.
Lemma dot_seen d va : regular_dir d -> hemi_angle va -> 0 < seen_omega (mk_view d va) 1.
Proof.
  intros G H. unfold seen_omega. rewrite one_ray by assumption. destruct (one_omega d va H) as (w & Hw & ->). unfold Rsumf. cbn [combine map Rsum fold_right fst snd].
  rewrite one_in_view by assumption. lra.
Qed.
Lemma dot_illum d va l : regular_dir d -> hemi_angle va -> 0 < l -> 0 < seen_illuminance (mk_view d va) (dot_img l).
Proof.
  intros G H Hl. unfold seen_illuminance. cbn [dot_img gi_nx gi_px]. rewrite one_ray by assumption. destruct (one_omega d va H) as (w & Hw & ->).
  unfold Rsumf. cbn [combine map Rsum fold_right fst snd]. rewrite one_in_view by assumption. rewrite mk_view_dxyz by now apply regular_nonzero.
  rewrite (norm_dot d (regular_nonzero d G)). replace (clip 1 (-1) 1) with 1 by (unfold clip, Rmin, Rmax; repeat destruct (Rle_dec _ _); lra).
  rewrite Rmax_right by lra. rewrite Rplus_0_r. apply Rmult_lt_0_compat; lra.
Qed.
Lemma trivial_ok : filters_ok trivial_filters.
Proof.
  unfold filters_ok, trivial_filters, smoothing. cbn [flt_gauss flt_gauss_trunc flt_conv]. repeat split; auto; try (intros; apply map_length).
  - intros l k lo hi Hk B. apply Forall_map. eapply Forall_impl; [|exact B]. cbv beta. intros a Ha. pose proof (Rsum_nonneg k Hk). split; apply Rmult_le_compat_r; lra.
  - intros l k c B. apply Forall_map. eapply Forall_impl; [|exact B]. cbv beta. intros a Ha. assert (a = c) by lra. subst. lra.
Qed.
