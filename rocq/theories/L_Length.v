(** Lemmas on the lengths of direction vectors. *)
From Coq Require Import Lra Lia.
From Verif Require Import Base L_Base BaseX M_Translate S_Translate M_Mapper S_Mapper M_Io M_Metric S_Metric L_Angles L_Mapper L_Metric L_Metric2 L_Pidx L_Construct2 S_Length.
Import ListNotations.
Local Open Scope R_scope.

Lemma len_nonzero k v : 0 < k -> v <> vzero -> vscale k v <> vzero.
Proof. intros K N E. apply N. destruct v as [x y z]. unfold vscale, vzero in *. cbn in E. injection E as A B C. f_equal; nra. Qed.
Lemma len_norm v w : same_direction v w -> norm w = norm v.
Proof. intros [N [k [K ->]]]. now apply norm_scale. Qed.
Lemma len_view v w va : same_direction v w -> mk_view w va = mk_view v va.
Proof.
  intros S. assert (E : norm1 w = norm1 v) by (pose proof S as [N [k [K ->]]]; rewrite !norm1_nonzero by auto using len_nonzero; now apply norm_scale).
  unfold mk_view. now rewrite E.
Qed.
Lemma len_rays a b : other_lengths a b -> normed a = normed b.
Proof. intros H. induction H as [|r r' a b [S [O L]] H IH]; [reflexivity|]. unfold normed in *. cbn [map]. now rewrite IH, (len_norm _ _ S), O, L. Qed.
Lemma len_construct fuel o vm a b : other_lengths a b -> construct fuel o vm a = construct fuel o vm b.
Proof. intros H. unfold construct, view_rays. fold (normed a) (normed b). now rewrite (len_rays a b H). Qed.
Lemma len_color fuel o vm vl a b : other_lengths_color a b -> construct_color fuel o vm vl a = construct_color fuel o vm vl b.
Proof.
  intros H. unfold construct_color. set (f := fun a : vec3 * R * list R => Ray (fst (fst a)) (snd (fst a)) (rgb2rad vl (snd a))).
  assert (S : other_lengths (map f a) (map f b)).
  { unfold other_lengths. induction H as [|r r' a b [S [O L]] H IH]; [constructor|]. cbn [map]. constructor; [|exact IH]. unfold f. cbn [r_vec r_omega r_lum]. now rewrite O, L. }
  rewrite (len_construct fuel o vm _ _ S). destruct (construct fuel o vm (map f b)) as [[m om]|]; [|reflexivity].
  assert (M : view_rays vm (map f a) = view_rays vm (map f b)) by (unfold view_rays; fold (normed (map f a)) (normed (map f b)); now rewrite (len_rays _ _ S)).
  assert (C : map snd a = map snd b) by (clear M S; induction H as [|r r' a b [_ [_ L]] H IH]; [reflexivity|]; cbn [map]; now rewrite L, IH).
  rewrite M, C. reflexivity.
Qed.
Lemma len_w2v m k v : world2view_m m (vscale k v) = vscale k (world2view_m m v).
Proof. unfold world2view_m. destruct m as [[[? ? ?] [? ? ?] [? ? ?]] [[? ? ?] [? ? ?] [? ? ?]]], v as [x y z]. unfold mmulv, vscale, dot. cbn. f_equal; ring. Qed.
Lemma len_xy fl k v : 0 < k -> xyz2xy xyz_axes fl (vscale k v) = xyz2xy xyz_axes fl v.
Proof.
  intros K. unfold xyz2xy, xyz_axes. assert (G : forall i, vget (vscale k v) i = k * vget v i) by (intros [|[|i]]; destruct v; reflexivity). rewrite !G.
  assert (Q : sqrt (square (k * vget v 0) + square (k * vget v 1)) = k * sqrt (square (vget v 0) + square (vget v 1))).
  { unfold square. replace (k * vget v 0 * (k * vget v 0) + k * vget v 1 * (k * vget v 1)) with (k * k * (vget v 0 * vget v 0 + vget v 1 * vget v 1)) by ring.
    rewrite sqrt_mult by nra. rewrite sqrt_square by lra. reflexivity. }
  rewrite Q, !arctan2_scale by exact K. reflexivity.
Qed.
Lemma len_clip k x : 0 < k -> 0 < clip (k * x) (-1) 1 <-> 0 < clip x (-1) 1.
Proof.
  intros K. assert (P : forall y, 0 < clip y (-1) 1 <-> 0 < y) by (intros y; unfold clip, Rmin, Rmax; repeat destruct (Rle_dec _ _); lra). rewrite !P. split; intros; nra.
Qed.
Lemma clip_unit y : -1 <= clip y (-1) 1 <= 1.
Proof. unfold clip, Rmin, Rmax; repeat destruct (Rle_dec _ _); lra. Qed.
Lemma len_in_view d k v : 0 < k -> in_view (mk_view d 360) 0 (vscale k v) = in_view (mk_view d 360) 0 v.
Proof.
  intros K. assert (E : vm_chordfactor (mk_view d 360) * vm_viewangle (mk_view d 360) * PI / 360 = PI / 2).
  { rewrite chordfactor_360. rewrite (proj1 (mk_view_360 d)). field. }
  assert (A : forall w, in_view (mk_view d 360) 0 w = true <-> 0 < clip (dot (vm_dxyz (mk_view d 360)) w) (-1) 1).
  { intros w. unfold in_view, vm_radians. rewrite Rltb_true, E, Rminus_0_r. apply acos_half_pi, clip_unit. }
  assert (D : dot (vm_dxyz (mk_view d 360)) (vscale k v) = k * dot (vm_dxyz (mk_view d 360)) v) by (unfold dot, vscale; cbn; ring).
  apply Bool.eq_iff_eq_true. rewrite !A, D. now apply len_clip.
Qed.
Lemma len_vxy d va v w : same_direction v w -> xyz2vxy (mk_view d va) w = xyz2vxy (mk_view d va) v.
Proof.
  intros [N [k [K ->]]]. unfold xyz2vxy. assert (P : forall vm, xyz2vxy1 vm (vscale k v) = xyz2vxy1 vm v).
  { intros vm. unfold xyz2vxy1, world2view. now rewrite len_w2v, len_xy. }
  rewrite !P. destruct (Req_EM_T va 360) as [->|E].
  - rewrite (len_in_view d k v K). unfold world2view. now rewrite len_w2v, len_xy.
  - replace (vm_aspect (mk_view d va)) with 1%Z; [reflexivity|]. unfold mk_view. cbn [vm_aspect]. destruct (Reqb va 360) eqn:Q; [apply Reqb_true in Q; contradiction|reflexivity].
Qed.
Lemma len_pixel d va res v w : same_direction v w -> ray2pixel (mk_view d va) res w = ray2pixel (mk_view d va) res v.
Proof. intros S. unfold ray2pixel, ray2pixelf. now rewrite (len_vxy d va v w S). Qed.
Lemma len_uv axes fl v w : same_direction v w -> xyz2uv true axes fl w = xyz2uv true axes fl v.
Proof. intros S. unfold xyz2uv. now rewrite (len_norm v w S). Qed.
Lemma len_translate axes fl side v w : same_direction v w -> norm w = norm v /\ xyz2uv true axes fl w = xyz2uv true axes fl v /\ xyz2skybin w side true = xyz2skybin v side true /\
  xyz2xy xyz_axes fl w = xyz2xy xyz_axes fl v.
Proof.
  intros S. split; [now apply len_norm|]. split; [now apply len_uv|]. split; [unfold xyz2skybin; now rewrite (len_uv _ _ v w S)|].
  destruct S as [N [k [K ->]]]. now apply len_xy.
Qed.
Lemma len_pos g vm v w : same_direction v w -> positions g vm w = positions g vm v.
Proof. intros [N [k [K ->]]]. now apply positions_scale. Qed.
Lemma len_views d d' va v w res g : same_direction d d' -> same_direction v w ->
  mk_view d' va = mk_view d va /\ xyz2vxy (mk_view d' va) w = xyz2vxy (mk_view d va) v /\ ray2pixel (mk_view d' va) res w = ray2pixel (mk_view d va) res v /\
  positions g (mk_view d' va) w = positions g (mk_view d va) v.
Proof.
  intros D S. rewrite (len_view d d' va D). split; [reflexivity|]. split; [now apply len_vxy|]. split; [now apply len_pixel|now apply len_pos].
Qed.
(** the test for the view itself takes unit vectors *)
Definition sixty : vec3 := tilt (PI / 3).
Lemma sixty_dot k : dot (vm_dxyz (mk_view up3 90)) (vscale k sixty) = k / 2.
Proof. rewrite mk_view_dxyz by apply up3_nonzero. rewrite norm_up3. unfold sixty, tilt, up3, dot, vscale. cbn [vx vy vz]. rewrite cos_PI3. field. Qed.
Lemma len_refuted : exists d va v w, same_direction v w /\ dot v v = 1 /\
  in_view (mk_view d va) 0 v = false /\ in_view (mk_view d va) 0 w = true /\ vm_degrees (mk_view d va) v = 60 /\ vm_degrees (mk_view d va) w = 0.
Proof.
  assert (D : forall k, -1 <= k / 2 <= 1 -> vm_radians (mk_view up3 90) (vscale k sixty) = acos (k / 2)).
  { intros k K. unfold vm_radians. rewrite sixty_dot. f_equal. unfold clip, Rmin, Rmax. repeat destruct (Rle_dec _ _); lra. }
  assert (O : vscale 1 sixty = sixty) by (unfold sixty, tilt, vscale; cbn [vx vy vz]; f_equal; ring).
  pose proof (D 1 ltac:(lra)) as D1. rewrite O in D1. pose proof (D 2 ltac:(lra)) as D2.
  assert (A : acos (1 / 2) = PI / 3) by (rewrite <- cos_PI3; apply acos_cos; pose proof PI_RGT_0; lra). rewrite A in D1.
  replace (2 / 2) with 1 in D2 by field. rewrite acos_1 in D2. pose proof PI_RGT_0 as Pi.
  assert (H : hemi_angle 90) by (unfold hemi_angle; lra).
  exists up3, 90, sixty, (vscale 2 sixty). split; [split; [apply unit_nonzero, tilt_unit|exists 2; split; [lra|reflexivity]]|]. split; [apply tilt_unit|]. split; [|split].
  - apply Bool.not_true_is_false. intros X. apply in_view_sound in X; [|apply up3_nonzero|apply tilt_unit|exact H]. unfold sixty in X. rewrite tilt_angle in X by lra. unfold half in X. lra.
  - unfold in_view. rewrite D2, Rltb_true. rewrite mk_view_hemi_va by exact H. pose proof (chordfactor_bounds up3 90 H). nra.
  - unfold vm_degrees. rewrite D1, D2. split; [field; lra|unfold Rdiv; ring].
Qed.
Lemma len_example : other_lengths [ray1 3] [Ray (V3 0 0 7) 1 3].
Proof.
  constructor; [|constructor]. cbn [ray1 r_vec r_omega r_lum]. split; [|split; reflexivity]. split; [apply up3_nonzero|]. exists 7. split; [lra|].
  unfold vscale, up3. cbn [vx vy vz]. f_equal; ring.
Qed.
