(** The peak of the point spread kernel. *)
From Coq Require Import Lra Lia Psatz.
From Verif Require Import Base L_Base L_Trig M_Translate S_Translate L_Angles M_Mapper M_Io S_Mapper L_Mapper L_Io L_Initimg L_Draw M_Gss S_Gss L_Gss L_Gss8 L_Gss9 L_Gss11 L_Kernel.
Local Open Scope R_scope.

Definition at_px (s : R) (r : Z) (x y : R) : R * R := ((x / IZR r - 1 / 2) * (-1 * s), (y / IZR r - 1 / 2) * (1 * s)).
Lemma px_omega_le d va r x y : hemi_angle va -> (0 < r)%Z -> 1 / 2 <= x <= IZR r - 1 / 2 -> 1 / 2 <= y <= IZR r - 1 / 2 -> pixel2omega (mk_view d va) r (x, y) <= step2 (vscl d va) r.
Proof.
  intros H Hr Hx Hy. pose proof (vscl_range d va H) as S. set (s := vscl d va) in *. rewrite omega_eq. cbn [fst snd]. fold s. clearbody s.
  assert (A : 0 <= step2 s r) by (unfold step2; pose proof (COS_bound (PI * (s / IZR r))); lra).
  unfold om, vnorm. rewrite <- (sqrt_square (step2 s r)) by exact A. apply sqrt_le_1_alt. rewrite cross_sqr.
  pose proof (chord_le s r (x + 1 / 2) y (x - 1 / 2) y S Hr ltac:(lra) ltac:(lra) ltac:(lra) ltac:(lra) ltac:(field)) as C1. cbv zeta in C1.
  pose proof (chord_le s r x (y + 1 / 2) x (y - 1 / 2) S Hr ltac:(lra) ltac:(lra) ltac:(lra) ltac:(lra) ltac:(field)) as C2. cbv zeta in C2.
  set (u := vsub _ _) in C1. set (w := vsub (view_at s r x (y + 1 / 2)) _) in C2. fold u w.
  assert (0 <= dot u u) by (unfold dot; nra). assert (0 <= dot w w) by (unfold dot; nra). pose proof (Rle_0_sqr (dot u w)) as Q. unfold Rsqr in Q.
  assert (dot u u * dot w w <= step2 s r * step2 s r) by (apply Rmult_le_compat; assumption). lra.
Qed.
Lemma px_omega_mid d va r : hemi_angle va -> (1 <= r)%Z -> pixel2omega (mk_view d va) r (IZR r / 2, IZR r / 2) = step2 (vscl d va) r.
Proof.
  intros H Hr. pose proof (vscl_range d va H) as S. set (s := vscl d va) in *. rewrite omega_eq. cbn [fst snd]. fold s. clearbody s.
  assert (1 <= IZR r) as R1 by (apply IZR_le in Hr; exact Hr). set (h := s / IZR r / 2).
  assert (0 < h <= 1 / 2) as Hh.
  { unfold h. assert (0 < s / IZR r) by (apply Rdiv_lt_0_compat; lra). split; [lra|]. assert (s / IZR r <= 1); [|lra]. apply (Rmult_le_reg_r (IZR r)); [lra|]. unfold Rdiv. rewrite Rmult_assoc, Rinv_l by lra. lra. }
  assert (A : 0 <= step2 s r) by (unfold step2; pose proof (COS_bound (PI * (s / IZR r))); lra).
  unfold view_at. replace ((IZR r / 2 - 1 / 2) / IZR r - 1 / 2) with (- (1 / (2 * IZR r))) by (field; lra). replace ((IZR r / 2 + 1 / 2) / IZR r - 1 / 2) with (1 / (2 * IZR r)) by (field; lra).
  replace (IZR r / 2 / IZR r - 1 / 2) with 0 by (field; lra). rewrite !Rmult_0_l.
  replace (- (1 / (2 * IZR r)) * (-1 * s)) with h by (unfold h; field; lra). replace (1 / (2 * IZR r) * (-1 * s)) with (- h) by (unfold h; field; lra).
  replace (- (1 / (2 * IZR r)) * (1 * s)) with (- h) by (unfold h; field; lra). replace (1 / (2 * IZR r) * (1 * s)) with h by (unfold h; field; lra).
  assert (D1 : pd (h, 0) = h). { unfold pd. cbn [fst snd]. rewrite <- (sqrt_square h) at 2 by lra. f_equal. unfold square. ring. }
  assert (D2 : pd (0, h) = h). { unfold pd. cbn [fst snd]. rewrite <- (sqrt_square h) at 2 by lra. f_equal. unfold square. ring. }
  assert (D3 : pd (0, - h) = h). { unfold pd. cbn [fst snd]. rewrite <- (sqrt_square h) at 2 by lra. f_equal. unfold square. ring. }
  rewrite ang2dir_flip. rewrite !ang2dir_eq by (rewrite ?D1, ?D2, ?D3; lra). rewrite D1, D2, D3. cbn [fst snd vx vy vz].
  replace (PI * (s / IZR r)) with (2 * (PI * h)) in * by (unfold h; field; lra).
  assert (E : step2 s r = 4 * (sin (PI * h) * sin (PI * h))).
  { unfold step2. replace (PI * (s / IZR r)) with (2 * (PI * h)) by (unfold h; field; lra). rewrite cos_2a_sin. ring. }
  unfold om, vnorm. rewrite cross_sqr. unfold dot, vsub. cbn [vx vy vz]. rewrite E in *. rewrite <- (sqrt_square (4 * _)) by exact A. f_equal. field. lra.
Qed.
Lemma step2_pos s r : 0 < s <= 1 -> (1 <= r)%Z -> 0 < step2 s r.
Proof.
  intros S Hr. assert (1 <= IZR r) as R1 by (apply IZR_le in Hr; exact Hr). unfold step2. assert (0 < s / IZR r <= 1).
  { split; [apply Rdiv_lt_0_compat; lra|]. apply (Rmult_le_reg_r (IZR r)); [lra|]. unfold Rdiv. rewrite Rmult_assoc, Rinv_l by lra. lra. }
  pose proof PI_RGT_0. assert (cos (PI * (s / IZR r)) < cos 0); [|rewrite cos_0 in *; lra]. apply cos_decreasing_1; nra.
Qed.
(** the angle of a pixel *)
Lemma px_radians d va r x y : regular_dir d -> hemi_angle va -> (0 < r)%Z -> 0 <= x <= IZR r -> 0 <= y <= IZR r ->
  vm_radians (mk_view d va) (pixel2ray (mk_view d va) r (x, y)) = PI * pd (at_px (vscl d va) r x y) /\ pd (at_px (vscl d va) r x y) < 1.
Proof.
  intros G H Hr Hx Hy. assert (0 < IZR r) as R0 by (apply (IZR_lt 0); lia). unfold pixel2ray. cbn [fst snd].
  assert (U : forall t, 0 <= t <= IZR r -> 0 <= t / IZR r <= 1).
  { intros t T. split; [apply Rmult_le_pos; [lra|left; now apply Rinv_0_lt_compat]|]. apply (Rmult_le_reg_r (IZR r)); [lra|]. unfold Rdiv. rewrite Rmult_assoc, Rinv_l by lra. lra. }
  pose proof (frame_ok d va (x / IZR r, y / IZR r) H ltac:(split; apply U; assumption)) as F.
  pose proof (vscl_range d va H) as S. rewrite pdist_pd in F. cbn [fst snd center] in F.
  assert (P : pd (at_px (vscl d va) r x y) < 1). { unfold at_px. rewrite pd_neg_scale by lra. rewrite Rmult_comm. exact F. }
  split; [|exact P]. rewrite vm_radians_eq; [|now apply regular_nonzero|].
  - rewrite <- w2v_z by exact G. rewrite vxy2xyz_eq, w2v_v2w, ang2dir_z. cbn [fst snd]. fold (at_px (vscl d va) r x y). pose proof PI_RGT_0. pose proof (pd_nonneg (at_px (vscl d va) r x y)). apply acos_cos. nra.
  - rewrite vxy2xyz_eq, v2w_dot. apply ang2dir_unit_all.
Qed.
Lemma px_in_view d va r x y : regular_dir d -> hemi_angle va -> (0 < r)%Z -> 0 <= x <= IZR r -> 0 <= y <= IZR r ->
  in_view (mk_view d va) 0 (pixel2ray (mk_view d va) r (x, y)) = true -> pd (at_px (vscl d va) r x y) < 1 / 2.
Proof.
  intros G H Hr Hx Hy. unfold in_view. rewrite Rltb_true. destruct (px_radians d va r x y G H Hr Hx Hy) as [-> _]. pose proof (vscl_range d va H) as S. unfold vscl in S.
  set (t := vm_viewangle _ * _ / 180) in S. replace (vm_chordfactor (mk_view d va) * vm_viewangle (mk_view d va) * PI / 360) with (PI * (t / 2)) by (unfold t; field). intros L.
  pose proof PI_RGT_0. nra.
Qed.

(** * the spread decreases *)
Lemma widths_le_1 age pigment pupd : 10 <= age <= 100 -> 0 < pigment < 1 -> 1.1 < pupd <= 8 ->
  exists b1 b2 b3, fst (psf_coef age pigment pupd) = [b1; b2; b3; 1] /\ 0 < b1 < 1 /\ 0 < b2 <= 1 /\ 0 < b3 <= 1.
Proof.
  intros Ha Hg Hp. pose proof (bs_spec age pigment pupd ltac:(lra) ltac:(lra) ltac:(lra)) as B.
  revert B. unfold psf_coef. cbv zeta. cbn [fst snd].
  set (A := 1 + (age / 70) ^ 4). assert (1 <= A <= 5.17) as HA.
  { unfold A. assert (0 <= age / 70 <= 10 / 7) as Q by lra. set (y := age / 70) in *. clearbody y. assert (0 <= y ^ 2 <= 100 / 49) as Q2 by (cbn; nra).
    replace (y ^ 4) with (y ^ 2 * y ^ 2) by ring. nra. }
  clearbody A. assert (1 <= sqrt A <= 2.28) as HR.
  { split; [rewrite <- sqrt_1 at 1; apply sqrt_le_1_alt; lra|]. rewrite <- (sqrt_square 2.28) by lra. apply sqrt_le_1_alt. lra. }
  set (r := sqrt A) in *. clearbody r. set (b := 9000 - 936 * r) in *. assert (6800 <= b <= 8064) as Hb by (unfold b; lra). clearbody b.
  set (pd := 1 + square (pupd / 3.2)) in *. set (dp := 1 + square (3.2 / pupd)) in *.
  assert (1 < pd <= 8) as Hpd by (unfold pd, square; split; nra).
  assert (1 < dp <= 10) as Hdp.
  { unfold dp, square. assert (0 < / pupd <= / 1.1) as I by (split; [apply Rinv_0_lt_compat; lra|apply Rinv_le_contravar; lra]). unfold Rdiv. 
    assert (/ 1.1 <= 0.91) by lra. nra. }
  clearbody pd dp. set (m := r / 2000 - 1 / (b * pupd)) in *.
  intros B. inversion B as [|? ? B1 B']; subst. inversion B' as [|? ? B2 B'']; subst. inversion B'' as [|? ? B3 _]; subst.
  assert (0 < m) as M0 by nra.
  assert (m <= 0.0012) as M1. { unfold m. assert (0 < 1 / (b * pupd)) by (apply Rdiv_lt_0_compat; nra). lra. }
  clearbody m. do 3 eexists. split; [reflexivity|]. repeat split; try assumption.
  - apply Rmult_lt_reg_r with (b * pupd); [nra|]. unfold Rdiv. rewrite Rmult_assoc, Rinv_l, Rmult_1_r by nra. nra.
  - nra.
  - assert (0 < / A <= 1) as IA by (split; [apply Rinv_0_lt_compat; lra|rewrite <- Rinv_1; apply Rinv_le_contravar; lra]).
    unfold Rdiv at 1. rewrite Rmult_1_l, <- Rinv_1. apply Rinv_le_contravar; unfold Rdiv; lra.
Qed.
Lemma f_b_mono b c x y : 0 < b <= 1 -> 0 < c -> 0 <= x <= y -> y <= PI / 2 -> f_b b c y <= f_b b c x.
Proof.
  intros Hb Hc Hx Hy. unfold f_b. pose proof PI_RGT_0. pose proof (den_mono b x y Hb Hx Hy) as D. pose proof (spread_den b x ltac:(lra)) as P.
  unfold Rdiv. apply Rmult_le_compat_l; [nra|]. assert (0 < Rpower (square (sin x) + square b * square (cos x)) 1.5) by apply exp_pos.
  apply Rinv_le_contravar; [apply Rmult_lt_0_compat; lra|]. apply Rmult_le_compat_l; [lra|]. apply Rle_Rpower_l; lra.
Qed.
Lemma f_b_less b c y : 0 < b < 1 -> 0 < c -> 0 < y <= PI / 2 -> f_b b c y < f_b b c 0.
Proof.
  intros Hb Hc Hy. unfold f_b. pose proof PI_RGT_0. pose proof (spread_den b 0 ltac:(lra)) as P.
  assert (D : square (sin 0) + square b * square (cos 0) < square (sin y) + square b * square (cos y)).
  { rewrite sin_0, cos_0. pose proof (sin2_cos2 y) as E. unfold Rsqr in E. unfold square. assert (0 < sin y) by (apply sin_gt_0; lra). replace (cos y * cos y) with (1 - sin y * sin y) by lra. assert (b * b < 1) by nra. assert (0 < sin y * sin y) by nra. nra. }
  unfold Rdiv. apply Rmult_lt_compat_l; [nra|]. assert (0 < Rpower (square (sin 0) + square b * square (cos 0)) 1.5) by apply exp_pos.
  assert (0 < Rpower (square (sin y) + square b * square (cos y)) 1.5) by apply exp_pos.
  apply Rinv_lt_contravar; [assert (T : forall a, 0 < a -> 0 < 2 * PI * a) by (intros; apply Rmult_lt_0_compat; lra); apply Rmult_lt_0_compat; now apply T|]. apply Rmult_lt_compat_l; [lra|]. unfold Rpower. apply exp_increasing. apply Rmult_lt_compat_l; [lra|]. now apply ln_increasing.
Qed.
Lemma spread_less age pigment pupd y : 10 <= age <= 100 -> 0 < pigment < 1 -> 1.1 < pupd <= 8 -> 0 < y <= PI / 2 ->
  spread f_b (psf_coef age pigment pupd) y < spread f_b (psf_coef age pigment pupd) 0.
Proof.
  intros Ha Hg Hp Hy. destruct (widths_le_1 age pigment pupd Ha Hg Hp) as (b1 & b2 & b3 & E & B1 & B2 & B3). destruct (cs_spec age pigment pupd Hg ltac:(lra)) as (C & _ & L).
  unfold spread. rewrite E. destruct (snd (psf_coef age pigment pupd)) as [|c1 [|c2 [|c3 [|c4 [|]]]]]; try discriminate L.
  inversion C as [|? ? C1 C']; subst. inversion C' as [|? ? C2 C'']; subst. inversion C'' as [|? ? C3 C''']; subst. inversion C''' as [|? ? C4 _]; subst.
  unfold Rsumf. cbn [combine map Rsum fold_right fst snd]. pose proof (f_b_less b1 c1 y B1 C1 Hy). pose proof (f_b_mono b2 c2 0 y B2 C2 ltac:(lra) ltac:(lra)).
  pose proof (f_b_mono b3 c3 0 y B3 C3 ltac:(lra) ltac:(lra)). pose proof (f_b_mono 1 c4 0 y ltac:(lra) C4 ltac:(lra) ltac:(lra)). lra.
Qed.

(** * the peak *)
Lemma argmax_from_spec : forall l best bi i c v, nth_error (best :: l) c = Some v -> (forall k x, k <> c -> nth_error (best :: l) k = Some x -> x < v) ->
  argmax_from best bi i l = match c with O => bi | S k => (i + k)%nat end.
Proof.
  induction l as [|x l IH]; intros best bi i c v Hc Hm; cbn [argmax_from].
  - destruct c as [|[|c]]; cbn [nth_error] in Hc; congruence.
  - destruct c as [|c]; cbn [nth_error] in Hc.
    + injection Hc as ->. assert (x < v) by (apply (Hm 1%nat); [lia|reflexivity]). unfold Rgtb. replace (Rltb v x) with false by (symmetry; apply Rltb_false; lra).
      apply (IH v bi (S i) 0%nat v eq_refl). intros k y K E. destruct k as [|k]; [congruence|]. apply (Hm (S (S k))); [lia|exact E].
    + assert (best < v) by (apply (Hm 0%nat); [lia|reflexivity]). unfold Rgtb. destruct c as [|c]; cbn [nth_error] in Hc.
      * injection Hc as ->. replace (Rltb best v) with true by (symmetry; now apply Rltb_true). rewrite (IH v i (S i) 0%nat v eq_refl); [lia|].
        intros k y K E. destruct k as [|k]; [congruence|]. apply (Hm (S (S k))); [lia|exact E].
      * destruct (Rltb best x).
        -- rewrite (IH x i (S i) (S c) v Hc); [lia|]. intros k y K E. apply (Hm (S k)); [lia|]. exact E.
        -- rewrite (IH best bi (S i) (S c) v Hc); [lia|]. intros k y K E. destruct k as [|k]; [cbn in E; injection E as <-; assumption|]. apply (Hm (S (S k))); [lia|exact E].
Qed.
Lemma argmax_spec l c v : nth_error l c = Some v -> (forall k x, k <> c -> nth_error l k = Some x -> x < v) -> np_argmax l = Ok c.
Proof.
  intros H M. destruct l as [|x l]; [now destruct c|]. unfold np_argmax. rewrite (argmax_from_spec l x 0 1 c v H M). f_equal. destruct c; lia.
Qed.
Lemma nth_error_set_nth : forall l n x k, nth_error (set_nth n x l) k = if (k =? n)%nat then (match nth_error l k with Some _ => Some x | None => None end) else nth_error l k.
Proof.
  induction l as [|y l IH]; intros [|n] x [|k]; cbn [set_nth nth_error Nat.eqb]; try reflexivity.
  - now destruct (k =? n)%nat.
  - now rewrite IH.
Qed.
Lemma set_nth_length l : forall n x, length (set_nth n x l) = length l.
Proof. induction l as [|y l IH]; intros [|n] x; cbn; auto. Qed.
