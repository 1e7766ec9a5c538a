(** Lemmas for Prop_Rotate.v *)
From Coq Require Import Lia Lra.
From Verif Require Import Base L_Base L_Trig L_Concentric L_Angles M_Translate M_Mapper S_Translate S_Mapper L_Mapper L_Draw M_Rotate S_Rotate.
Local Open Scope R_scope.

(** * the interpolator *)
Lemma axis_in n x : (2 <= n)%Z -> (0 <= fst (rgi_axis n 0 x) <= n - 2)%Z.
Proof. intros N. unfold rgi_axis. cbn [fst]. lia. Qed.
Lemma axis_pos n x : rgi_axis n 0 x = (fst (rgi_axis n 0 x), x - IZR (fst (rgi_axis n 0 x))).
Proof. unfold rgi_axis. cbn [fst]. f_equal. ring. Qed.
Lemma axis_half n k : (2 <= n)%Z -> (0 <= k < n)%Z ->
  rgi_axis n 0 (IZR k + 1 / 2) = if (k <? n - 1)%Z then (k, 1 / 2) else ((n - 2)%Z, 3 / 2).
Proof.
  intros N K. unfold rgi_axis.
  assert (F : Rfloor (- (IZR k + 1 / 2 - 0)) = (- (k + 1))%Z).
  { apply Rfloor_unique. rewrite opp_IZR, plus_IZR. lra. }
  rewrite F. replace (- - (k + 1) - 1)%Z with k by lia. destruct (Z.ltb_spec k (n - 1)).
  - replace (Z.max 0 (Z.min k (n - 2))) with k by lia. f_equal. lra.
  - replace (Z.max 0 (Z.min k (n - 2))) with (n - 2)%Z by lia. f_equal.
    assert (k = n - 1)%Z by lia. subst k. rewrite !minus_IZR. lra.
Qed.
Lemma axis_int n k : (2 <= n)%Z -> (0 <= k < n)%Z ->
  rgi_axis n 0 (IZR k) = if (0 <? k)%Z then ((k - 1)%Z, 1) else (0%Z, 0).
Proof.
  intros N K. unfold rgi_axis.
  replace (- (IZR k - 0)) with (IZR (- k)) by (rewrite opp_IZR; ring). rewrite Rfloor_IZR.
  replace (- - k - 1)%Z with (k - 1)%Z by lia. destruct (Z.ltb_spec 0 k).
  - replace (Z.max 0 (Z.min (k - 1) (n - 2))) with (k - 1)%Z by lia. f_equal. rewrite minus_IZR. lra.
  - assert (k = 0)%Z by lia. subst k. replace (Z.max 0 (Z.min (0 - 1) (n - 2))) with 0%Z by lia. f_equal. lra.
Qed.
Lemma axis_inside n x : (2 <= n)%Z -> rgi_out n 0 x = false -> 0 <= snd (rgi_axis n 0 x) <= 1.
Proof.
  intros N O. unfold rgi_out in O. apply Bool.orb_false_iff in O. destruct O as [A B].
  apply Rltb_false in A. unfold Rgtb in B. apply Rltb_false in B. rewrite Rplus_0_l, minus_IZR in B.
  unfold rgi_axis. cbn [snd]. pose proof (Rfloor_spec (- (x - 0))) as F. set (f := Rfloor (- (x - 0))) in *. clearbody f.
  destruct (Z.le_gt_cases 0 (- f - 1)) as [L|G].
  - destruct (Z.le_gt_cases (- f - 1) (n - 2)) as [L2|G2].
    + replace (Z.max 0 (Z.min (- f - 1) (n - 2))) with (- f - 1)%Z by lia.
      rewrite minus_IZR, opp_IZR. lra.
    + exfalso. assert (n <= - f)%Z as H by lia. apply IZR_le in H. rewrite opp_IZR in H. lra.
  - replace (Z.max 0 (Z.min (- f - 1) (n - 2))) with 0%Z by lia.
    assert (0 <= f)%Z as H by lia. apply IZR_le in H. lra.
Qed.
Lemma near_half n k : (2 <= n)%Z -> (0 <= k < n)%Z ->
  (let '(i, a) := rgi_axis n 0 (IZR k + 1 / 2) in if Rleb a (1 / 2) then i else (i + 1)%Z) = k.
Proof.
  intros N K. rewrite axis_half by auto. destruct (Z.ltb_spec k (n - 1)).
  - replace (Rleb (1 / 2) (1 / 2)) with true by (symmetry; apply Rleb_true; lra). reflexivity.
  - replace (Rleb (3 / 2) (1 / 2)) with false by (symmetry; apply Rleb_false; lra). lia.
Qed.
Lemma rgi_nearest_half n im i j : (2 <= n)%Z -> pixel_of n i j ->
  rgi true None n 0 im (pixel_centre i j) = im i j.
Proof.
  intros N [I J]. unfold rgi, pixel_centre. cbn [fst snd].
  pose proof (near_half n i N I) as A. pose proof (near_half n j N J) as B.
  destruct (rgi_axis n 0 (IZR i + 1 / 2)) as [p a]. destruct (rgi_axis n 0 (IZR j + 1 / 2)) as [q b].
  rewrite A, B. reflexivity.
Qed.
Lemma rgi_int nearest n im i j : (2 <= n)%Z -> pixel_of n i j ->
  rgi nearest None n 0 im (IZR i, IZR j) = im i j.
Proof.
  intros N [I J]. unfold rgi. cbn [fst snd]. rewrite !axis_int by auto.
  assert (T0 : Rleb 0 (1 / 2) = true) by (apply Rleb_true; lra).
  assert (T1 : Rleb 1 (1 / 2) = false) by (apply Rleb_false; lra).
  destruct (Z.ltb_spec 0 i), (Z.ltb_spec 0 j); destruct nearest; rewrite ?T0, ?T1;
  try replace i with 0%Z by lia; try replace j with 0%Z by lia;
  replace (i - 1 + 1)%Z with i by lia; replace (j - 1 + 1)%Z with j by lia; try reflexivity; ring.
Qed.
Lemma rgi_int_fill nearest fill n im i j : (2 <= n)%Z -> pixel_of n i j ->
  rgi nearest fill n 0 im (IZR i, IZR j) = im i j.
Proof.
  intros N P. pose proof (rgi_int nearest n im i j N P) as E. destruct fill as [f|]; [|exact E].
  unfold rgi in *. cbn [fst snd] in *. destruct (rgi_axis n 0 (IZR i)), (rgi_axis n 0 (IZR j)).
  assert (O : forall k, (0 <= k < n)%Z -> rgi_out n 0 (IZR k) = false).
  { intros k [K1 K2]. unfold rgi_out, Rgtb. assert (k <= n - 1)%Z as K3 by lia. apply IZR_le in K1, K3.
    apply Bool.orb_false_iff. split; apply Rltb_false; lra. }
  destruct P as [I J]. rewrite !O by auto. exact E.
Qed.
Lemma rgi_nearest_value fill n im p : (2 <= n)%Z ->
  (exists f, fill = Some f /\ rgi true fill n 0 im p = f) \/
  exists i j, pixel_of n i j /\ rgi true fill n 0 im p = im i j.
Proof.
  intros N. unfold rgi. pose proof (axis_in n (fst p) N) as A. pose proof (axis_in n (snd p) N) as B.
  destruct (rgi_axis n 0 (fst p)) as [i a]. destruct (rgi_axis n 0 (snd p)) as [j b]. cbn [fst] in A, B.
  assert (K : exists i' j', pixel_of n i' j' /\ im (if Rleb a (1 / 2) then i else (i + 1)%Z) (if Rleb b (1 / 2) then j else (j + 1)%Z) = im i' j').
  { do 2 eexists. split; [|reflexivity]. split; [destruct (Rleb a (1 / 2)) | destruct (Rleb b (1 / 2))]; lia. }
  destruct fill as [f|]; [|right; exact K].
  destruct (rgi_out n 0 (fst p) || rgi_out n 0 (snd p)); [left; eauto | right; exact K].
Qed.
Lemma rgi_linear_const n im c p : (2 <= n)%Z -> (forall i j, pixel_of n i j -> im i j = c) ->
  rgi false None n 0 im p = c.
Proof.
  intros N K. unfold rgi. pose proof (axis_in n (fst p) N) as A. pose proof (axis_in n (snd p) N) as B.
  destruct (rgi_axis n 0 (fst p)) as [i a]. destruct (rgi_axis n 0 (snd p)) as [j b]. cbn [fst] in A, B.
  rewrite !K by (split; lia). ring.
Qed.
Lemma mix lo hi a x y : 0 <= a <= 1 -> lo <= x <= hi -> lo <= y <= hi -> lo <= (1 - a) * x + a * y <= hi.
Proof. intros; nra. Qed.
Lemma rgi_range nearest f n im p lo hi : (2 <= n)%Z -> (forall i j, pixel_of n i j -> lo <= im i j <= hi) ->
  lo <= f <= hi -> lo <= rgi nearest (Some f) n 0 im p <= hi.
Proof.
  intros N K F. destruct nearest.
  - destruct (rgi_nearest_value (Some f) n im p N) as [(g & [= <-] & ->) | (i & j & P & ->)]; auto.
  - unfold rgi. pose proof (axis_in n (fst p) N) as A. pose proof (axis_in n (snd p) N) as B.
    pose proof (axis_inside n (fst p) N) as A2. pose proof (axis_inside n (snd p) N) as B2.
    destruct (rgi_axis n 0 (fst p)) as [i a]. destruct (rgi_axis n 0 (snd p)) as [j b]. cbn [fst snd] in *.
    destruct (rgi_out n 0 (fst p)); [exact F|]. destruct (rgi_out n 0 (snd p)); [exact F|]. cbn [orb].
    specialize (A2 eq_refl). specialize (B2 eq_refl).
    replace ((1 - a) * (1 - b) * im i j + (1 - a) * b * im i (j + 1)%Z + a * (1 - b) * im (i + 1)%Z j + a * b * im (i + 1)%Z (j + 1)%Z)
      with ((1 - a) * ((1 - b) * im i j + b * im i (j + 1)%Z) + a * ((1 - b) * im (i + 1)%Z j + b * im (i + 1)%Z (j + 1)%Z)) by ring.
    apply mix; auto; apply mix; auto; apply K; split; lia.
Qed.

(** * the view *)
Lemma norm_y : norm (V3 0 1 0) = V3 0 1 0.
Proof.
  unfold norm, vnorm, dot. cbn [vx vy vz]. replace (0 * 0 + 1 * 1 + 0 * 0) with 1 by ring. rewrite sqrt_1.
  apply vec3_ext; cbn [vx vy vz]; field.
Qed.
Lemma tp_y : sin (fst (xyz2tp (V3 0 1 0))) = 1 /\ cos (fst (xyz2tp (V3 0 1 0))) = 0 /\
  sin (snd (xyz2tp (V3 0 1 0))) = 1 /\ cos (snd (xyz2tp (V3 0 1 0))) = 0.
Proof.
  assert (U : dot (V3 0 1 0) (V3 0 1 0) = 1) by (unfold dot; cbn [vx vy vz]; ring).
  assert (N : V3 0 1 0 <> V3 0 0 (-1)) by (intros E; apply (f_equal vy) in E; cbn [vy] in E; lra).
  destruct (xyz2tp_trig _ U N) as (T & S & C). cbn [vx vy vz] in *. rewrite acos_0 in *. pose proof PI_lo. pose proof PI_hi.
  assert (F1 : Rleb (PI / 2) cap_top = false) by (apply Rleb_false; unfold cap_top; lra).
  assert (F2 : Rleb (PI - cap_bot) (PI / 2) = false) by (apply Rleb_false; unfold cap_bot; lra).
  rewrite F1, F2 in S, C. rewrite T, S, C, sin_PI2, cos_PI2.
  pose proof (unit_sph _ U) as E. cbn [vx vy vz] in E. rewrite acos_0 in E. unfold sph in E. rewrite sin_PI2, cos_PI2, !Rmult_1_l in E.
  pose proof (f_equal vx E) as E1. pose proof (f_equal vy E) as E2. cbn [vx vy] in E1, E2. auto.
Qed.
Lemma rv_forward v : world2view rot_view v = V3 (- vx v) (vz v) (vy v).
Proof.
  unfold rot_view, world2view, mk_view; cbn [vm_rmtx].
  assert (NZ : V3 0 1 0 <> vzero) by (apply regular_nonzero, regular_y).
  rewrite norm1_nonzero by auto. change (yp_forward (rmtx_yp (norm (V3 0 1 0))) v = V3 (- vx v) (vz v) (vy v)).
  rewrite norm_y. rewrite rmtx_yp_generic.
  2, 3: rewrite norm_y; apply vclose_false_xy; cbn [vx vy]; rewrite Rabs_R0, Rabs_R1, Rmax_right by lra; unfold atol_default; lra.
  cbv zeta. rewrite norm_y, yp_generic_image. destruct tp_y as (-> & -> & -> & ->). apply vec3_ext; cbn [vx vy vz]; ring.
Qed.
Lemma rv_backward v : view2world rot_view v = V3 (- vx v) (vz v) (vy v).
Proof.
  pose proof (v2w_w2v (V3 0 1 0) 180 (V3 (- vx v) (vz v) (vy v))) as E. fold rot_view in E.
  rewrite rv_forward in E. cbn [vx vy vz] in E. rewrite Ropp_involutive in E.
  rewrite <- E. f_equal. destruct v; reflexivity.
Qed.
Lemma rotate_y v ang : let t := ang * PI / 180 in
  rotate_elem v ang 1 true = V3 (cos t * vx v + sin t * vz v) (vy v) (- sin t * vx v + cos t * vz v).
Proof.
  intros t. unfold rotate_elem, rmtx_elem. fold t. unfold roll3. cbv zeta.
  change (Z.to_nat ((0 - (1 - 2)) mod 3)) with 1%nat. change (Z.to_nat ((1 - (1 - 2)) mod 3)) with 2%nat.
  change (Z.to_nat ((2 - (1 - 2)) mod 3)) with 0%nat.
  unfold mmulv, dot, mget; cbn. apply vec3_ext; cbn [vx vy vz]; ring.
Qed.
Lemma ang2dir_turn c s x y : c * c + s * s = 1 ->
  ang2dir (c * x - s * y, s * x + c * y) =
  V3 (c * vx (ang2dir (x, y)) - s * vy (ang2dir (x, y))) (s * vx (ang2dir (x, y)) + c * vy (ang2dir (x, y))) (vz (ang2dir (x, y))).
Proof.
  intros H. assert (D : pd (c * x - s * y, s * x + c * y) = pd (x, y)).
  { unfold pd, square. cbn [fst snd]. f_equal. replace ((c * x - s * y) * (c * x - s * y) + (s * x + c * y) * (s * x + c * y))
      with ((c * c + s * s) * (x * x + y * y)) by ring. rewrite H. ring. }
  unfold ang2dir. fold (pd (c * x - s * y, s * x + c * y)). fold (pd (x, y)). rewrite D. cbn [fst snd].
  apply vec3_ext; cbn [vx vy vz]; ring.
Qed.
Lemma vscl_180 : vscl (V3 0 1 0) 180 = 1.
Proof. unfold vscl. rewrite mk_view_hemi_va, chordfactor_180 by apply hemi_180. field. Qed.
Lemma ray_eq res p : pixel2ray rot_view res p =
  view2world rot_view (ang2dir (- (fst p / IZR res - 1 / 2), snd p / IZR res - 1 / 2)).
Proof.
  unfold pixel2ray, rot_view. rewrite vxy2xyz_eq, vscl_180. cbn [fst snd]. do 3 f_equal; ring.
Qed.
Lemma turn_ray res ang p : (0 < res)%Z -> rotate_elem (pixel2ray rot_view res p) ang 1 true = pixel2ray rot_view res (turned ang res p).
Proof.
  intros N. assert (0 < IZR res) as P by (apply IZR_lt; auto). rewrite rotate_y, !ray_eq, !rv_backward. cbn [vx vy vz].
  set (t := ang * PI / 180). set (u := fst p / IZR res - 1 / 2). set (v := snd p / IZR res - 1 / 2).
  replace (- (fst (turned ang res p) / IZR res - 1 / 2)) with (cos t * - u - sin t * v)
    by (unfold turned, u, v; cbn [fst snd]; fold t; field; lra).
  replace (snd (turned ang res p) / IZR res - 1 / 2) with (sin t * - u + cos t * v)
    by (unfold turned, u, v; cbn [fst snd]; fold t; field; lra).
  rewrite ang2dir_turn by (pose proof (sin2cos2 t); lra). apply vec3_ext; cbn [vx vy vz]; ring.
Qed.
Lemma ray_back res p : (0 < res)%Z -> pdist (fst p / IZR res, snd p / IZR res) center < 1 ->
  ray2pixelf rot_view res (pixel2ray rot_view res p) = p.
Proof.
  intros N D. assert (0 < IZR res) as P by (apply IZR_lt; auto). unfold ray2pixelf, pixel2ray, rot_view.
  rewrite xyz2vxy_of; [|apply hemi_180|rewrite vscl_180; lra]. destruct p; cbn [fst snd]. apply pair_eq; field; lra.
Qed.
Lemma turned_dist ang res p : (0 < res)%Z ->
  pdist (fst (turned ang res p) / IZR res, snd (turned ang res p) / IZR res) center = pdist (fst p / IZR res, snd p / IZR res) center.
Proof.
  intros N. assert (0 < IZR res) as P by (apply IZR_lt; auto). rewrite !pdist_center. unfold pd, square. cbn [fst snd]. f_equal.
  unfold turned. cbn [fst snd]. set (t := ang * PI / 180).
  set (u := fst p / IZR res - 1 / 2). set (v := snd p / IZR res - 1 / 2).
  replace ((IZR res / 2 + cos t * (fst p - IZR res / 2) + sin t * (snd p - IZR res / 2)) / IZR res - 1 / 2) with (cos t * u + sin t * v)
    by (unfold u, v; field; lra).
  replace ((IZR res / 2 - sin t * (fst p - IZR res / 2) + cos t * (snd p - IZR res / 2)) / IZR res - 1 / 2) with (- sin t * u + cos t * v)
    by (unfold u, v; field; lra).
  pose proof (sin2cos2 t). nra.
Qed.
Lemma frame_dist res p : (0 < res)%Z -> 0 <= fst p <= IZR res -> 0 <= snd p <= IZR res ->
  pdist (fst p / IZR res, snd p / IZR res) center < 1.
Proof.
  intros N X Y. assert (0 < IZR res) as P by (apply IZR_lt; auto).
  assert (D : forall x, 0 <= x <= IZR res -> 0 <= x / IZR res <= 1).
  { intros x B. split; [apply Rmult_le_pos; [lra|left; apply Rinv_0_lt_compat; lra]|].
    apply Rmult_le_reg_r with (IZR res); [lra|]. unfold Rdiv. rewrite Rmult_assoc, Rinv_l by lra. lra. }
  pose proof (square_in_disk (fst p / IZR res, snd p / IZR res)) as Q. pose proof sqrt2_bound.
  eapply Rle_lt_trans; [apply Q; split; cbn [fst snd]; auto|]. lra.
Qed.
Lemma centre_frame n i j : pixel_of n i j -> 0 <= fst (pixel_centre i j) <= IZR n /\ 0 <= snd (pixel_centre i j) <= IZR n.
Proof.
  intros [I J]. unfold pixel_centre. cbn [fst snd].
  assert (E : forall k, (0 <= k < n)%Z -> 0 <= IZR k + 1 / 2 <= IZR n).
  { intros k [B1 B2]. apply IZR_le in B1. assert (k + 1 <= n)%Z as B3 by lia. apply IZR_le in B3. rewrite plus_IZR in B3. lra. }
  auto.
Qed.
Lemma turned_0 res p : turned 0 res p = p.
Proof.
  unfold turned. replace (0 * PI / 180) with 0 by field. rewrite cos_0, sin_0. destruct p; cbn [fst snd]. apply pair_eq; ring.
Qed.

(** * one pass *)
Lemma pass_turn im n ang fill nearest i j : square_image im n -> pixel_of n i j ->
  im_px (rot_pass im ang NoCenter true fill nearest) i j = rgi nearest fill n 0 (im_px im) (turned ang n (pixel_centre i j)).
Proof.
  intros (X & Y & N) P. unfold rot_pass. cbn [im_px]. rewrite Y. f_equal.
  destruct (centre_frame n i j P) as [A B].
  unfold rot_dir. cbn [andb]. fold (pixel_centre i j). destruct (Reqb ang 0) eqn:E; cbn [negb].
  - apply Reqb_true in E. subst ang. rewrite turned_0. apply ray_back; [lia|]. apply frame_dist; auto; lia.
  - rewrite turn_ray by lia. apply ray_back; [lia|]. rewrite turned_dist by lia. apply frame_dist; auto; lia.
Qed.
Lemma rotate_ok im n ang center first fill nearest : square_image im n ->
  array_rotate im ang center first fill nearest =
  Ok (if negb first && negb (Reqb ang 0) then rot_pass (rot_pass im ang center first fill nearest) ang NoCenter true fill nearest
      else rot_pass im ang center first fill nearest).
Proof.
  intros (X & Y & N). unfold array_rotate. rewrite X, Y, Z.eqb_refl. cbn [negb].
  destruct (Z.ltb_spec n 2); [lia|]. reflexivity.
Qed.
Lemma pass_size im n ang center rot fill nearest : square_image im n -> square_image (rot_pass im ang center rot fill nearest) n.
Proof. intros (X & Y & N). unfold rot_pass, square_image. cbn [im_nx im_ny]. auto. Qed.

Lemma rotate_turns im n ang fill nearest : square_image im n ->
  exists out, array_rotate im ang NoCenter true fill nearest = Ok out /\ square_image out n /\
  forall i j, pixel_of n i j -> im_px out i j = rgi nearest fill n 0 (im_px im) (turned ang n (pixel_centre i j)).
Proof.
  intros S. rewrite (rotate_ok im n) by auto. cbn [negb andb]. eexists. split; [reflexivity|].
  split; [now apply pass_size|]. intros i j P. now apply pass_turn.
Qed.
