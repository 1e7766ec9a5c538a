(** Lemmas for Prop_Rotate.v: the argument center and the order of the two steps *)
From Coq Require Import Lia Lra.
From Verif Require Import Base L_Base L_Trig L_Concentric L_Angles M_Translate M_Mapper S_Translate S_Mapper L_Mapper L_Draw M_Rotate S_Rotate L_Rotate L_Rotate2.
Local Open Scope R_scope.

Lemma ray_unit res p : dot (pixel2ray rot_view res p) (pixel2ray rot_view res p) = 1.
Proof. apply vnorm_1, vxy2xyz_unit. Qed.
Lemma v2w_dir c va : regular_dir c -> dot c c = 1 -> view2world (mk_view c va) (V3 0 0 1) = c.
Proof.
  intros R U. pose proof (w2v_dir c va R) as E. rewrite mk_view_dxyz in E by (now apply regular_nonzero).
  rewrite norm_unit_id in E by auto. rewrite <- E. apply v2w_w2v.
Qed.
Lemma middle_ray n : (0 < n)%Z -> pixel2ray rot_view n (IZR n / 2, IZR n / 2) = V3 0 1 0.
Proof.
  intros N. assert (0 < IZR n) as P by (apply IZR_lt; auto). rewrite ray_eq. cbn [fst snd].
  replace (IZR n / 2 / IZR n - 1 / 2) with 0 by (field; lra). rewrite Ropp_0, ang2dir_0.
  - rewrite rv_backward. cbn [vx vy vz]. f_equal; ring.
  - unfold pd, square. cbn [fst snd]. replace (0 * 0 + 0 * 0) with 0 by ring. apply sqrt_0.
Qed.
Lemma rotate_fixes_y ang : rotate_elem (V3 0 1 0) ang 1 true = V3 0 1 0.
Proof. rewrite rotate_y. cbn [vx vy vz]. apply vec3_ext; cbn [vx vy vz]; ring. Qed.
Lemma in_frame_back n c : (0 < n)%Z -> 0 <= fst c <= IZR n -> 0 <= snd c <= IZR n ->
  ray2pixelf rot_view n (pixel2ray rot_view n c) = c.
Proof. intros N X Y. apply ray_back; auto. apply frame_dist; auto. Qed.

Lemma pass_centre im k ang c rot fill nearest : let n := (2 * k + 1)%Z in square_image im n ->
  0 <= fst c <= IZR n -> 0 <= snd c <= IZR n -> regular_dir (pixel2ray rot_view n c) ->
  im_px (rot_pass im ang (Center2 c) rot fill nearest) k k = rgi nearest fill n 0 (im_px im) c.
Proof.
  intros n (X & Y & N) C1 C2 R. unfold rot_pass. cbn [im_px]. rewrite Y. f_equal.
  assert (E : (IZR k + 1 / 2, IZR k + 1 / 2) = (IZR n / 2, IZR n / 2)).
  { unfold n. rewrite plus_IZR, mult_IZR. apply pair_eq; field. }
  rewrite E, middle_ray by lia. unfold rot_dir.
  assert (V : (if rot && negb (Reqb ang 0) then rotate_elem (V3 0 1 0) ang 1 true else V3 0 1 0) = V3 0 1 0)
    by (destruct (rot && negb (Reqb ang 0)); auto using rotate_fixes_y).
  rewrite V. rewrite rv_forward. cbn [vx vy vz]. rewrite Ropp_0. rewrite v2w_dir by auto using ray_unit.
  apply in_frame_back; auto; lia.
Qed.
Lemma rotate_centre im k ang a b fill nearest : let n := (2 * k + 1)%Z in square_image im n -> pixel_of n a b ->
  regular_dir (pixel2ray rot_view n (IZR a, IZR b)) ->
  exists out, array_rotate im ang (Center2 (IZR a, IZR b)) true fill nearest = Ok out /\ im_px out k k = im_px im a b.
Proof.
  intros n S P R. rewrite (rotate_ok im n) by auto. cbn [negb andb]. eexists. split; [reflexivity|].
  destruct P as [A B]. assert (0 <= IZR a <= IZR n /\ 0 <= IZR b <= IZR n) as [FA FB].
  { split; (split; [apply (IZR_le 0); lia | apply IZR_le; lia]). }
  unfold n in *. rewrite pass_centre by auto. apply rgi_int_fill; [apply S | split; auto].
Qed.

Lemma forward_dir c : regular_dir c -> dot c c = 1 -> yp_forward (rmtx_yp c) c = V3 0 0 1.
Proof.
  intros R U. pose proof (w2v_dir c 180 R) as E. assert (N : c <> vzero) by (now apply regular_nonzero).
  rewrite mk_view_dxyz in E by auto. unfold world2view, mk_view in E. cbn [vm_rmtx] in E. rewrite norm1_nonzero in E by auto.
  rewrite norm_unit_id in E by auto. exact E.
Qed.
Lemma backward_dir c : regular_dir c -> dot c c = 1 -> yp_backward (rmtx_yp c) (V3 0 0 1) = c.
Proof. intros R U. rewrite <- (forward_dir c R U). apply rmtx_yp_reversible. Qed.
Lemma rotate_align im n i j a b fill nearest : square_image im n -> pixel_of n i j -> pixel_of n a b ->
  regular_dir (pixel2ray rot_view n (IZR a, IZR b)) -> regular_dir (pixel2ray rot_view n (pixel_centre i j)) ->
  exists out, array_rotate im 0 (Center4 (IZR a, IZR b) (pixel_centre i j)) true fill nearest = Ok out /\ im_px out i j = im_px im a b.
Proof.
  intros S P [A B] R1 R2. rewrite (rotate_ok im n) by auto. cbn [negb andb]. eexists. split; [reflexivity|].
  assert (0 <= IZR a <= IZR n /\ 0 <= IZR b <= IZR n) as [FA FB].
  { split; (split; [apply (IZR_le 0); lia | apply IZR_le; lia]). }
  destruct S as (X & Y & N). unfold rot_pass. cbn [im_px]. rewrite Y. unfold rot_dir.
  replace (Reqb 0 0) with true by (symmetry; apply Reqb_true; auto). cbn [negb andb]. fold (pixel_centre i j).
  rewrite forward_dir, backward_dir by auto using ray_unit. rewrite in_frame_back by (auto; lia).
  apply rgi_int_fill; auto. split; auto.
Qed.

(** * order *)
Lemma pass_two im n center i j : square_image im n -> pixel_of n i j ->
  im_px (rot_pass im 90 center true None true) i j =
  im_px (rot_pass im 0 center true None true) j (n - 1 - i)%Z.
Proof.
  intros (X & Y & N) P. unfold rot_pass. cbn [im_px]. rewrite Y. do 2 f_equal. unfold rot_dir.
  replace (Reqb 0 0) with true by (symmetry; apply Reqb_true; auto).
  replace (Reqb 90 0) with false by (symmetry; apply Reqb_false; lra). cbn [negb andb].
  rewrite turn_ray by lia. fold (pixel_centre i j). rewrite turned_quarter. reflexivity.
Qed.
Lemma pass_order im ang center fill nearest :
  rot_pass im 0 center true fill nearest = rot_pass im ang center false fill nearest.
Proof.
  unfold rot_pass, rot_dir. replace (Reqb 0 0) with true by (symmetry; apply Reqb_true; auto). reflexivity.
Qed.
Lemma order_irrelevant im n center : square_image im n ->
  exists a b, array_rotate im 90 center true None true = Ok a /\ array_rotate im 90 center false None true = Ok b /\ same_image a b.
Proof.
  intros S. rewrite !(rotate_ok im n) by auto. cbn [negb andb].
  replace (Reqb 90 0) with false by (symmetry; apply Reqb_false; lra). cbn [negb].
  do 2 eexists. split; [reflexivity|]. split; [reflexivity|].
  pose proof (pass_size im n 90 center true None true S) as (X & Y & N).
  pose proof (pass_size im n 90 center false None true S) as S2.
  pose proof (pass_size _ n 90 NoCenter true None true S2) as (X2 & Y2 & _).
  unfold same_image. rewrite X, Y, X2, Y2. split; [auto|]. split; [auto|]. intros i j I J.
  assert (P : pixel_of n i j) by (split; auto).
  rewrite (pass_quarter _ n) by auto. rewrite (pass_two im n) by auto. rewrite (pass_order im 90). reflexivity.
Qed.
Lemma centre_first im n center : square_image im n ->
  exists a b, array_rotate im 90 center true None true = Ok a /\
    bind (array_rotate im 0 center true None true) (fun m => array_rotate m 90 NoCenter true None true) = Ok b /\ same_image a b.
Proof.
  intros S. rewrite !(rotate_ok im n) by auto. cbn [negb andb bind].
  pose proof (pass_size im n 0 center true None true S) as S2. rewrite (rotate_ok _ n) by auto. cbn [negb andb].
  do 2 eexists. split; [reflexivity|]. split; [reflexivity|].
  pose proof (pass_size im n 90 center true None true S) as (X & Y & N).
  pose proof (pass_size _ n 90 NoCenter true None true S2) as (X2 & Y2 & _).
  unfold same_image. rewrite X, Y, X2, Y2. split; [auto|]. split; [auto|]. intros i j I J.
  assert (P : pixel_of n i j) by (split; auto).
  rewrite (pass_quarter _ n) by auto. now apply pass_two.
Qed.

Lemma left_ray : pixel2ray rot_view 3 (0, 3 / 2) = V3 (-1) 0 0.
Proof.
  rewrite ray_eq. cbn [fst snd]. replace (- (0 / 3 - 1 / 2)) with (1 / 2) by field. replace (3 / 2 / 3 - 1 / 2) with 0 by field.
  assert (D : pd (1 / 2, 0) = 1 / 2).
  { unfold pd, square. cbn [fst snd]. replace (1 / 2 * (1 / 2) + 0 * 0) with (1 / 2 * (1 / 2)) by ring. apply sqrt_square. lra. }
  rewrite ang2dir_eq by (rewrite D; lra). rewrite D. cbn [fst snd]. replace (PI * (1 / 2)) with (PI / 2) by field.
  rewrite sin_PI2, cos_PI2, rv_backward. apply vec3_ext; cbn [vx vy vz]; field.
Qed.
Lemma regular_left : regular_dir (V3 (-1) 0 0).
Proof.
  right. assert (V : vnorm (V3 (-1) 0 0) = 1) by (apply vnorm_1; unfold dot; cbn [vx vy vz]; lra).
  split; [intros E; apply (f_equal vx) in E; unfold vzero in E; cbn [vx] in E; lra|]. rewrite V. cbn [vx vy vz]. split.
  - apply Rlt_le_trans with (Rabs (-1)); [|apply Rmax_l]. rewrite Rabs_left by lra. lra.
  - replace (0 / 1) with 0 by field. rewrite acos_0. unfold cap_bot. pose proof PI_lo. pose proof PI_hi. lra.
Qed.
Lemma rgi_left im : rgi true None 3 0 im (0, 3 / 2) = im 0%Z 1%Z.
Proof.
  unfold rgi. cbn [fst snd]. pose proof (axis_int 3 0 ltac:(lia) ltac:(lia)) as A. cbn in A. rewrite A.
  replace (3 / 2) with (IZR 1 + 1 / 2) by lra.
  pose proof (axis_half 3 1 ltac:(lia) ltac:(lia)) as B. cbn in B. rewrite B.
  replace (Rleb 0 (1 / 2)) with true by (symmetry; apply Rleb_true; lra).
  replace (Rleb (1 / 2) (1 / 2)) with true by (symmetry; apply Rleb_true; lra). reflexivity.
Qed.
Lemma order_witness : exists im c a b, square_image im 3 /\
  array_rotate im 90 (Center2 c) true None true = Ok a /\
  bind (array_rotate im 90 NoCenter true None true) (fun m => array_rotate m 0 (Center2 c) true None true) = Ok b /\
  ~ same_image a b.
Proof.
  set (im := Img 3 3 (fun i j : Z => if ((i =? 0) && (j =? 1))%Z then 1 else 0)).
  assert (S : square_image im 3) by (unfold square_image; cbn; lia).
  pose proof (pass_size im 3 90 NoCenter true None true S) as S2.
  exists im, (0, 3 / 2). rewrite !(rotate_ok im 3) by auto. cbn [negb andb bind]. rewrite (rotate_ok _ 3) by auto. cbn [negb andb].
  do 2 eexists. split; [exact S|]. split; [reflexivity|]. split; [reflexivity|].
  assert (R : regular_dir (pixel2ray rot_view 3 (0, 3 / 2))) by (rewrite left_ray; apply regular_left).
  intros (_ & _ & H). specialize (H 1%Z 1%Z).
  pose proof (pass_size im 3 90 (Center2 (0, 3 / 2)) true None true S) as (X & Y & _). rewrite X, Y in H.
  specialize (H ltac:(lia) ltac:(lia)).
  assert (F1 : 0 <= fst (0, 3 / 2) <= 3) by (cbn [fst]; lra). assert (F2 : 0 <= snd (0, 3 / 2) <= 3) by (cbn [snd]; lra).
  pose proof (pass_centre im 1 90 (0, 3 / 2) true None true S F1 F2 R) as C1.
  pose proof (pass_centre _ 1 0 (0, 3 / 2) true None true S2 F1 F2 R) as C2.
  rewrite C1, C2 in H. change (2 * 1 + 1)%Z with 3%Z in H. rewrite !rgi_left in H.
  rewrite (pass_quarter im 3) in H by (auto; unfold pixel_of; lia). cbn in H. lra.
Qed.
