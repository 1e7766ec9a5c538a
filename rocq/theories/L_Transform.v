(** Lemmas for Prop_Transform.v *)
From Coq Require Import Lia Lra.
From Verif Require Import Base L_Base L_Trig L_Concentric L_Angles M_Translate M_Mapper S_Translate S_Mapper L_Mapper L_Draw L_Solid
  M_Rotate S_Rotate L_Rotate L_Rotate2 M_Transform S_Transform.
Local Open Scope R_scope.

Definition shift (p : R * R) : R * R := (fst p - 1 / 2, snd p - 1 / 2).
Lemma rgi_shift nearest n im p : rgi nearest None n (1 / 2) im p = rgi nearest None n 0 im (shift p).
Proof. unfold rgi, rgi_axis, shift. cbn [fst snd]. now rewrite !Rminus_0_r. Qed.
Lemma shift_centre i j : shift (pixel_centre i j) = (IZR i, IZR j).
Proof. unfold shift, pixel_centre. cbn [fst snd]. apply pair_eq; ring. Qed.
Lemma rgi_centre nearest n im i j : (2 <= n)%Z -> pixel_of n i j -> rgi nearest None n (1 / 2) im (pixel_centre i j) = im i j.
Proof. intros N P. rewrite rgi_shift, shift_centre. now apply rgi_int. Qed.
Lemma rgi_follows g n im p : (2 <= n)%Z -> bilinear g -> (forall i j, pixel_of n i j -> im i j = g (pixel_centre i j)) ->
  rgi false None n (1 / 2) im p = g p.
Proof.
  intros N (a & b & c & d & G) F. rewrite rgi_shift.
  rewrite (rgi_bilinear n (a + b / 2 + c / 2 + d / 4) (b + d / 2) (c + d / 2) d im) by
    (auto; intros i j P; rewrite F, G by auto; unfold pixel_centre; cbn [fst snd]; field).
  rewrite G. unfold shift. cbn [fst snd]. field.
Qed.
Lemma rgi_mix nearest n a b x y p : rgi nearest None n (1 / 2) (fun i j => a * x i j + b * y i j) p =
  a * rgi nearest None n (1 / 2) x p + b * rgi nearest None n (1 / 2) y p.
Proof. unfold rgi. destruct (rgi_axis n (1 / 2) (fst p)), (rgi_axis n (1 / 2) (snd p)). destruct nearest; ring. Qed.

(** * the general conversion *)
Lemma transform_ok self p2r other r2p nearest im n : square_image im n -> vm_aspect self <> 2%Z ->
  transform_image self p2r other r2p nearest im = Ok (Img n n (transform_to 0 (p2r n) other (r2p n) (rgi nearest None n (1 / 2)) im)).
Proof.
  intros (X & Y & N) A. unfold transform_image. rewrite X, Y, Z.eqb_refl. cbn [negb].
  destruct (Z.eqb_spec (vm_aspect self) 2); [easy|]. destruct (Z.ltb_spec n 2); [lia|reflexivity].
Qed.
Lemma transform_rejects self p2r other r2p nearest im : im_nx im <> im_ny im \/ vm_aspect self = 2%Z ->
  transform_image self p2r other r2p nearest im = Raise ValueError.
Proof.
  intros H. unfold transform_image. destruct (Z.eqb_spec (im_nx im) (im_ny im)); cbn [negb]; [|reflexivity].
  destruct H as [H|H]; [easy|]. now rewrite H.
Qed.
Lemma hemi_not2 d va : hemi_angle va -> vm_aspect (mk_view d va) <> 2%Z.
Proof. intros H. rewrite mk_view_hemi_aspect by auto. lia. Qed.

(** * one ViewMapper to another *)
Lemma view_rejects self other nearest im : im_nx im <> im_ny im \/ vm_aspect self = 2%Z ->
  view_transform self other nearest im = Raise ValueError.
Proof. apply transform_rejects. Qed.
Lemma full_rejects d other nearest im : view_transform (mk_view d 360) other nearest im = Raise ValueError.
Proof. apply view_rejects. right. apply mk_view_360. Qed.
Lemma pixel_range n i : (0 < n)%Z -> (0 <= i < n)%Z -> 0 <= IZR i + 1 / 2 <= IZR n.
Proof. intros N [A B]. apply IZR_le in A. assert (IZR i <= IZR (n - 1)) by (apply IZR_le; lia). rewrite minus_IZR in H. lra. Qed.
Lemma pixel_in_view d va n i j : regular_dir d -> hemi_angle va -> (0 < n)%Z -> pixel_of n i j ->
  in_view (mk_view d va) 0 (pixel2ray (mk_view d va) n (pixel_centre i j)) = true <-> image_radius n i j < 1 / 2.
Proof.
  intros G H N [I J]. rewrite in_view_circle by (auto; eapply pixel_ray_unit; reflexivity).
  pose proof (pixel_roundtripf d va n (pixel_centre i j) H N (pixel_range n i N I) (pixel_range n j N J)) as R.
  unfold ray2pixelf in R. assert (0 < IZR n) by now apply IZR_lt. unfold image_radius.
  replace (xyz2vxy (mk_view d va) (pixel2ray (mk_view d va) n (pixel_centre i j))) with ((IZR i + 1 / 2) / IZR n, (IZR j + 1 / 2) / IZR n); [reflexivity|].
  assert (A := f_equal fst R). assert (B := f_equal snd R). cbn [fst snd pixel_centre] in A, B. rewrite <- A, <- B.
  assert (X : forall x, x * IZR n / IZR n = x) by (intros; field; lra). rewrite !X. now rewrite <- surjective_pairing.
Qed.
Lemma transform_self d va nearest im n : regular_dir d -> hemi_angle va -> square_image im n ->
  exists out, view_transform (mk_view d va) (mk_view d va) nearest im = Ok out /\ square_image out n /\
  forall i j, pixel_of n i j -> (image_radius n i j < 1 / 2 -> im_px out i j = im_px im i j) /\
                                (1 / 2 <= image_radius n i j -> im_px out i j = 0).
Proof.
  intros G H S. eexists. split; [apply (transform_ok _ _ _ _ _ im n S); now apply hemi_not2|]. destruct S as (X & Y & N).
  split; [now repeat split|]. intros i j P. cbn [im_px]. unfold transform_to. change (IZR i + 1 / 2, IZR j + 1 / 2) with (pixel_centre i j).
  assert (0 < n)%Z as N0 by lia. pose proof (pixel_in_view d va n i j G H N0 P) as V. destruct (in_view _ 0 _).
  - split; [intros _|intros L; assert (image_radius n i j < 1 / 2) by (now apply V); exfalso; lra].
    destruct P as [I J]. rewrite (pixel_roundtripf d va n (pixel_centre i j) H N0 (pixel_range n i N0 I) (pixel_range n j N0 J)). apply rgi_centre; [lia|now split].
  - split; [intros L; apply V in L; discriminate|reflexivity].
Qed.
Lemma transform_gradient d1 va1 d2 va2 im n g : hemi_angle va1 -> regular_dir d2 -> hemi_angle va2 -> square_image im n ->
  bilinear g -> follows g im n ->
  exists out, view_transform (mk_view d1 va1) (mk_view d2 va2) false im = Ok out /\ square_image out n /\
  forall i j, pixel_of n i j -> let v := pixel2ray (mk_view d1 va1) n (pixel_centre i j) in
    (in_view (mk_view d2 va2) 0 v = true -> exists q, pixel2ray (mk_view d2 va2) n q = v /\ im_px out i j = g q) /\
    (in_view (mk_view d2 va2) 0 v = false -> im_px out i j = 0).
Proof.
  intros H1 G2 H2 S B F. eexists. split; [apply (transform_ok _ _ _ _ _ im n S); now apply hemi_not2|]. pose proof S as (X & Y & N).
  split; [now repeat split|]. intros i j P v. cbn [im_px].
  destruct (transform_reads 0 d1 va1 d2 va2 (rgi false None n (1 / 2)) im i j G2 H2 ltac:(lia)) as [A A0].
  rewrite Y in A, A0. split; intros I.
  - destruct (A I) as (q & E & E2). exists q. split; [exact E|]. rewrite E2. now apply rgi_follows.
  - exact (A0 I).
Qed.
(** values *)
Lemma transform_nearest self other im n : square_image im n -> vm_aspect self <> 2%Z ->
  exists out, view_transform self other true im = Ok out /\ square_image out n /\
  forall i j, im_px out i j = 0 \/ exists a b, pixel_of n a b /\ im_px out i j = im_px im a b.
Proof.
  intros S A. eexists. split; [apply (transform_ok _ _ _ _ _ im n S A)|]. destruct S as (X & Y & N). split; [now repeat split|].
  intros i j. cbn [im_px]. unfold transform_to. destruct (in_view _ _ _); [right|now left]. rewrite rgi_shift.
  destruct (rgi_nearest_value None n (im_px im) (shift (ray2pixelf other n (pixel2ray self n (IZR i + 1 / 2, IZR j + 1 / 2)))) N)
    as [(f & E & _)|(a & b & P & E)]; [discriminate|]. exists a, b. now split.
Qed.
Lemma transform_mix self other nearest a b x y n : square_image x n -> square_image y n -> vm_aspect self <> 2%Z ->
  exists o p q, view_transform self other nearest (mix a b x y) = Ok o /\ view_transform self other nearest x = Ok p /\
    view_transform self other nearest y = Ok q /\ same_image o (mix a b p q).
Proof.
  intros S T A. assert (square_image (mix a b x y) n) as M by (destruct S as (X & Y & N); now repeat split).
  eexists _, _, _. split; [apply (transform_ok _ _ _ _ _ _ n M A)|]. split; [apply (transform_ok _ _ _ _ _ _ n S A)|].
  split; [apply (transform_ok _ _ _ _ _ _ n T A)|]. split; [reflexivity|]. split; [reflexivity|].
  intros i j _ _. cbn [im_px mix]. unfold transform_to. destruct (in_view _ _ _); [|ring]. cbn [im_px mix]. apply rgi_mix.
Qed.

(** * array_solid2ang *)
Notation ynorth := (V3 0 1 0).
Lemma regular_north : regular_dir ynorth.
Proof. right. split; [intros E; apply (f_equal vy) in E; cbn in E; lra|]. unfold vnorm, dot. cbn [vx vy vz].
  replace (0 * 0 + 1 * 1 + 0 * 0) with 1 by ring. rewrite sqrt_1, Rabs_R0, Rabs_R1. split.
  - rewrite Rmax_right by lra. assert (/ 10 ^ 8 < 1); [|lra]. rewrite <- Rinv_1. apply Rinv_lt_contravar; lra.
  - replace (0 / 1) with 0 by field. rewrite acos_0. unfold cap_bot. pose proof PI_lo. pose proof PI_hi. lra.
Qed.
Lemma solid2ang_ok nearest reverse im n : square_image im n ->
  let vm := mk_view ynorth 180 in
  array_solid2ang nearest reverse 180 im = Ok (Img n n (transform_to 0
    (if reverse then pixel2ray vm n else solid_pixel2ray vm n) vm (if reverse then solid_ray2pixelf vm n else ray2pixelf vm n)
    (rgi nearest None n (1 / 2)) im)).
Proof.
  intros S vm. unfold array_solid2ang. fold vm. replace (Rgtb 180 180) with false by (symmetry; unfold Rgtb; apply Rltb_false; lra).
  destruct reverse; apply (transform_ok _ _ _ _ _ im n S); apply hemi_not2, hemi_180.
Qed.
Lemma solid2ang_rejects nearest reverse va im : 180 < va \/ im_nx im <> im_ny im -> array_solid2ang nearest reverse va im = Raise ValueError.
Proof.
  intros H. unfold array_solid2ang. destruct (Rgtb va 180) eqn:E; [reflexivity|]. unfold Rgtb in E. apply Rltb_false in E.
  destruct H as [H|H]; [lra|]. destruct reverse; apply transform_rejects; now left.
Qed.
Lemma solid_unit vm d va xy : vm = mk_view d va -> dot (solid_vxy2xyz vm xy) (solid_vxy2xyz vm xy) = 1.
Proof. intros ->. unfold solid_vxy2xyz. rewrite v2w_dot. apply ang2dir_unit_all. Qed.
Lemma scaled_centre n i j : (0 < n)%Z -> forall k,
  ((1 / 2 + ((IZR i + 1 / 2) / IZR n - 1 / 2) * k) * IZR n, (1 / 2 + ((IZR j + 1 / 2) / IZR n - 1 / 2) * k) * IZR n) = along n i j k.
Proof. intros N k. apply IZR_lt in N. unfold along. apply pair_eq; field; lra. Qed.
Lemma pdist_along x y k : 0 <= k -> pdist (1 / 2 + (x - 1 / 2) * k, 1 / 2 + (y - 1 / 2) * k) center = k * pdist (x, y) center.
Proof.
  intros K. rewrite !pdist_center. cbn [fst snd]. rewrite <- (Rabs_right k) at 3 by lra. rewrite <- pd_scale. cbn [fst snd].
  f_equal. apply pair_eq; ring.
Qed.
Lemma solid_reads nearest im n i j : square_image im n -> pixel_of n i j -> image_radius n i j < 1 / 2 ->
  exists out k, array_solid2ang nearest false 180 im = Ok out /\ square_image out n /\
    im_px out i j = rgi nearest None n (1 / 2) (im_px im) (along n i j k) /\
    - / 10 ^ 9 <= k * image_radius n i j - equisolid_radius (PI / 2) (PI * image_radius n i j) <= 0.
Proof.
  intros S P R. pose proof S as (X & Y & N). eexists. set (xy := ((IZR i + 1 / 2) / IZR n, (IZR j + 1 / 2) / IZR n)).
  destruct (solid2ang_radius ynorth xy ltac:(left; exact R)) as (k & K & Q & B). exists k.
  split; [apply (solid2ang_ok _ _ _ n S)|]. split; [now repeat split|]. cbn [im_px]. unfold transform_to.
  change (solid_pixel2ray (mk_view ynorth 180) n (IZR i + 1 / 2, IZR j + 1 / 2)) with (solid_vxy2xyz (mk_view ynorth 180) xy).
  assert (RK : pdist (xyz2vxy (mk_view ynorth 180) (solid_vxy2xyz (mk_view ynorth 180) xy)) center = k * image_radius n i j).
  { rewrite Q. unfold xy. cbn [fst snd]. now rewrite pdist_along by auto. }
  assert (I : in_view (mk_view ynorth 180) 0 (solid_vxy2xyz (mk_view ynorth 180) xy) = true).
  { apply in_view_circle; [exact regular_north|exact hemi_180|eapply solid_unit; reflexivity|].
    apply Rle_lt_trans with (equisolid_radius (PI / 2) (PI * pdist xy center)); [lra|].
    change (pdist xy center) with (image_radius n i j). unfold equisolid_radius. pose proof PI_pos as PP.
    replace (PI / 2 / 2) with (PI / 4) by field.
    assert (0 < sin (PI / 4)) by (apply sin_gt_0; lra).
    assert (0 <= image_radius n i j) by apply sqrt_pos.
    assert (sin (PI * image_radius n i j / 2) < sin (PI / 4)) by (apply sin_increasing_1; nra).
    apply Rmult_lt_reg_r with (2 * sin (PI / 4)); [lra|]. unfold Rdiv at 1. rewrite Rmult_assoc, Rinv_l by lra. lra. }
  rewrite I. split.
  - f_equal. unfold ray2pixelf. rewrite Q. cbn [fst snd]. unfold xy. cbn [fst snd]. apply scaled_centre. lia.
  - rewrite <- RK. exact B.
Qed.
Lemma solid_back nearest im n i j : square_image im n -> pixel_of n i j ->
  exists out, array_solid2ang nearest true 180 im = Ok out /\ square_image out n /\
    (1 / 2 <= image_radius n i j -> im_px out i j = 0) /\
    (image_radius n i j < 1 / 2 -> exists k t, im_px out i j = rgi nearest None n (1 / 2) (im_px im) (along n i j k) /\
       0 <= t <= PI / 2 /\ equisolid_radius (PI / 2) t = image_radius n i j /\
       - / 10 ^ 9 <= k * image_radius n i j - t / PI <= 0).
Proof.
  intros S P. pose proof S as (X & Y & N). eexists. split; [apply (solid2ang_ok _ _ _ n S)|]. split; [now repeat split|].
  cbn [im_px]. unfold transform_to. change (IZR i + 1 / 2, IZR j + 1 / 2) with (pixel_centre i j).
  pose proof (pixel_in_view ynorth 180 n i j regular_north hemi_180 ltac:(lia) P) as V. destruct (in_view _ 0 _).
  - split; [intros L; assert (image_radius n i j < 1 / 2) by (now apply V); exfalso; lra|]. intros L.
    set (xy := ((IZR i + 1 / 2) / IZR n, (IZR j + 1 / 2) / IZR n)).
    destruct (ang2solid_radius ynorth xy ltac:(left; exact L)) as (k & K & Q & t & T & E & B). exists k, t.
    split; [|split; [exact T|split; [exact E|]]].
    + f_equal. unfold solid_ray2pixelf. change (pixel2ray (mk_view ynorth 180) n (pixel_centre i j)) with (vxy2xyz (mk_view ynorth 180) xy).
      rewrite Q. cbn [fst snd]. unfold xy. cbn [fst snd]. apply scaled_centre. lia.
    + rewrite Q in B. unfold xy in B. cbn [fst snd] in B. rewrite pdist_along in B by auto. exact B.
  - split; [reflexivity|intros L; apply V in L; discriminate].
Qed.

(** * gradients and values of array_solid2ang *)
Lemma solid2ang_gradient im n g i j : square_image im n -> bilinear g -> follows g im n -> pixel_of n i j -> image_radius n i j < 1 / 2 ->
  exists out k, array_solid2ang false false 180 im = Ok out /\ square_image out n /\ im_px out i j = g (along n i j k) /\
    - / 10 ^ 9 <= k * image_radius n i j - equisolid_radius (PI / 2) (PI * image_radius n i j) <= 0.
Proof.
  intros S B F P R. destruct (solid_reads false im n i j S P R) as (out & k & E & S2 & V & K). exists out, k.
  split; [exact E|]. split; [exact S2|]. split; [|exact K]. rewrite V. apply rgi_follows; auto. apply S.
Qed.
Lemma ang2solid_gradient im n g i j : square_image im n -> bilinear g -> follows g im n -> pixel_of n i j ->
  exists out, array_solid2ang false true 180 im = Ok out /\ square_image out n /\
    (1 / 2 <= image_radius n i j -> im_px out i j = 0) /\
    (image_radius n i j < 1 / 2 -> exists k t, im_px out i j = g (along n i j k) /\
       0 <= t <= PI / 2 /\ equisolid_radius (PI / 2) t = image_radius n i j /\
       - / 10 ^ 9 <= k * image_radius n i j - t / PI <= 0).
Proof.
  intros S B F P. destruct (solid_back false im n i j S P) as (out & E & S2 & O & I). exists out.
  split; [exact E|]. split; [exact S2|]. split; [exact O|]. intros R. destruct (I R) as (k & t & V & T). exists k, t.
  split; [|exact T]. rewrite V. apply rgi_follows; auto. apply S.
Qed.
Lemma solid2ang_nearest reverse im n : square_image im n -> exists out, array_solid2ang true reverse 180 im = Ok out /\ square_image out n /\
  forall i j, im_px out i j = 0 \/ exists a b, pixel_of n a b /\ im_px out i j = im_px im a b.
Proof.
  intros S. eexists. split; [apply (solid2ang_ok _ _ _ n S)|]. pose proof S as (X & Y & N). split; [now repeat split|].
  intros i j. cbn [im_px]. unfold transform_to. destruct (in_view _ _ _); [right|now left]. rewrite rgi_shift.
  match goal with |- context [rgi true None n 0 (im_px im) ?p] => destruct (rgi_nearest_value None n (im_px im) p N) as [(f & E & _)|(a & b & P & E)] end;
    [discriminate|]. exists a, b. now split.
Qed.
Lemma solid2ang_negative : exists im out, square_image im 2 /\ pixels_within im 0 1 /\
  array_solid2ang false false 180 im = Ok out /\ im_px out 0%Z 0%Z < 0.
Proof.
  set (im := Img 2 2 (fun i j => if ((i =? 0) && (j =? 0))%Z then 0 else 1)).
  assert (S : square_image im 2) by (repeat split; lia).
  assert (Rd : image_radius 2 0 0 = sqrt 2 / 4).
  { unfold image_radius, pdist, center. cbn [fst snd]. pose proof (sqrt_sqrt 2 ltac:(lra)) as Q. pose proof sqrt2_bound.
    replace (sqrt 2 / 4) with (Rabs (sqrt 2 / 4)) by (apply Rabs_right; lra). rewrite <- sqrt_Rsqr_abs. f_equal. unfold Rsqr.
    replace (sqrt 2 / 4 * (sqrt 2 / 4)) with (sqrt 2 * sqrt 2 / 16) by field. rewrite Q. field. }
  assert (B2 : 1.414 < sqrt 2 < 1.415) by (pose proof sqrt2_bound; pose proof sqrt2_sqr; split; nra).
  destruct (solid_reads false im 2 0 0 S ltac:(unfold pixel_of; lia) ltac:(rewrite Rd; lra)) as (out & k & E & S2 & V & K).
  exists im, out. split; [exact S|]. split; [intros i j _ _; unfold im; cbn [im_px]; destruct (_ && _)%bool; lra|]. split; [exact E|].
  rewrite V. rewrite Rd in K. unfold equisolid_radius in K. replace (PI / 2 / 2) with (PI / 4) in K by field. rewrite sin_PI4' in K.
  assert (K1 : 1 < k).
  { set (x := PI * (sqrt 2 / 4) / 2) in K. pose proof PI_lo. pose proof PI_hi. assert (X : 55 / 100 <= x <= 56 / 100) by (unfold x; split; nra).
    pose proof (sin_ge_cubic x ltac:(lra)) as C.
    assert (C2 : 52 / 100 <= sin x) by (clearbody x; nra).
    assert (E9 : 0 < / 10 ^ 9 <= 1 / 1000) by (split; [apply Rinv_0_lt_compat; lra|]; replace (1 / 1000) with (/ 1000) by field; apply Rinv_le_contravar; lra).
    replace (sin x / (2 * (sqrt 2 / 2))) with (sin x / sqrt 2) in K by (field; lra).
    assert (D : 36 / 100 <= sin x / sqrt 2).
    { apply Rmult_le_reg_r with (sqrt 2); [lra|]. unfold Rdiv at 2. rewrite Rmult_assoc, Rinv_l by lra. lra. }
    clearbody x. generalize dependent (/ 10 ^ 9). generalize dependent (sin x / sqrt 2). intros. nra. }
  unfold along, rgi. cbn [fst snd]. set (q := 2 / 2 + k * (0 + 1 / 2 - 2 / 2)).
  assert (Q : q < 1 / 2) by (unfold q; lra).
  assert (A : rgi_axis 2 (1 / 2) q = (0%Z, q - 1 / 2)).
  { unfold rgi_axis. replace (Z.max 0 _) with 0%Z by lia. f_equal. ring. }
  rewrite A. unfold im. cbn [im_px Z.eqb Z.add andb Pos.eqb]. nra.
Qed.

Lemma solid2ang_image im n g : square_image im n -> bilinear g -> follows g im n ->
  exists out, array_solid2ang false false 180 im = Ok out /\ square_image out n /\
  forall i j, pixel_of n i j -> image_radius n i j < 1 / 2 -> exists k, im_px out i j = g (along n i j k) /\
    - / 10 ^ 9 <= k * image_radius n i j - equisolid_radius (PI / 2) (PI * image_radius n i j) <= 0.
Proof.
  intros S B F. eexists. split; [apply (solid2ang_ok _ _ _ n S)|]. split; [pose proof S as (X & Y & N); now repeat split|].
  intros i j P R. destruct (solid2ang_gradient im n g i j S B F P R) as (out & k & E & _ & V & K).
  rewrite (solid2ang_ok _ _ _ n S) in E. injection E as <-. exists k. now split.
Qed.
Lemma ang2solid_image im n g : square_image im n -> bilinear g -> follows g im n ->
  exists out, array_solid2ang false true 180 im = Ok out /\ square_image out n /\
  forall i j, pixel_of n i j ->
    (1 / 2 <= image_radius n i j -> im_px out i j = 0) /\
    (image_radius n i j < 1 / 2 -> exists k t, im_px out i j = g (along n i j k) /\
       0 <= t <= PI / 2 /\ equisolid_radius (PI / 2) t = image_radius n i j /\
       - / 10 ^ 9 <= k * image_radius n i j - t / PI <= 0).
Proof.
  intros S B F. eexists. split; [apply (solid2ang_ok _ _ _ n S)|]. split; [pose proof S as (X & Y & N); now repeat split|].
  intros i j P. destruct (ang2solid_gradient im n g i j S B F P) as (out & E & _ & V).
  rewrite (solid2ang_ok _ _ _ n S) in E. injection E as <-. exact V.
Qed.
