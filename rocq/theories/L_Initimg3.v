From Coq Require Import Ascii String Sorted Lra Lia.
From Verif Require Import Base L_Base M_Translate M_Mapper M_Header M_Initimg S_Mapper S_Rotate S_Transform S_Initimg L_Trig L_Angles L_Mapper L_Bins L_Rotate L_Transform L_Draw L_Solid L_Initimg L_Initimg2.
Import ListNotations.
Local Open Scope R_scope.

Lemma sq2 : 1414 / 1000 < sqrt 2 < 14143 / 10000.
Proof. pose proof sqrt2_bound. pose proof sqrt2_sqr. split; nra. Qed.
(** * the equisolid image *)
Lemma init_vte c show vm res pt f ix : (0 <= res)%Z ->
  init_img c show vm res pt f (s "vte") ix =
  let vecs := map (fun p => solid_pixel2ray vm res (IZR (fst p) + 1 / 2, IZR (snd p) + 1 / 2)) (zgrid res res) in
  let m := in_view_of vm res vecs ix in
  Ok (Init (img_shape vm res f) [res; res; 3]%Z vecs m (channel_mask f ix m) (proj_header show vm pt (s "vte"))).
Proof.
  intros R. unfold init_img. change (view_proj (s "vte")) with (Ok (s "vte")). cbn [bind]. change (in_strs (s "vte") _) with false.
  cbn iota. destruct (Z.ltb_spec res 0); [lia|]. reflexivity.
Qed.
Definition solids (vm : viewmapper) (res : Z) := map (fun p : Z * Z => solid_pixel2ray vm res (IZR (fst p) + 1 / 2, IZR (snd p) + 1 / 2)) (zgrid res res).
Lemma solids_at vm n i j : (0 <= i < n)%Z -> (0 <= j < n)%Z -> nth (Z.to_nat (i * n + j)) (solids vm n) vzero = solid_pixel2ray vm n (pixel_centre i j).
Proof. intros I J. unfold solids. now rewrite nth_grid. Qed.
Lemma solids_count vm n : (0 <= n)%Z -> Z.of_nat (length (solids vm n)) = (n * n)%Z.
Proof. intros N. unfold solids. rewrite map_length, zgrid_length. nia. Qed.
Lemma solid_unit d va n p : hemi_angle va -> vnorm (solid_pixel2ray (mk_view d va) n p) = 1.
Proof. intros H. unfold solid_pixel2ray. rewrite solid_as_angular by auto. apply vxy2xyz_unit. Qed.
Definition at_image (n i j : Z) : R * R := ((IZR i + 1 / 2) / IZR n, (IZR j + 1 / 2) / IZR n).
Lemma solid_at_image vm n i j : solid_pixel2ray vm n (pixel_centre i j) = solid_vxy2xyz vm (at_image n i j).
Proof. reflexivity. Qed.

(** the radius in the equiangular image *)
Lemma at_image_square n i j : (0 <= i < n)%Z -> (0 <= j < n)%Z -> in_unit_square (at_image n i j).
Proof.
  intros I J. assert (N : (0 < n)%Z) by lia. assert (P : 0 < IZR n) by now apply IZR_lt.
  assert (Sq : forall k, (0 <= k < n)%Z -> 0 <= (IZR k + 1 / 2) / IZR n <= 1).
  { intros k K. pose proof (pixel_range n k N K) as [B1 B2]. split; [apply Rmult_le_pos; [auto|left; now apply Rinv_0_lt_compat]|].
    apply Rmult_le_reg_r with (IZR n); auto. unfold Rdiv. rewrite Rmult_assoc, Rinv_l by lra. lra. }
  split; cbn [fst snd at_image]; auto.
Qed.
Lemma radius_square n i j : (0 < n)%Z -> 4 * IZR (n * n) * (image_radius n i j * image_radius n i j) =
  IZR ((2 * i + 1 - n) * (2 * i + 1 - n) + (2 * j + 1 - n) * (2 * j + 1 - n)).
Proof.
  intros N. assert (P : 0 < IZR n) by now apply IZR_lt. unfold image_radius, pdist, center. cbn [fst snd]. rewrite sqrt_sqrt by (apply Rplus_le_le_0_compat; apply Rle_0_sqr).
  rewrite plus_IZR, !mult_IZR, !minus_IZR, !plus_IZR, !mult_IZR. field. lra.
Qed.
Lemma no_boundary n i j : (0 < n)%Z -> ~ in_circle n i j -> (n * n + 1 <= (2 * i + 1 - n) * (2 * i + 1 - n) + (2 * j + 1 - n) * (2 * j + 1 - n))%Z.
Proof.
  intros N C. unfold in_circle in C. assert (E : ((2 * i + 1 - n) * (2 * i + 1 - n) + (2 * j + 1 - n) * (2 * j + 1 - n) <> n * n)%Z); [|lia].
  destruct (Z.Even_or_Odd n) as [[k ->]|[k ->]]; intros E.
  - assert (X : ((2 * i + 1 - 2 * k) * (2 * i + 1 - 2 * k) + (2 * j + 1 - 2 * k) * (2 * j + 1 - 2 * k) =
      4 * ((i - k) * (i - k) + (i - k) + (j - k) * (j - k) + (j - k)) + 2)%Z) by ring. rewrite X in E. assert (Y : (2 * k * (2 * k) = 4 * (k * k))%Z) by ring. lia.
  - assert (X : ((2 * i + 1 - (2 * k + 1)) * (2 * i + 1 - (2 * k + 1)) + (2 * j + 1 - (2 * k + 1)) * (2 * j + 1 - (2 * k + 1)) =
      2 * (2 * (i - k) * (i - k) + 2 * (j - k) * (j - k)))%Z) by ring. rewrite X in E. assert (Y : ((2 * k + 1) * (2 * k + 1) = 2 * (2 * k * k + 2 * k) + 1)%Z) by ring. lia.
Qed.

Lemma solid_radius_eq rho : 0 <= rho -> sfac (PI * rho) * rho = sin (PI * rho / 2) / sqrt 2 * (PI * rho / (PI * rho + eps9)).
Proof. intros R. pose proof PI_pos. pose proof eps9_pos. pose proof sqrt2_bound. unfold sfac. field. split; nra. Qed.
Lemma radius_le n i j : (0 <= i < n)%Z -> (0 <= j < n)%Z -> 0 <= image_radius n i j <= sqrt 2 / 2.
Proof.
  intros I J. split; [apply sqrt_pos|]. pose proof (square_in_disk _ (at_image_square n i j I J)) as D. exact D.
Qed.
Lemma solid_angular d n i j : (0 <= i < n)%Z -> (0 <= j < n)%Z ->
  pdist (xyz2vxy (mk_view d 180) (solid_pixel2ray (mk_view d 180) n (pixel_centre i j))) center = sfac (PI * image_radius n i j) * image_radius n i j.
Proof.
  intros I J. pose proof (radius_le n i j I J) as R. pose proof PI_lo. pose proof PI_hi. pose proof sq2 as S2. pose proof eps9_pos.
  rewrite solid_at_image, solid_as_angular by apply hemi_180. replace (180 * PI / 180) with PI by field. change (pdist (at_image n i j) center) with (image_radius n i j).
  set (rho := image_radius n i j) in *. assert (K : 0 <= sfac (PI * rho)) by (apply sfac_nonneg; nra).
  assert (B : sfac (PI * rho) * rho <= 1 / sqrt 2).
  { rewrite solid_radius_eq by lra. pose proof (efrac (PI * rho) ltac:(nra)) as F. pose proof (SIN_bound (PI * rho / 2)) as [_ Sb].
    assert (0 <= sin (PI * rho / 2)) by (apply sin_ge_0; nra). assert (0 < / sqrt 2) by (apply Rinv_0_lt_compat; lra). unfold Rdiv at 1 2. unfold Rdiv in F.
    assert (sin (PI * rho / 2) * / sqrt 2 <= 1 * / sqrt 2) by nra. unfold Rdiv. assert (0 <= sin (PI * rho / 2) * / sqrt 2) by nra. unfold Rdiv in *. nra. }
  rewrite xyz2vxy_of.
  - rewrite angular_radius by auto. reflexivity.
  - apply hemi_180.
  - rewrite angular_radius by auto. change (pdist (at_image n i j) center) with rho. unfold vscl. rewrite mk_view_hemi_va, chordfactor_180 by apply hemi_180.
    assert (1 / sqrt 2 < 1). { apply Rmult_lt_reg_r with (sqrt 2); [lra|]. unfold Rdiv. rewrite Rmult_assoc, Rinv_l by lra. lra. } lra.
Qed.
Lemma solid_circle d n i j : regular_dir d -> (0 <= i < n)%Z -> (0 <= j < n)%Z -> (n <= 10000)%Z ->
  in_view (mk_view d 180) 0 (solid_pixel2ray (mk_view d 180) n (pixel_centre i j)) = true <-> in_circle n i j.
Proof.
  intros G I J N1. assert (N0 : (0 < n)%Z) by lia. rewrite in_view_circle; [|auto|apply hemi_180|apply vnorm_1, solid_unit, hemi_180].
  rewrite solid_angular by auto. pose proof (radius_le n i j I J) as R. pose proof (radius_square n i j N0) as Q. pose proof (radius_circle n i j N0) as C.
  set (rho := image_radius n i j) in *. rewrite solid_radius_eq by lra. pose proof PI_lo as P1. pose proof PI_hi as P2. pose proof sq2 as S2. pose proof sqrt2_sqr as S22. pose proof eps9_pos as E.
  pose proof (efrac (PI * rho) ltac:(nra)) as F. assert (I2 : 0 < / sqrt 2) by (apply Rinv_0_lt_compat; lra). assert (I22 : / sqrt 2 * sqrt 2 = 1) by (apply Rinv_l; lra).
  set (g := PI * rho / (PI * rho + eps9)) in *. split.
  - intros L. destruct (Z_lt_dec ((2 * i + 1 - n) * (2 * i + 1 - n) + (2 * j + 1 - n) * (2 * j + 1 - n)) (n * n)) as [|Nc]; auto. exfalso.
    pose proof (no_boundary n i j N0 Nc) as B. apply IZR_le in B. rewrite <- Q, plus_IZR in B.
    assert (M : 1 <= IZR (n * n) <= 100000000). { split; apply IZR_le; nia. } set (m := IZR (n * n)) in *.
    assert (Rho : 1 / 2 + 1 / 500000000 <= rho). { destruct (Rle_lt_dec (1 / 2 + 1 / 500000000) rho) as [|Hl]; auto. exfalso.
      assert (rho * rho <= (1 / 2 + 1 / 500000000) * (1 / 2 + 1 / 500000000)) by nra. nra. }
    set (x := PI * (rho - 1 / 2)). assert (X : PI * (1 / 500000000) <= x <= PI / 2) by (unfold x; nra).
    assert (Sx : 4 / 1000000000 <= sin x).
    { apply Rle_trans with (sin (PI * (1 / 500000000))).
      - pose proof (sin_ge_cubic (PI * (1 / 500000000)) ltac:(lra)) as Sc. set (y := PI * (1 / 500000000)) in *.
        assert (0 <= y <= 1 / 100000000) by (unfold y; lra). assert (y * y * y <= y / 10000) by nra. assert (62 / 10000000000 <= y) by (unfold y; lra). lra.
      - apply sin_incr_1; lra. }
    assert (Sq : 2 * (sin (PI * rho / 2) * sin (PI * rho / 2)) = 1 + sin x).
    { assert (Ex : x = 2 * (PI * rho / 2) - PI / 2) by (unfold x; field). rewrite Ex, sin_minus, sin_PI2, cos_PI2, cos_2a_sin. ring. }
    assert (Sn : 0 <= sin (PI * rho / 2)) by (apply sin_ge_0; nra).
    assert (Gb : 1 - 13 / 10 * eps9 * (1 / 2) <= g).
    { unfold g. apply Rmult_le_reg_r with (PI * rho + eps9); [nra|]. replace (PI * rho / (PI * rho + eps9) * (PI * rho + eps9)) with (PI * rho) by (field; nra). assert (Y : 157 / 100 <= PI * rho) by nra. clear -Y E. set (y := PI * rho) in *. clearbody y. set (e := eps9) in *. clearbody e. nra. }
    assert (Le : sin (PI * rho / 2) / sqrt 2 * g < 1 / 2) by exact L. set (sn := sin (PI * rho / 2)) in *.
    assert (A : (sn / sqrt 2) * (sn / sqrt 2) = (1 + sin x) / 4). { replace (sn / sqrt 2 * (sn / sqrt 2)) with (sn * sn / (sqrt 2 * sqrt 2)) by (field; lra). rewrite S22. lra. }
    set (q := sn / sqrt 2) in *. assert (0 <= q) by (unfold q, Rdiv; nra). assert (Ev : eps9 = 1 / 1000000000) by (unfold eps9; lra).
    assert (q * g * (q * g) < 1 / 4) by nra. assert (g * g >= 1 - 13 / 10 * eps9) by nra.
    assert ((1 + sin x) / 4 * (1 - 13 / 10 * eps9) <= q * g * (q * g)) by (replace (q * g * (q * g)) with (q * q * (g * g)) by ring; rewrite A; apply Rmult_le_compat_l; lra).
    nra.
  - intros L. apply C in L. assert (Hs : sin (PI * rho / 2) < sqrt 2 / 2). { rewrite <- sin_PI4'. apply sin_increasing_1; nra. }
    assert (0 <= sin (PI * rho / 2)) by (apply sin_ge_0; nra). unfold Rdiv at 1. assert (sin (PI * rho / 2) * / sqrt 2 < 1 / 2) by nra.
    assert (0 <= sin (PI * rho / 2) * / sqrt 2) by nra. nra.
Qed.
Lemma init_equisolid c d va show res pt f ix a : hemi_angle va -> (0 <= res)%Z -> names a Equisolid ->
  exists r, init_img c show (mk_view d va) res pt f a ix = Ok r /\ i_shape r = shape_of f res res /\ vecs_fill r res res /\
  (forall i j, (0 <= i < res)%Z -> (0 <= j < res)%Z -> vnorm (vec_at r res i j) = 1 /\
     (in_circle res i j -> pdist (solid_xyz2vxy (mk_view d va) (vec_at r res i j)) ((IZR i + 1 / 2) / IZR res, (IZR j + 1 / 2) / IZR res)
                           <= 2 * sqrt 2 * / 10 ^ 9 / (va * PI / 180))) /\
  (regular_dir d -> va = 180 -> (res <= 10000)%Z -> masks res res (in_circle res) ix (i_mask r) /\ masks_planes f res res (in_circle res) ix (i_mask2 r)) /\
  header_as Equisolid (vm_header show (mk_view d va) pt) (i_header r).
Proof.
  intros H R Na. rewrite (init_names a _ _ _ _ _ _ _ _ Na). cbn [label]. rewrite init_vte by auto. cbv zeta. fold (solids (mk_view d va) res).
  rewrite (shape_1 _ _ _ (mk_view_hemi_aspect d va H)). eexists. split; [reflexivity|]. unfold vec_at, vecs_fill. cbn [i_shape i_vecs_shape i_vecs i_mask i_mask2 i_header].
  split; [reflexivity|]. split; [split; [reflexivity|now apply solids_count]|]. split; [|split; [|apply (header_label _ _ _ Equisolid)]].
  - intros i j I J. rewrite solids_at by auto. split; [now apply solid_unit|]. intros C. apply radius_circle in C; [|lia].
    rewrite solid_at_image. change ((IZR i + 1 / 2) / IZR res, (IZR j + 1 / 2) / IZR res) with (at_image res i j).
    change (image_radius res i j) with (pdist (at_image res i j) center) in C. pose proof (solid_roundtrip d va H (at_image res i j) ltac:(lra)) as S. exact S.
  - intros G -> N. assert (M : masks res res (in_circle res) ix (in_view_of (mk_view d 180) res (solids (mk_view d 180) res) ix)); [|split; [exact M|now apply channel_mask_ok]].
    destruct (Z.eq_dec res 0) as [->|Z]; [apply in_view_masks_0; reflexivity|].
    apply in_view_masks; [lia|now apply solids_count|]. intros i j I J. rewrite solids_at by auto. now apply solid_circle.
Qed.

(** findings *)
Lemma full_equisolid c d show res pt ix : (0 < res)%Z -> d <> vzero ->
  exists r, init_img c show (mk_view d 360) res pt 1 (s "vte") ix = Ok r /\ i_shape r = [2 * res; res]%Z /\
  i_vecs_shape r = [res; res; 3]%Z /\ Z.of_nat (length (i_vecs r)) = (res * res)%Z /\
  match i_mask r with Pairs l => forall p, In p l -> (0 <= fst p < res)%Z | Flat l => Z.of_nat (length l) = (res * res)%Z | _ => False end.
Proof.
  intros R D. rewrite init_vte by lia. cbv zeta. fold (solids (mk_view d 360) res). rewrite (shape_2 _ _ _ (proj2 (mk_view_360 d))). eexists. split; [reflexivity|].
  cbn [i_shape i_vecs_shape i_vecs i_mask]. split; [reflexivity|]. split; [reflexivity|]. split; [apply solids_count; lia|].
  pose proof (in_view_masks (mk_view d 360) res res (solids (mk_view d 360) res)
    (fun i j => in_view (mk_view d 360) 0 (nth (Z.to_nat (i * res + j)) (solids (mk_view d 360) res) vzero) = true) ix R (solids_count (mk_view d 360) res (Z.lt_le_incl _ _ R)) (fun _ _ _ _ => iff_refl _)) as M.
  unfold masks in M. destruct ix.
  - destruct M as (l & -> & _ & M). intros [i j] I. apply M in I. cbn [fst]. tauto.
  - destruct M as (l & -> & M & _). exact M.
Qed.
Lemma radius_200 : image_radius 2 0 0 = sqrt 2 / 4.
Proof.
  pose proof sqrt2_bound. pose proof sqrt2_sqr. unfold image_radius, pdist, center. cbn [fst snd]. apply Rsqr_inj; [apply sqrt_pos|lra|].
  unfold Rsqr. rewrite sqrt_sqrt by (apply Rplus_le_le_0_compat; apply Rle_0_sqr). lra.
Qed.
Lemma solid_angle_200 d : regular_dir d -> 116 / 100 + 5 / 1000 <= angle (norm d) (solid_pixel2ray (mk_view d 180) 2 (pixel_centre 0 0)).
Proof.
  intros G. pose proof (solid_angular d 2 0 0 ltac:(lia) ltac:(lia)) as S. unfold xyz2vxy in S. rewrite mk_view_hemi_aspect in S by apply hemi_180. cbn [Z.eqb Pos.eqb] in S.
  rewrite pdist_180 in S by (auto; apply vnorm_1, solid_unit, hemi_180). set (t := angle _ _) in *. rewrite radius_200 in S.
  pose proof PI_lo as P1. pose proof PI_hi as P2. pose proof sq2 as S2. pose proof sqrt2_sqr as S22. pose proof eps9_pos as E.
  rewrite solid_radius_eq in S by lra. set (x := PI * (sqrt 2 / 4) / 2) in *. assert (X : 5549 / 10000 <= x <= 557 / 1000) by (unfold x; clear -P1 P2 S2; set (p := PI) in *; set (q := sqrt 2) in *; clearbody p q; assert (314 / 100 * q <= p * q) by (apply Rmult_le_compat_r; lra); assert (p * q <= 315 / 100 * q) by (apply Rmult_le_compat_r; lra); split; lra).
  pose proof (sin_ge_cubic x ltac:(lra)) as Sc. assert (C : x * x * x <= 557 / 1000 * (557 / 1000) * (557 / 1000)) by nra.
  assert (Gb : 1 - eps9 <= PI * (sqrt 2 / 4) / (PI * (sqrt 2 / 4) + eps9)).
  { apply Rmult_le_reg_r with (PI * (sqrt 2 / 4) + eps9); [nra|]. replace (PI * (sqrt 2 / 4) / (PI * (sqrt 2 / 4) + eps9) * (PI * (sqrt 2 / 4) + eps9)) with (PI * (sqrt 2 / 4)) by (field; nra). assert (Y : 1 <= PI * (sqrt 2 / 4)) by (unfold x in X; lra). clear -Y E. set (y := PI * (sqrt 2 / 4)) in *. clearbody y. set (e := eps9) in *. clearbody e. nra. }
  set (g := PI * (sqrt 2 / 4) / (PI * (sqrt 2 / 4) + eps9)) in *. assert (T : t = PI * (sin x / sqrt 2 * g)) by (rewrite <- S; field; lra).
  assert (Sx : 526 / 1000 <= sin x) by lra. assert (I2 : 707 / 1000 <= / sqrt 2).
  { apply Rmult_le_reg_r with (sqrt 2); [lra|]. rewrite Rinv_l by lra. lra. }
  assert (Q : 526 / 1000 * (707 / 1000) <= sin x / sqrt 2) by (unfold Rdiv; nra). rewrite T. set (q := sin x / sqrt 2) in *. clearbody q g. clear -P1 Q Gb E.
  assert (999 / 1000 <= g) by lra. assert (3715 / 10000 <= q * g) by nra. assert (314 / 100 * (q * g) <= PI * (q * g)) by (apply Rmult_le_compat_r; lra). lra.
Qed.
Lemma full_vec d n show pt f ix a : (0 < n)%Z -> names a Equisolid ->
  exists r, init_img Angular show (mk_view d 180) n pt f a ix = Ok r /\ vec_at r n 0 0 = solid_pixel2ray (mk_view d 180) n (pixel_centre 0 0).
Proof.
  intros N Na. rewrite (init_names a _ _ _ _ _ _ _ _ Na). cbn [label]. rewrite init_vte by lia. cbv zeta. eexists. split; [reflexivity|]. unfold vec_at. cbn [i_vecs].
  apply (solids_at (mk_view d 180) n 0 0); lia.
Qed.
Lemma equisolid_law d show pt ix : regular_dir d ->
  exists r, init_img Angular show (mk_view d 180) 2 pt 1 (s "vte") ix = Ok r /\ header_as Equisolid (vm_header show (mk_view d 180) pt) (i_header r) /\
  image_radius 2 0 0 = equisolid_radius (PI / 2) (PI / 3) /\ PI / 3 + 1 / 10 < angle (norm d) (vec_at r 2 0 0).
Proof.
  intros G. destruct (init_equisolid Angular d 180 show 2 pt 1 ix (s "vte") hemi_180 ltac:(lia) n_vte) as (r & E & _ & _ & _ & _ & Hd).
  exists r. split; [exact E|]. split; [exact Hd|]. destruct (full_vec d 2 show pt 1 ix (s "vte") ltac:(lia) n_vte) as (r' & E' & V). rewrite E in E'. injection E' as <-.
  pose proof PI_hi. pose proof sqrt2_sqr. pose proof sq2. split.
  - rewrite radius_200. unfold equisolid_radius. replace (PI / 2 / 2) with (PI / 4) by field. rewrite sin_PI4'. replace (PI / 3 / 2) with (PI / 6) by field. rewrite sin_PI6.
    apply Rmult_eq_reg_r with (sqrt 2); [|lra]. replace (sqrt 2 / 4 * sqrt 2) with (sqrt 2 * sqrt 2 / 4) by field. rewrite H0. field. lra.
  - rewrite V. pose proof (solid_angle_200 d G). lra.
Qed.
Lemma class_mismatch d show pt ix : regular_dir d ->
  exists r, init_img Solid show (mk_view d 180) 2 pt 1 (s "vta") ix = Ok r /\ i_header r = vm_header show (mk_view d 180) pt /\
  PI * image_radius 2 0 0 + 1 / 100 < angle (norm d) (vec_at r 2 0 0).
Proof.
  intros G. rewrite init_vta by lia. cbv zeta. eexists. split; [reflexivity|]. cbn [i_header]. split; [reflexivity|].
  unfold vec_at. cbn [i_vecs class_rays]. change (map _ (zgrid 2 2)) with (solids (mk_view d 180) 2). rewrite (solids_at (mk_view d 180) 2 0 0) by lia.
  pose proof (solid_angle_200 d G). rewrite radius_200. pose proof PI_lo. pose proof PI_hi. pose proof sq2.
  assert (PI * (sqrt 2 / 4) <= 315 / 100 * (14143 / 40000)) by (apply Rmult_le_compat; lra). lra.
Qed.
(** a view of 90 degrees *)
Lemma narrow_mask d show pt : regular_dir d ->
  exists r l, init_img Angular show (mk_view d 90) 20 pt 1 (s "vte") true = Ok r /\ i_mask r = Pairs l /\ in_circle 20 0 9 /\ ~ In (0, 9)%Z l.
Proof.
  intros G. assert (H : hemi_angle 90) by (unfold hemi_angle; lra). rewrite init_vte by lia. cbv zeta. fold (solids (mk_view d 90) 20).
  pose proof (in_view_masks (mk_view d 90) 20 20 (solids (mk_view d 90) 20)
    (fun i j => in_view (mk_view d 90) 0 (nth (Z.to_nat (i * 20 + j)) (solids (mk_view d 90) 20) vzero) = true) true ltac:(lia) (solids_count (mk_view d 90) 20 ltac:(lia)) (fun _ _ _ _ => iff_refl _)) as M.
  cbn [masks] in M. destruct M as (l & E & _ & M). eexists. exists l. split; [reflexivity|]. split; [exact E|]. split; [unfold in_circle; lia|].
  rewrite M. intros (_ & _ & V). rewrite solids_at in V by lia. rewrite in_view_circle in V; [|auto|auto|apply vnorm_1, solid_unit; auto].
  pose proof (radius_square 20 0 9 ltac:(lia)) as Q. assert (R0 : 0 <= image_radius 20 0 9) by apply sqrt_pos. rewrite solid_at_image in V.
  change (image_radius 20 0 9) with (pdist (at_image 20 0 9) center) in *. set (rho := pdist (at_image 20 0 9) center) in *.
  change (IZR (20 * 20)) with 400 in Q. change (IZR ((2 * 0 + 1 - 20) * (2 * 0 + 1 - 20) + (2 * 9 + 1 - 20) * (2 * 9 + 1 - 20))) with 362 in Q.
  assert (R1 : 4756 / 10000 <= rho <= 4757 / 10000) by (split; nra).
  rewrite solid_to_angular in V by (auto; fold rho; lra). fold rho in V. pose proof PI_lo as P1. pose proof PI_hi as P2. pose proof eps9_pos as E9. pose proof sq2 as S2. pose proof sqrt2_sqr as S22.
  set (w := 90 * PI / 180 * rho) in *. assert (W : w = PI * rho / 2) by (unfold w; field). assert (Wb : 746 / 1000 <= w <= 75 / 100) by (rewrite W; split; nra).
  rewrite angular_radius in V by (apply sfac_nonneg; lra). fold rho in V.
  assert (F : sfac w * rho = sin (w / 2) * sqrt 2 * (w / (w + eps9))). { assert (Rh : rho = 2 * w / PI) by (rewrite W; field; lra). rewrite Rh. unfold sfac.
    replace (sin (w / 2) * PI / sqrt 2 / (w + eps9) * (2 * w / PI)) with (sin (w / 2) * (2 / sqrt 2) * (w / (w + eps9))) by (field; lra).
    replace (2 / sqrt 2) with (sqrt 2); [reflexivity|]. rewrite <- S22 at 2. field. lra. }
  rewrite F in V. pose proof (sin_ge_cubic (w / 2) ltac:(lra)) as Sc. set (x := w / 2) in *. assert (X : 373 / 1000 <= x <= 375 / 1000) by (unfold x; lra).
  assert (x * x * x <= 375 / 1000 * (375 / 1000) * (375 / 1000)) by nra. assert (Gb : 1 - 2 * eps9 <= w / (w + eps9)).
  { apply Rmult_le_reg_r with (w + eps9); [lra|]. replace (w / (w + eps9) * (w + eps9)) with w by (field; lra). nra. }
  set (g := w / (w + eps9)) in *. assert (Sl : 364 / 1000 <= sin x) by lra. set (y := sin x) in *. clearbody y g. clear -V Sl Gb S2 E9. set (q := sqrt 2) in *. clearbody q.
  assert (364 / 1000 * (1414 / 1000) <= y * q) by (apply Rmult_le_compat; lra). assert (99 / 100 <= g) by lra. nra.
Qed.
