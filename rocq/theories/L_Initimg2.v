From Coq Require Import Ascii String Sorted Lra Lia.
From Verif Require Import Base L_Base M_Translate M_Mapper M_Header M_Initimg S_Mapper S_Rotate S_Transform S_Initimg L_Trig L_Mapper L_Bins L_Rotate L_Transform L_Draw L_Solid L_Initimg.
Import ListNotations.
Local Open Scope R_scope.

Lemma radius_circle n i j : (0 < n)%Z -> image_radius n i j < 1 / 2 <-> in_circle n i j.
Proof.
  intros N. unfold image_radius, in_circle, pdist, center. cbn [fst snd]. assert (P : 0 < IZR n) by now apply IZR_lt.
  set (S := ((2 * i + 1 - n) * (2 * i + 1 - n) + (2 * j + 1 - n) * (2 * j + 1 - n))%Z).
  replace (((IZR i + 1 / 2) / IZR n - 1 / 2) * ((IZR i + 1 / 2) / IZR n - 1 / 2) + ((IZR j + 1 / 2) / IZR n - 1 / 2) * ((IZR j + 1 / 2) / IZR n - 1 / 2))
    with (IZR S / (4 * (IZR n * IZR n))).
  2:{ unfold S. rewrite plus_IZR, !mult_IZR, !minus_IZR, !plus_IZR, !mult_IZR. field. lra. }
  assert (Q : 0 < 4 * (IZR n * IZR n)) by (pose proof (Rmult_lt_0_compat _ _ P P); lra).
  assert (S0 : 0 <= IZR S) by (apply IZR_le; unfold S; apply Z.add_nonneg_nonneg; apply Z.square_nonneg).
  assert (X0 : 0 <= IZR S / (4 * (IZR n * IZR n))) by (apply Rmult_le_pos; [auto|left; now apply Rinv_0_lt_compat]).
  rewrite <- (mult_IZR n n) in *.
  assert (H4 : sqrt (1 / 4) = 1 / 2). { replace (1 / 4) with (1 / 2 * (1 / 2)) by lra. apply sqrt_square. lra. }
  assert (M : IZR S / (4 * IZR (n * n)) * (4 * IZR (n * n)) = IZR S) by (field; lra).
  split; intros H.
  - apply lt_IZR. rewrite <- H4 in H. apply sqrt_lt_0_alt in H. nra.
  - rewrite <- H4. apply sqrt_lt_1_alt. split; auto. apply IZR_lt in H. nra.
Qed.
Lemma masks_ext h w P Q ix m : (forall i j, (0 <= i < h)%Z -> (0 <= j < w)%Z -> P i j <-> Q i j) -> masks h w P ix m -> masks h w Q ix m.
Proof.
  intros E. unfold masks. destruct ix; intros (l & -> & A & B); exists l; (split; [reflexivity|]); (split; [auto|]); intros i j.
  - rewrite B. split; intros (I & J & K); (split; [exact I|split; [exact J|now apply (E i j I J)]]).
  - intros I J. rewrite B by auto. now apply E.
Qed.
Lemma header_vta show vm pt : proj_header show vm pt (s "vta") = vm_header show vm pt.
Proof. reflexivity. Qed.
Lemma header_label show vm pt p : header_as p (vm_header show vm pt) (proj_header show vm pt (label p)).
Proof. destruct p; (eexists; split; [reflexivity|reflexivity]). Qed.

(** * the equiangular image *)
Lemma init_vta c show vm res pt f ix : (0 <= res)%Z -> 
  init_img c show vm res pt f (s "vta") ix =
  let vecs := class_rays c vm res in
  let half := Z.to_nat (res * res) in
  let m := if (vm_aspect vm =? 2)%Z
           then mask_join res (in_view_of vm res (firstn half vecs) ix) (in_view_of (vm_ivm vm) res (skipn half vecs) ix)
           else in_view_of vm res vecs ix in
  Ok (Init (img_shape vm res f) [vm_aspect vm * res; res; 3]%Z vecs m (channel_mask f ix m) (vm_header show vm pt)).
Proof.
  intros R. unfold init_img. change (view_proj (s "vta")) with (Ok (s "vta")). cbn [bind]. change (in_strs (s "vta") _) with true.
  unfold mixin_init_img. change (mixin_proj (s "vta")) with (Ok (s "vta")). cbn [bind]. destruct (Z.ltb_spec res 0); [lia|].
  change (str_eqb (s "vta") (s "vta")) with true. reflexivity.
Qed.
Lemma shape_1 vm res f : vm_aspect vm = 1%Z -> img_shape vm res f = shape_of f res res.
Proof. intros A. unfold img_shape, shape_of. now rewrite A, Z.mul_1_r. Qed.
Lemma shape_2 vm res f : vm_aspect vm = 2%Z -> img_shape vm res f = shape_of f (2 * res) res.
Proof. intros A. unfold img_shape, shape_of. now rewrite A, (Z.mul_comm res). Qed.
Lemma rays1_at vm n i j : (0 <= i < n)%Z -> (0 <= j < n)%Z -> nth (Z.to_nat (i * n + j)) (pixelrays1 vm n) vzero = pixel2ray vm n (pixel_centre i j).
Proof. intros I J. unfold pixelrays1. now rewrite nth_grid. Qed.
Lemma rays1_count vm n : (0 <= n)%Z -> Z.of_nat (length (pixelrays1 vm n)) = (n * n)%Z.
Proof. intros N. rewrite pixelrays1_length. nia. Qed.
Lemma rays1_masks d va n ix : regular_dir d -> hemi_angle va -> (0 <= n)%Z ->
  masks n n (in_circle n) ix (in_view_of (mk_view d va) n (pixelrays1 (mk_view d va) n) ix).
Proof.
  intros G H N. destruct (Z.eq_dec n 0) as [->|Z]; [apply in_view_masks_0; apply pixelrays1_length|].
  apply in_view_masks; [lia|now apply rays1_count|]. intros i j I J. rewrite rays1_at by auto. rewrite (pixel_in_view d va n i j G H ltac:(lia) (conj I J)). apply radius_circle. lia.
Qed.
Lemma init_angular d va show res pt f ix a : regular_dir d -> hemi_angle va -> (0 <= res)%Z -> names a Equiangular ->
  exists r, init_img Angular show (mk_view d va) res pt f a ix = Ok r /\ i_shape r = shape_of f res res /\ vecs_fill r res res /\
  (forall i j, (0 <= i < res)%Z -> (0 <= j < res)%Z -> vnorm (vec_at r res i j) = 1 /\ ray2pixel (mk_view d va) res (vec_at r res i j) = (i, j)) /\
  masks res res (in_circle res) ix (i_mask r) /\ masks_planes f res res (in_circle res) ix (i_mask2 r) /\
  i_header r = vm_header show (mk_view d va) pt.
Proof.
  intros G H R Na. rewrite (init_names a _ _ _ _ _ _ _ _ Na). cbn [label]. rewrite init_vta by auto. pose proof (mk_view_hemi_aspect d va H) as A.
  cbv zeta. rewrite (shape_1 _ _ _ A). cbn [class_rays]. unfold pixelrays. rewrite A. cbn [Z.eqb Pos.eqb]. rewrite Z.mul_1_l.
  eexists. split; [reflexivity|]. pose proof (rays1_masks d va res ix G H R) as M. unfold vec_at, vecs_fill. cbn [i_shape i_vecs_shape i_vecs i_mask i_mask2 i_header].
  split; [reflexivity|]. split; [split; [reflexivity|now apply rays1_count]|]. split; [|split; [exact M|split; [now apply channel_mask_ok|reflexivity]]].
  intros i j I J. rewrite rays1_at by auto. split; [apply vxy2xyz_unit|now apply pixel_roundtrip].
Qed.

(** 360 degrees *)
Lemma in_view_360 d v : in_view (mk_view d 360) 0 v = in_view (mk_view d 180) 0 v.
Proof.
  unfold in_view, vm_radians. rewrite chordfactor_360, chordfactor_180, (proj1 (mk_view_360 d)), mk_view_hemi_va by apply hemi_180. reflexivity.
Qed.
Lemma view_of_360 d w vs ix : in_view_of (mk_view d 360) w vs ix = in_view_of (mk_view d 180) w vs ix.
Proof. unfold in_view_of. rewrite (map_ext (in_view (mk_view d 360) 0) (in_view (mk_view d 180) 0)); [reflexivity|]. intros v. apply in_view_360. Qed.
Lemma init_full d show res pt f ix a : regular_dir d -> regular_dir (vopp d) -> (0 <= res)%Z -> names a Equiangular ->
  exists r, init_img Angular show (mk_view d 360) res pt f a ix = Ok r /\ i_shape r = shape_of f (2 * res) res /\ vecs_fill r (2 * res) res /\
  (forall i j, (0 <= i < 2 * res)%Z -> (0 <= j < res)%Z -> vnorm (vec_at r res i j) = 1 /\
     (in_circle res (i mod res) j -> ray2pixel (mk_view d 360) res (vec_at r res i j) = (i, j))) /\
  masks (2 * res) res (fun i j => in_circle res (i mod res) j) ix (i_mask r) /\
  masks_planes f (2 * res) res (fun i j => in_circle res (i mod res) j) ix (i_mask2 r) /\
  i_header r = vm_header show (mk_view d 360) pt.
Proof.
  intros G G' R Na. rewrite (init_names a _ _ _ _ _ _ _ _ Na). cbn [label]. rewrite init_vta by auto. pose proof (proj2 (mk_view_360 d)) as A.
  pose proof (regular_nonzero d G) as D. cbv zeta. rewrite (shape_2 _ _ _ A). cbn [class_rays].
  assert (V : pixelrays (mk_view d 360) res = pixelrays1 (mk_view d 180) res ++ pixelrays1 (mk_view (vopp d) 180) res).
  { rewrite pixelrays_360, !pixelrays_180 by auto. reflexivity. }
  rewrite V, A. cbn [Z.eqb Pos.eqb]. rewrite ivm_eq by auto.
  assert (L : Z.to_nat (res * res) = length (pixelrays1 (mk_view d 180) res)) by (rewrite pixelrays1_length; nia).
  rewrite L, firstn_app, skipn_app, Nat.sub_diag, firstn_all, skipn_all. cbn [firstn skipn app]. rewrite app_nil_r, view_of_360.
  eexists. split; [reflexivity|]. unfold vec_at, vecs_fill. cbn [i_shape i_vecs_shape i_vecs i_mask i_mask2 i_header].
  assert (M : masks (2 * res) res (fun i j => in_circle res (i mod res) j) ix
    (mask_join res (in_view_of (mk_view d 180) res (pixelrays1 (mk_view d 180) res) ix) (in_view_of (mk_view (vopp d) 180) res (pixelrays1 (mk_view (vopp d) 180) res) ix))).
  { eapply masks_ext; [|apply mask_join_ok; [auto|apply rays1_masks; auto; apply hemi_180|apply rays1_masks; auto; apply hemi_180]].
    intros i j I J. cbv beta. destruct (Z.ltb_spec i res).
    - now rewrite Z.mod_small by lia.
    - replace (i mod res)%Z with (i - res)%Z; [reflexivity|]. apply Z.mod_unique with 1%Z; lia. }
  split; [reflexivity|]. split; [split; [reflexivity|rewrite app_length, Nat2Z.inj_add, !rays1_count by auto; ring]|].
  split; [|split; [exact M|split; [now apply channel_mask_ok|reflexivity]]].
  intros i j I J. assert (0 < res)%Z as N0 by lia. assert (P : 0 < IZR res) by now apply IZR_lt.
  assert (Sq : forall i, (0 <= i < res)%Z -> 0 <= (IZR i + 1 / 2) / IZR res <= 1).
  { intros k K. pose proof (pixel_range res k N0 K) as [B1 B2]. split; [apply Rmult_le_pos; [auto|left; now apply Rinv_0_lt_compat]|].
    apply Rmult_le_reg_r with (IZR res); auto. unfold Rdiv. rewrite Rmult_assoc, Rinv_l by lra. lra. }
  assert (Fl : forall k, Rfloor ((IZR k + 1 / 2) / IZR res * IZR res) = k).
  { intros k. apply Rfloor_unique. replace ((IZR k + 1 / 2) / IZR res * IZR res) with (IZR k + 1 / 2) by (field; lra). lra. }
  destruct (Z_lt_dec i res) as [Lt|Ge].
  - pose proof (grid_at res res i j ltac:(lia) J). rewrite app_nth1 by (rewrite pixelrays1_length; nia). rewrite rays1_at by lia. split; [apply vxy2xyz_unit|].
    rewrite Z.mod_small by lia. intros C. apply radius_circle in C; auto. unfold ray2pixel, ray2pixelf, pixel2ray, pixel_centre. cbn [fst snd].
    rewrite view360_roundtrip_front by (auto; split; cbn [fst snd]; apply Sq; lia). cbn [fst snd]. now rewrite !Fl.
  - assert (E : (i * res + j = res * res + ((i - res) * res + j))%Z) by ring. pose proof (grid_at res res (i - res) j ltac:(lia) J).
    rewrite app_nth2 by (rewrite pixelrays1_length; nia).
    replace (Z.to_nat (i * res + j) - length (pixelrays1 (mk_view d 180) res))%nat with (Z.to_nat ((i - res) * res + j)) by (rewrite pixelrays1_length; nia).
    rewrite rays1_at by lia. split; [apply vxy2xyz_unit|].
    replace (i mod res)%Z with (i - res)%Z by (apply Z.mod_unique with 1%Z; lia). intros C. apply radius_circle in C; auto. unfold ray2pixel, ray2pixelf, pixel2ray, pixel_centre. cbn [fst snd].
    rewrite view360_roundtrip_back by (auto; try (split; cbn [fst snd]; apply Sq; lia); unfold image_radius in C; lra). cbn [fst snd]. rewrite Fl.
    replace (((IZR (i - res) + 1 / 2) / IZR res + 1) * IZR res) with ((IZR i + 1 / 2) / IZR res * IZR res) by (rewrite minus_IZR; field; lra). now rewrite Fl.
Qed.

(** * the square image *)
Lemma init_vuv c show vm res pt f ix : (0 <= res)%Z ->
  init_img c show vm res pt f (s "vuv") ix =
  Ok (Init (img_shape vm res f) [vm_aspect vm * res; res; 3]%Z (map (fun b => vm_uv2xyz vm (bin2uv b res (1 / 2))) (zrange (res * res * vm_aspect vm))) NoMask NoMask
      (proj_header show vm pt (s "vuv"))).
Proof.
  intros R. unfold init_img. change (view_proj (s "vuv")) with (Ok (s "vuv")). cbn [bind]. change (in_strs (s "vuv") _) with true.
  unfold mixin_init_img. change (mixin_proj (s "vuv")) with (Ok (s "vuv")). cbn [bind]. destruct (Z.ltb_spec res 0); [lia|]. reflexivity.
Qed.
Lemma square_at vm res h i j : (0 <= i < h)%Z -> (0 <= j < res)%Z ->
  nth (Z.to_nat (i * res + j)) (map (fun b => vm_uv2xyz vm (bin2uv b res (1 / 2))) (zrange (h * res))) vzero =
  vm_uv2xyz vm ((IZR i + 1 / 2) / IZR res, (IZR j + 1 / 2) / IZR res).
Proof.
  intros I J. pose proof (grid_at h res i j I J). set (g := fun b => vm_uv2xyz vm (bin2uv b res (1 / 2))).
  rewrite (nth_indep _ vzero (g 0%Z)) by (rewrite map_length, zrange_length; lia). rewrite map_nth, zrange_nth by auto. unfold g. rewrite bin2uv_eq by lia.
  pose proof (unravel_at res i j J) as U. unfold unravel in U. injection U as -> ->. reflexivity.
Qed.
Lemma init_square c d va show res pt f ix a : (hemi_angle va \/ va = 360) -> (0 <= res)%Z -> names a Square ->
  let h := (if Reqb va 360 then 2 * res else res)%Z in
  exists r, init_img c show (mk_view d va) res pt f a ix = Ok r /\ i_shape r = shape_of f h res /\ vecs_fill r h res /\
  (forall i j, (0 <= i < h)%Z -> (0 <= j < res)%Z -> vm_xyz2uv (mk_view d va) (vec_at r res i j) = ((IZR i + 1 / 2) / IZR res, (IZR j + 1 / 2) / IZR res)) /\
  i_mask r = NoMask /\ i_mask2 r = NoMask /\ header_as Square (vm_header show (mk_view d va) pt) (i_header r).
Proof.
  intros Hv R Na h. rewrite (init_names a _ _ _ _ _ _ _ _ Na). cbn [label]. rewrite init_vuv by auto.
  assert (A : (vm_aspect (mk_view d va) * res = h)%Z /\ img_shape (mk_view d va) res f = shape_of f h res).
  { unfold h. destruct Hv as [Hv| ->].
    - rewrite mk_view_hemi_aspect, (shape_1 _ _ _ (mk_view_hemi_aspect d va Hv)) by auto. rewrite (proj2 (Reqb_false _ _)) by (destruct Hv; lra). split; [lia|reflexivity].
    - rewrite (proj2 (mk_view_360 d)), (shape_2 _ _ _ (proj2 (mk_view_360 d))). rewrite (proj2 (Reqb_true _ _)) by reflexivity. split; [lia|reflexivity]. }
  destruct A as [A1 A2]. rewrite A1, A2. replace (res * res * vm_aspect (mk_view d va))%Z with (h * res)%Z by (rewrite <- A1; ring).
  assert (H0 : (0 <= h)%Z) by (unfold h; destruct (Reqb _ _); lia).
  eexists. split; [reflexivity|]. unfold vec_at, vecs_fill. cbn [i_shape i_vecs_shape i_vecs i_mask i_mask2 i_header].
  split; [reflexivity|]. split; [split; [reflexivity|rewrite map_length, zrange_length; nia]|]. split; [|repeat split; apply (header_label _ _ _ Square)].
  intros i j I J. rewrite square_at by auto. assert (0 < res)%Z as N0 by lia. assert (P : 0 < IZR res) by now apply IZR_lt.
  assert (Sq : forall k m, (0 <= k < m * res)%Z -> 0 < (IZR k + 1 / 2) / IZR res < IZR m).
  { intros k m [K1 K2]. apply IZR_le in K1. assert (IZR k <= IZR (m * res - 1)) as K3 by (apply IZR_le; lia). rewrite minus_IZR, mult_IZR in K3.
    split; [apply Rdiv_lt_0_compat; lra|]. apply Rmult_lt_reg_r with (IZR res); auto. unfold Rdiv. rewrite Rmult_assoc, Rinv_l by lra. lra. }
  pose proof (Sq j 1%Z ltac:(lia)) as Sj. unfold h in I. destruct Hv as [Hv| ->].
  - rewrite (proj2 (Reqb_false _ _)) in I by (destruct Hv; lra). pose proof (Sq i 1%Z ltac:(lia)) as Si. apply vm_uv_roundtrip; auto. split; cbn [fst snd]; lra.
  - rewrite (proj2 (Reqb_true _ _)) in I by reflexivity. pose proof (Sq i 2%Z I) as Si. apply vm_uv_roundtrip_360.
    destruct (Z_lt_dec i res) as [Lt|Ge]; [left; pose proof (Sq i 1%Z ltac:(lia)); split; lra|]. right. split; [|lra]. split; [|lra].
    assert (IZR res <= IZR i) by (apply IZR_le; lia). apply Rmult_lt_reg_r with (IZR res); auto. unfold Rdiv. rewrite Rmult_assoc, Rinv_l by lra. lra.
Qed.
