(** Proofs about the base Mapper, drawing, and image reprojection *)
From Coq Require Import Lra Lia Psatz.
From Verif Require Import Base L_Base L_Trig M_Translate S_Translate L_Concentric L_Bins L_Angles M_Mapper S_Mapper L_Mapper.
Local Open Scope R_scope.

(** * base Mapper *)
Lemma mid_v v : mmulv mid v = v.
Proof. destruct v as [a b c]; unfold mmulv, mid, dot; cbn [r0 r1 r2 vx vy vz]. apply vec3_ext; cbn [vx vy vz]; ring. Qed.
Lemma mtrans_mid : mtrans mid = mid. Proof. reflexivity. Qed.
Lemma mk_mapper_v2w d sf bb a j z v : view2world_m (m_rmtx (mk_mapper d sf bb a j z)) v = v.
Proof. unfold view2world_m; cbn [m_rmtx mk_mapper fst snd]. rewrite mtrans_mid, !mid_v. reflexivity. Qed.
Lemma mk_mapper_w2v d sf bb a j z v : world2view_m (m_rmtx (mk_mapper d sf bb a j z)) v = v.
Proof. unfold world2view_m; cbn [m_rmtx mk_mapper fst snd]. rewrite !mid_v. reflexivity. Qed.

Lemma mapper_uv_roundtrip d sf bb a j z uv : fst sf <> 0 -> snd sf <> 0 ->
  m_xyz2uv (mk_mapper d sf bb a j z) (m_uv2xyz (mk_mapper d sf bb a j z) uv) = uv.
Proof.
  intros H1 H2. unfold m_xyz2uv, m_uv2xyz. rewrite mk_mapper_w2v, mk_mapper_v2w. cbn [vx vy m_bbox0 m_sf mk_mapper].
  destruct uv as [u v]; cbn [fst snd]. apply pair_eq; field; auto.
Qed.
Lemma mapper_xyz_roundtrip d sf bb a j z v : fst sf <> 0 -> snd sf <> 0 ->
  m_uv2xyz (mk_mapper d sf bb a j z) (m_xyz2uv (mk_mapper d sf bb a j z) v) = V3 (vx v) (vy v) z.
Proof.
  intros H1 H2. unfold m_xyz2uv, m_uv2xyz. rewrite mk_mapper_w2v, mk_mapper_v2w. cbn [vx vy m_bbox0 m_sf mk_mapper m_uvz fst snd].
  apply vec3_ext; cbn [vx vy vz]; auto; field; auto.
Qed.
Lemma mapper_pixel_mirrored d sf bb a j z fs p : fst sf <> 0 -> snd sf <> 0 -> (0 < fst fs)%Z -> (0 < snd fs)%Z ->
  m_ray2pixelf (mk_mapper d sf bb a j z) fs (m_pixel2ray (mk_mapper d sf bb a j z) fs p) = (IZR (fst fs) - fst p, snd p).
Proof.
  intros H1 H2 F1 F2. unfold m_ray2pixelf, m_pixel2ray, m_xyz2vxy, m_vxy2xyz. rewrite mapper_uv_roundtrip by auto.
  apply IZR_lt in F1, F2. cbn [fst snd]. apply pair_eq; field; lra.
Qed.
Lemma mapper_pixel_mirrored_int d sf bb a j z fs x y : fst sf <> 0 -> snd sf <> 0 -> (0 < fst fs)%Z -> (0 < snd fs)%Z ->
  m_ray2pixel (mk_mapper d sf bb a j z) fs (m_pixel2ray (mk_mapper d sf bb a j z) fs (IZR x + 1 / 2, IZR y + 1 / 2))
  = (fst fs - 1 - x, y)%Z.
Proof.
  intros H1 H2 F1 F2. unfold m_ray2pixel. rewrite mapper_pixel_mirrored by auto. cbn [fst snd].
  apply f_equal2; apply Rfloor_iff; rewrite ?minus_IZR; lra.
Qed.

(** grid indices *)
Lemma Rtrunc_nonneg x : 0 <= x -> Rtrunc x = Rfloor x.
Proof. intros H. unfold Rtrunc. case_Rltb x 0; [lra|reflexivity]. Qed.
Lemma cell_trunc i n off : (0 < n)%Z -> (0 <= i)%Z -> 0 <= off < 1 -> Rtrunc ((IZR i + off) / IZR n * IZR n) = i.
Proof.
  intros N I O. apply IZR_lt in N. apply IZR_le in I. replace ((IZR i + off) / IZR n * IZR n) with (IZR i + off) by (field; lra).
  rewrite Rtrunc_nonneg by lra. apply Rfloor_iff. lra.
Qed.
Lemma offset_range jit rate off : 0 <= rate <= 1 -> offset_ok jit rate off -> 0 <= off < 1.
Proof. intros J. unfold offset_ok, Rgtb. destruct jit; cbn [andb]; [case_Rltb 0 rate|]; lra. Qed.
Lemma idx_bounds nx ny i : (0 < ny)%Z -> (0 <= i < nx * ny)%Z -> (0 <= i / ny < nx)%Z /\ (0 <= i mod ny < ny)%Z.
Proof.
  intros N I. pose proof (Z.mod_pos_bound i ny N). split; [|lia].
  split; [apply Z.div_pos; lia|apply Z.div_lt_upper_bound; lia].
Qed.
Lemma idx_roundtrip nx ny off i : (0 < nx)%Z -> (0 < ny)%Z -> (0 <= i < nx * ny)%Z ->
  0 <= fst off < 1 -> 0 <= snd off < 1 ->
  exists uv, idx2uv (nx, ny) off i = Ok uv /\ uv2idx (nx, ny) uv = i.
Proof.
  intros N1 N2 I O1 O2. unfold idx2uv. cbn [fst snd].
  replace ((0 <=? i)%Z && (i <? nx * ny)%Z) with true by lia. eexists; split; [reflexivity|].
  destruct (idx_bounds nx ny i N2 I) as [B1 B2].
  unfold uv2idx; cbn [fst snd]. rewrite !cell_trunc by lia || lra.
  pose proof (Z.div_mod i ny ltac:(lia)). lia.
Qed.
Lemma idx_out_of_range shape off i : ~ (0 <= i < fst shape * snd shape)%Z -> idx2uv shape off i = Raise ValueError.
Proof. intros H. unfold idx2uv. replace ((0 <=? i)%Z && (i <? fst shape * snd shape)%Z) with false by lia. reflexivity. Qed.
Lemma vm_idx_square n off i : vm_idx2uv (n, n) off i = idx2uv (n, n) off i.
Proof. reflexivity. Qed.
(** a view grid of twice the height: the doubled u coordinate *)
Lemma vm_idx_fails : exists off i, 0 <= fst off < 1 /\ 0 <= snd off < 1 /\ (0 <= i < 4 * 2)%Z /\
  exists uv, vm_idx2uv (4, 2)%Z off i = Ok uv /\ uv2idx (4, 2)%Z uv <> i.
Proof.
  exists (1 / 2, 1 / 2), 2%Z. cbn [fst snd]. do 3 (split; [lra||lia|]).
  unfold vm_idx2uv; cbn [fst snd]. change ((0 <=? 2)%Z && (2 <? 4 * 2)%Z) with true. cbv iota.
  change (2 / 2)%Z with 1%Z. change (2 mod 2)%Z with 0%Z.
  eexists; split; [reflexivity|]. unfold uv2idx; cbn [fst snd].
  replace ((1 + 1 / 2) / 2 * 4) with 3 by field. replace ((0 + 1 / 2) / 2 * 2) with (1 / 2) by field.
  rewrite !Rtrunc_nonneg by lra. rewrite (proj2 (Rfloor_iff 3 3)) by (simpl; lra).
  rewrite (proj2 (Rfloor_iff (1 / 2) 0)) by (simpl; lra). lia.
Qed.
(** ... it stays the right cell when the index is taken with the view's own
    (2n, n) layout: u in [0,2), v in [0,1) *)
Lemma vm_idx_uv2bin n off i : (0 < n)%Z -> (0 <= i < 2 * n * n)%Z -> 0 <= fst off < 1 -> 0 <= snd off < 1 ->
  exists uv, vm_idx2uv (2 * n, n)%Z off i = Ok uv /\ uv2bin uv n = i.
Proof.
  intros N I O1 O2. unfold vm_idx2uv; cbn [fst snd]. replace ((0 <=? i)%Z && (i <? 2 * n * n)%Z) with true by lia.
  eexists; split; [reflexivity|]. destruct (idx_bounds (2 * n) n i N ltac:(lia)) as [B1 B2].
  assert (HN : 0 < IZR n) by (apply IZR_lt in N; lra).
  unfold uv2bin. destruct (uv2ij _ n 2) as [a b] eqn:E.
  assert (X1 : (IZR (i / n) + fst off) / IZR n * IZR n = IZR (i / n) + fst off) by (field; lra).
  assert (X2 : (IZR (i mod n) + snd off) / IZR n * IZR n = IZR (i mod n) + snd off) by (field; lra).
  destruct B1 as [B1 B1']. destruct B2 as [B2 B2']. apply IZR_le in B1, B2. apply Z.le_succ_l in B1', B2'. apply IZR_le in B1', B2'.
  rewrite succ_IZR in B1', B2'. rewrite mult_IZR in B1'.
  apply uv2ij_cell in E; auto.
  - destruct E as [E1 E2]. rewrite (Rmult_comm (IZR n)), X1 in E1. rewrite (Rmult_comm (IZR n)), X2 in E2.
    assert (a = (i / n)%Z). { assert (a - 1 < i / n < a + 1)%Z; [|lia]. split; apply lt_IZR; rewrite ?minus_IZR, ?plus_IZR; lra. }
    assert (b = (i mod n)%Z). { assert (b - 1 < i mod n < b + 1)%Z; [|lia]. split; apply lt_IZR; rewrite ?minus_IZR, ?plus_IZR; lra. }
    subst. pose proof (Z.div_mod i n ltac:(lia)). lia.
  - split; [apply Rmult_le_reg_r with (IZR n)|apply Rmult_lt_reg_r with (IZR n)]; rewrite ?X1; lra.
  - split; [apply Rmult_le_reg_r with (IZR n)|apply Rmult_lt_reg_r with (IZR n)]; rewrite ?X2; lra.
Qed.

(** pixel jitter *)
Lemma pixels_nojitter xres yres draw : exists f, m_pixels xres yres 0 draw = Ok f /\ forall x y, f x y = (IZR x + 1 / 2, IZR y + 1 / 2).
Proof. unfold m_pixels, Rgtb. case_Rltb 0 0; [lra|]. eexists; split; reflexivity. Qed.
Lemma pixels_inside xres yres jit draw f : 0 <= jit <= 1 -> draw_ok jit draw -> m_pixels xres yres jit draw = Ok f ->
  forall x y, IZR x <= fst (f x y) < IZR x + 1 /\ IZR y <= snd (f x y) < IZR y + 1.
Proof.
  intros J D. unfold m_pixels, Rgtb. case_Rltb 0 jit.
  - destruct (xres =? 2)%Z; [|destruct (xres =? 1)%Z; [|discriminate]]; intros E'; inversion E'; intros x y; cbn [fst snd];
      pose proof (D 0%Z y); pose proof (D 1%Z y); lra.
  - intros E'; inversion E'; intros; cbn [fst snd]; lra.
Qed.
Lemma pixels_jitter_fails xres yres jit draw : 0 < jit -> xres <> 1%Z -> xres <> 2%Z -> m_pixels xres yres jit draw = Raise ValueError.
Proof.
  intros J X1 X2. unfold m_pixels, Rgtb. case_Rltb 0 jit; [|lra].
  destruct (Z.eqb_spec xres 2); [lia|]. destruct (Z.eqb_spec xres 1); [lia|reflexivity].
Qed.
Lemma pixel_area m res : let '(xr, yr) := m_framesize m res in (0 < xr)%Z -> (0 < yr)%Z ->
  m_pixel2omega m res * (IZR xr * IZR yr) = m_area m.
Proof.
  unfold m_pixel2omega. destruct (m_framesize m res) as [xr yr]. intros X Y. apply IZR_lt in X, Y. field. lra.
Qed.

(** * painting *)
Lemma np_index_in n i : (0 <= i < n)%Z -> np_index n i = Some i.
Proof. intros H. unfold np_index. replace ((0 <=? i)%Z && (i <? n)%Z) with true by lia. reflexivity. Qed.
Lemma np_index_some n i k : np_index n i = Some k -> (0 <= k < n)%Z.
Proof.
  unfold np_index. destruct ((0 <=? i)%Z && (i <? n)%Z) eqn:E; [intros X; inversion X; lia|].
  destruct ((- n <=? i)%Z && (i <? 0)%Z) eqn:F; [intros X; inversion X; lia|discriminate].
Qed.
Lemma all_some_map {A} (l : list A) : all_some (map Some l) = Some l.
Proof. induction l; simpl; auto. rewrite IHl; auto. Qed.
Lemma map_np_index2 {A} (im : image A) pts : (forall p, In p pts -> in_image im p) -> map (np_index2 im) pts = map Some pts.
Proof.
  intros H. apply map_ext_in. intros p Hp. destruct (H p Hp) as [H1 H2]. unfold np_index2.
  rewrite !np_index_in by auto. rewrite <- surjective_pairing. reflexivity.
Qed.
Lemma pair_eqb_eq p q : pair_eqb p q = true <-> p = q.
Proof.
  destruct p, q. unfold pair_eqb; cbn [fst snd]. rewrite andb_true_iff, !Z.eqb_eq. split; [intros [-> ->]; auto|intros E; inversion E; auto].
Qed.
Lemma existsb_pair p l : existsb (pair_eqb p) l = true <-> In p l.
Proof.
  rewrite existsb_exists. split; [intros (q & Hq & E); apply pair_eqb_eq in E; subst; auto|].
  intros H; exists p; split; auto. apply pair_eqb_eq; auto.
Qed.
Lemma np_write_paints {A} (im : image A) pts c : (forall p, In p pts -> in_image im p) ->
  exists im', np_write im pts c = Ok im' /\ paints im im' c (fun p => In p pts).
Proof.
  intros H. unfold np_write. rewrite map_np_index2, all_some_map by auto. eexists; split; [reflexivity|].
  split; [reflexivity|]. split; [reflexivity|]. intros [x y]; cbn [im_px fst snd].
  destruct (existsb (pair_eqb (x, y)) pts) eqn:E.
  - apply existsb_pair in E. tauto.
  - assert (~ In (x, y) pts) by (rewrite <- existsb_pair, E; discriminate). tauto.
Qed.
Lemma paints_ext {A} (im im' : image A) c P Q : (forall p, P p <-> Q p) -> paints im im' c P -> paints im im' c Q.
Proof. intros E [H1 [H2 H3]]. split; [auto|]. split; [auto|]. intros p. specialize (H3 p). rewrite <- E. exact H3. Qed.

Definition okb {A} (im : image A) (p : Z * Z) : bool :=
  ((0 <=? fst p) && (fst p <? im_nx im) && ((0 <=? snd p) && (snd p <? im_ny im)))%Z.
Lemma okb_in {A} (im : image A) p : okb im p = true <-> in_image im p.
Proof. unfold okb, in_image. lia. Qed.
Lemma filter_ok_paints {A} (im : image A) pb c :
  exists im', np_write im (filter (okb im) pb) c = Ok im' /\ paints im im' c (fun p => in_image im p /\ In p pb).
Proof.
  destruct (np_write_paints im (filter (okb im) pb) c) as [im' [W P]].
  - intros p Hp. apply filter_In in Hp. apply okb_in, Hp.
  - exists im'; split; auto. eapply paints_ext; [|exact P]. intros p. rewrite filter_In, okb_in. tauto.
Qed.

Lemma drawn_iff {A B} (im : image A) (f : B -> Z * Z) vs p :
  (in_image im p /\ In p (map f vs)) <-> (in_image im p /\ exists v, In v vs /\ f v = p).
Proof. rewrite in_map_iff. split; intros [I (v & H1 & H2)]; split; auto; exists v; split; auto. Qed.

Lemma base_draw {A} m (im : image A) vs c :
  exists im', m_add_vecs m im vs c = Ok im' /\
  paints im im' c (fun p => in_image im p /\ exists v, In v vs /\ m_ray2pixel m (im_nx im, im_ny im) v = p).
Proof.
  unfold m_add_vecs. fold (okb im). set (pxy := map (m_ray2pixel m (im_nx im, im_ny im)) vs).
  change (fun p => okb im p) with (okb im).
  assert (W : exists im', np_write im (filter (okb im) pxy) c = Ok im' /\
     paints im im' c (fun p => in_image im p /\ exists v, In v vs /\ m_ray2pixel m (im_nx im, im_ny im) v = p)).
  { destruct (filter_ok_paints im pxy c) as [im' [W P]]. exists im'; split; [exact W|]. apply (paints_ext _ _ _ _ _ (drawn_iff im _ vs) P). }
  change (fun p : Z * Z => ((0 <=? fst p)%Z && (fst p <? im_nx im)%Z && ((0 <=? snd p)%Z && (snd p <? im_ny im)%Z))) with (okb im).
  destruct (Nat.eqb_spec (length (filter (okb im) pxy)) 0) as [E|E]; [|exact W].
  exists im; split; auto. apply length_zero_iff_nil in E. split; [auto|]. split; [auto|]. intros p; split; auto.
  intros [I (v & Hv & Hp)]. exfalso. assert (X : In p (filter (okb im) pxy)).
  { apply filter_In. split; [unfold pxy; apply in_map_iff; eauto|apply okb_in; auto]. }
  rewrite E in X. exact X.
Qed.

Lemma view_draw {A} d va (im : image A) vs c : hemi_angle va ->
  exists im', add_vecs (mk_view d va) im true None vs c = Ok im' /\
  paints im im' c (fun p => in_image im p /\ exists v, In v vs /\ ray2pixel (mk_view d va) (im_ny im) v = p).
Proof.
  intros H. unfold add_vecs, drawn_pixels, vecs_pixels. rewrite mk_view_hemi_aspect by auto. change (1 =? 2)%Z with false. cbv iota.
  destruct (filter_ok_paints im (map (ray2pixel (mk_view d va) (im_ny im)) vs) c) as [im' [W P]].
  exists im'; split; [exact W|]. apply (paints_ext _ _ _ _ _ (drawn_iff im (ray2pixel (mk_view d va) (im_ny im)) vs) P).
Qed.
Lemma degrees_back d v : d <> vzero -> dot v v = 1 -> Rgtb (vm_degrees (mk_view d 360) v) 90 = true <-> dot (norm d) v < 0.
Proof.
  intros N V. unfold Rgtb. rewrite Rltb_true. unfold vm_degrees. rewrite vm_radians_eq, mk_view_dxyz by auto. unfold angle.
  pose proof PI_pos. pose proof (dot_unit_bound (norm d) v (norm_dot d N) V) as B. set (x := dot (norm d) v) in *.
  assert (Q : 90 < acos x * 180 / PI <-> PI / 2 < acos x).
  { split; intros L.
    - apply Rmult_lt_compat_r with (r := PI) in L; [|lra]. replace (acos x * 180 / PI * PI) with (acos x * 180) in L by (field; lra). lra.
    - apply Rmult_lt_reg_r with PI; [lra|]. replace (acos x * 180 / PI * PI) with (acos x * 180) by (field; lra). lra. }
  rewrite Q. pose proof (acos_half_pi x B) as A. split; intros L.
  - destruct (Rlt_dec x 0); auto. exfalso. destruct (Req_EM_T x 0) as [Z|Z].
    + rewrite Z, acos_0 in L. lra.
    + assert (0 < x) by lra. apply A in H0. lra.
  - destruct (Rlt_dec (PI / 2) (acos x)); auto. exfalso. destruct (Req_EM_T (acos x) (PI / 2)) as [Z|Z].
    + assert (cos (acos x) = 0) by (rewrite Z; apply cos_PI2). rewrite cos_acos in H0 by lra. lra.
    + assert (acos x < PI / 2) by lra. apply A in H0. lra.
Qed.

Lemma Rfloor_plus_Z x n : Rfloor (x + IZR n) = (Rfloor x + n)%Z.
Proof. apply Rfloor_iff. rewrite plus_IZR. pose proof (proj1 (Rfloor_iff x (Rfloor x)) eq_refl). lra. Qed.
Lemma xyz2vxy_180 d v : xyz2vxy (mk_view d 180) v = xyz2vxy1 (mk_view d 180) v.
Proof. unfold xyz2vxy. rewrite mk_view_hemi_aspect by apply hemi_180. reflexivity. Qed.
(** vectors behind the view plane go to the second square *)
Lemma ray2pixel_360_back d n v : d <> vzero -> dot v v = 1 -> dot (norm d) v < 0 ->
  ray2pixel (mk_view d 360) n v =
  (fst (ray2pixel (mk_view (vopp d) 180) n v) + n, snd (ray2pixel (mk_view (vopp d) 180) n v))%Z.
Proof.
  intros N V B. unfold ray2pixel, ray2pixelf. rewrite xyz2vxy_360, xyz2vxy_180 by auto.
  case_Rltb 0 (dot (norm d) v); [lra|]. cbn [fst snd]. f_equal. rewrite <- Rfloor_plus_Z. f_equal. ring.
Qed.

Lemma view_draw_360 {A} d (im : image A) vs c : d <> vzero ->
  (forall v, In v vs -> dot v v = 1) ->
  exists im', add_vecs (mk_view d 360) im true None vs c = Ok im' /\
  paints im im' c (fun p => in_image im p /\ exists v, In v vs /\ ray2pixel (mk_view d 360) (im_ny im) v = p).
Proof.
  intros N U. unfold add_vecs, drawn_pixels.
  destruct (filter_ok_paints im (vecs_pixels (mk_view d 360) (im_ny im) vs) c) as [im' [W P]].
  exists im'; split; [exact W|]. refine (paints_ext _ _ _ _ _ _ P). intros p.
  assert (Q : In p (vecs_pixels (mk_view d 360) (im_ny im) vs) <-> exists v, In v vs /\ ray2pixel (mk_view d 360) (im_ny im) v = p); [|cbv beta; rewrite Q; reflexivity].
  unfold vecs_pixels. rewrite (proj2 (mk_view_360 d)). change (2 =? 2)%Z with true. cbv iota zeta.
  rewrite ivm_eq by auto. rewrite in_app_iff, !in_map_iff. split.
  - intros [(v & E & Hv)|(v & E & Hv)]; apply filter_In in Hv; destruct Hv as [Hv B]; pose proof (U v Hv) as Uv; exists v; split; auto.
    apply degrees_back in B; auto. rewrite ray2pixel_360_back; auto.
  - intros (v & Hv & E). pose proof (U v Hv) as Uv. destruct (Rgtb (vm_degrees (mk_view d 360) v) 90) eqn:B.
    + left. exists v. split; [|apply filter_In; auto]. apply degrees_back in B; auto. rewrite <- E, ray2pixel_360_back; auto.
    + right. exists v. split; [exact E|]. apply filter_In. rewrite B. auto.
Qed.

(** a mask of image pixels restricts drawing to the mask *)
Lemma view_draw_mask {A} d va (im : image A) m vs c : hemi_angle va ->
  (forall p, In p m -> in_image im p) ->
  exists im', add_vecs (mk_view d va) im true (Some m) vs c = Ok im' /\
  paints im im' c (fun p => In p m /\ exists v, In v vs /\ ray2pixel (mk_view d va) (im_ny im) v = p).
Proof.
  intros H M. unfold add_vecs, drawn_pixels, vecs_pixels. rewrite mk_view_hemi_aspect by auto. change (1 =? 2)%Z with false. cbv iota.
  set (pb := map (ray2pixel (mk_view d va) (im_ny im)) vs).
  destruct (np_write_paints im (filter (fun p => existsb (pair_eqb p) m) pb) c) as [im' [W P]].
  - intros p Hp. apply filter_In in Hp. apply M, existsb_pair, Hp.
  - exists im'; split; [exact W|]. refine (paints_ext _ _ _ _ _ _ P). intros p. rewrite filter_In, existsb_pair. unfold pb. rewrite in_map_iff.
    split; [intros [(v & E & Hv) I]; split; auto; exists v; auto|intros [I (v & Hv & E)]; split; auto; exists v; auto].
Qed.

(** several channels: each plane is painted with its own value, None skips it *)
Lemma view_draw_channels {A} vm (Q : image A -> Z * Z -> Prop) vs :
  (forall im c, exists im', add_vecs vm im true None vs c = Ok im' /\ paints im im' c (Q im)) ->
  forall ims cs, (length ims <= length cs)%nat ->
  exists ims', add_vecs_channels vm ims true None vs cs = Ok ims' /\ length ims' = length ims /\
  forall k im c, nth_error ims k = Some im -> nth_error cs k = Some c ->
    exists im', nth_error ims' k = Some im' /\ match c with None => im' = im | Some c => paints im im' c (Q im) end.
Proof.
  intros H. induction ims as [|im ims IH]; intros cs L.
  - exists []. split; [reflexivity|]. split; auto. intros [|k]; discriminate.
  - destruct cs as [|c cs]; [simpl in L; lia|]. destruct (IH cs ltac:(simpl in L; lia)) as (ims' & E & Ln & S).
    cbn [add_vecs_channels]. assert (X : exists im', (match c with None => Ok im | Some c => add_vecs vm im true None vs c end) = Ok im' /\
      match c with None => im' = im | Some c => paints im im' c (Q im) end).
    { destruct c as [c|]; [apply H|eauto]. }
    destruct X as (im' & -> & P). cbn [bind]. rewrite E. cbn [bind]. exists (im' :: ims'). split; [reflexivity|]. split; [simpl; lia|].
    intros [|k] i c' Hi Hc; cbn [nth_error] in *.
    + inversion Hi; inversion Hc; subst. exists im'; auto.
    + eapply S; eauto.
Qed.
Lemma view_draw_too_few_channels {A} vm (im : image A) ims vs : add_vecs_channels vm (im :: ims) true None vs [] = Raise IndexError.
Proof. reflexivity. Qed.

(** * the uv square lies inside the view cone *)
Lemma cone_core y : 0 < y <= PI / 4 ->
  let s := 2 * sqrt 2 / PI * y in
  0 < s /\ s <= sin y /\ cos (2 * (s * y / sin y)) <= 1 - 2 * (s * s) /\
  (y < PI / 4 -> cos (2 * (s * y / sin y)) < 1 - 2 * (s * s)).
Proof.
  intros Y s. pose proof PI_pos as PP. pose proof sqrt2_bound as S2. pose proof sqrt2_sqr as S22.
  assert (K : 0 < 2 * sqrt 2 / PI) by (apply Rdiv_lt_0_compat; lra).
  assert (S0 : 0 < s) by (unfold s; nra).
  assert (Sy : 0 < sin y) by (apply sin_gt_0; lra).
  assert (Sy1 : sin y <= sqrt 2 / 2). { rewrite <- sin_PI4'. destruct (Req_EM_T y (PI / 4)) as [-> |]; [lra|]. left; apply sin_increasing_1; lra. }
  assert (B : y < PI / 4 -> s < sin y).
  { intros L. pose proof (sin_chord y (PI / 4) ltac:(lra) ltac:(lra) ltac:(lra)) as C. rewrite sin_PI4' in C.
    unfold s. apply Rmult_lt_reg_r with (PI / 4); [lra|]. replace (2 * sqrt 2 / PI * y * (PI / 4)) with (y * (sqrt 2 / 2)) by (field; lra). lra. }
  assert (B' : s <= sin y).
  { destruct (Rlt_dec y (PI / 4)) as [L|L]; [left; auto|]. assert (y = PI / 4) by lra. unfold s. rewrite H, sin_PI4'.
    right. field. lra. }
  split; [auto|]. split; [auto|].
  set (b := asin s). assert (Bb : sin b = s) by (apply sin_asin; lra).
  assert (B0 : 0 < b). { pose proof (asin_ge s ltac:(lra)). unfold b; lra. }
  assert (By : b <= y). { unfold b. rewrite <- (asin_sin' y) by lra. apply asin_mono; lra. }
  assert (Cb : cos (2 * b) = 1 - 2 * (s * s)) by (rewrite cos_2a_sin, Bb; ring).
  assert (Yq : y <= s * y / sin y * (sqrt 2 / 2) * (PI / (2 * sqrt 2)) / y * 2 \/ True) by auto. clear Yq.
  assert (Up : s * y / sin y <= y).
  { apply Rmult_le_reg_r with (sin y); [lra|]. replace (s * y / sin y * sin y) with (s * y) by (field; lra). nra. }
  assert (Lo : b <= s * y / sin y).
  { apply Rmult_le_reg_r with (sin y); [lra|]. replace (s * y / sin y * sin y) with (s * y) by (field; lra).
    pose proof (sin_chord_le b y ltac:(lra) ltac:(lra) ltac:(lra)) as C. rewrite Bb in C. lra. }
  rewrite <- Cb. split.
  - destruct (Req_EM_T b (s * y / sin y)) as [<-|]; [lra|]. left. apply cos_decreasing_1; lra.
  - intros L. assert (Ls : s < sin y) by auto. assert (b < y). { destruct (Req_EM_T b y) as [Z|]; [rewrite <- Bb, Z in Ls; lra|lra]. }
    assert (b < s * y / sin y).
    { apply Rmult_lt_reg_r with (sin y); [lra|]. replace (s * y / sin y * sin y) with (s * y) by (field; lra).
      pose proof (sin_chord b y ltac:(lra) ltac:(lra) ltac:(lra)) as C. rewrite Bb in C. lra. }
    apply cos_decreasing_1; lra.
Qed.
Lemma cone_square d va : hemi_angle va ->
  cos (vm_chordfactor (mk_view d va) * half va) <= 1 - va / 180 * (va / 180) /\
  (va < 180 -> cos (vm_chordfactor (mk_view d va) * half va) < 1 - va / 180 * (va / 180)).
Proof.
  intros H. pose proof PI_pos as PP. pose proof (half_range va H) as B. rewrite chordfactor_hemi by auto.
  pose proof sqrt2_pos as S2. pose proof sqrt2_sqr as S22.
  set (y := half va / 2). assert (Y : 0 < y <= PI / 4) by (unfold y; lra).
  pose proof (cone_core y Y) as C. cbv zeta in C. destruct C as (S0 & S1 & C1 & C2).
  assert (Sy : 0 < sin y) by (apply sin_gt_0; lra).
  assert (E : sqrt 2 * half va / (PI * sin y) * half va = 2 * (2 * sqrt 2 / PI * y * y / sin y)).
  { unfold y. fold y. replace (half va) with (2 * y) by (unfold y; field). field. lra. }
  rewrite E. assert (V : va / 180 = 4 * y / PI) by (unfold y, half; field; lra).
  assert (F : 1 - va / 180 * (va / 180) = 1 - 2 * (2 * sqrt 2 / PI * y * (2 * sqrt 2 / PI * y))).
  { rewrite V. replace (2 * (2 * sqrt 2 / PI * y * (2 * sqrt 2 / PI * y))) with (8 * (sqrt 2 * sqrt 2) * (y * y) / (PI * PI)) by (field; lra).
    rewrite S22. field. lra. }
  rewrite F. split; [exact C1|]. intros L. apply C2. unfold y, half. nra.
Qed.

Lemma acos_lt_iff x t : -1 <= x <= 1 -> 0 <= t <= PI -> acos x < t <-> cos t < x.
Proof.
  intros X T. pose proof (acos_bound x). split; intros L.
  - rewrite <- (cos_acos x) by lra. apply cos_decreasing_1; lra.
  - destruct (Rlt_dec (acos x) t); auto. exfalso.
    assert (cos (acos x) <= cos t). { destruct (Req_EM_T (acos x) t) as [-> |]; [lra|]. left; apply cos_decreasing_1; lra. }
    rewrite cos_acos in H0 by lra. lra.
Qed.

Lemma uv_in_view d va uv : regular_dir d -> hemi_angle va ->
  (0 < fst uv < 1 /\ 0 < snd uv < 1) \/ (va < 180 /\ in_unit_square uv) ->
  in_view (mk_view d va) 0 (vm_uv2xyz (mk_view d va) uv) = true.
Proof.
  intros G H U. pose proof (regular_nonzero d G) as N.
  assert (US : in_unit_square uv) by (destruct U as [U|[_ U]]; [unfold in_unit_square; lra|exact U]).
  assert (V : dot (vm_uv2xyz (mk_view d va) uv) (vm_uv2xyz (mk_view d va) uv) = 1) by (apply vnorm_1, vm_uv2xyz_unit; auto).
  rewrite in_view_angle, mk_view_hemi_va by auto. unfold angle.
  replace (vm_chordfactor (mk_view d va) * va * PI / 360) with (vm_chordfactor (mk_view d va) * half va) by (unfold half; field).
  pose proof (half_range va H) as HR. pose proof (chordfactor_bounds d va H) as [CB0 CB]. pose proof PI_pos.
  rewrite Rminus_0_r.
  apply acos_lt_iff; [apply dot_unit_bound; auto; apply norm_dot; auto|nra|].
  rewrite <- (mk_view_dxyz d va) by auto. rewrite <- w2v_z by auto.
  rewrite vm_uv_hemi, w2v_v2w by auto. rewrite uv2xyz_eq. cbv zeta. cbn [vz].
  set (s := va / 180). assert (Sr : 0 < s <= 1) by (unfold s, hemi_angle in *; lra).
  set (u := 1 / 2 + (fst uv - 1 / 2) * s). set (v := 1 / 2 + (snd uv - 1 / 2) * s).
  unfold in_unit_square in US.
  assert (Ru : red_u u = u /\ sgn_u u = 1).
  { unfold red_u, sgn_u, Rgtb. case_Rltb 1 u; [unfold u in *; nra|auto]. }
  destruct Ru as [-> ->]. rewrite Rmult_1_l.
  assert (A : 2 * u - 1 = s * (2 * fst uv - 1)) by (unfold u; field). assert (B : 2 * v - 1 = s * (2 * snd uv - 1)) by (unfold v; field).
  rewrite A, B. set (a := s * (2 * fst uv - 1)). set (b := s * (2 * snd uv - 1)).
  destruct (cone_square d va H) as [C1 C2]. fold s in C1, C2.
  pose proof (rr_abs a b) as RA.
  assert (Rsq : rr a b * rr a b = Rabs (rr a b) * Rabs (rr a b)).
  { rewrite <- Rabs_mult. rewrite Rabs_right; auto. pose proof (Rle_0_sqr (rr a b)) as Q; unfold Rsqr in Q; lra. }
  rewrite Rsq, RA. pose proof (Rabs_pos a). pose proof (Rabs_pos b). pose proof (Rmax_l (Rabs a) (Rabs b)).
  destruct U as [U|[L U]].
  - assert (Rmax (Rabs a) (Rabs b) < s). { apply Rmax_lub_lt; apply Rabs_def1; unfold a, b; nra. } nra.
  - assert (Rmax (Rabs a) (Rabs b) <= s). { apply Rmax_lub; apply Rabs_le; unfold a, b; nra. } specialize (C2 L). nra.
Qed.

(** square drawing of a view below 180 degrees can leave the image *)
Lemma square_draw_fails {A} d va (im : image A) c : regular_dir d -> hemi_angle va -> va < 180 ->
  (0 < im_nx im)%Z -> im_nx im = im_ny im ->
  exists v, dot v v = 1 /\ in_view (mk_view d va) 0 v = true /\
  add_vecs (mk_view d va) im false None [v] c = Raise IndexError.
Proof.
  intros G H L P S. assert (U : in_unit_square (1, 1 / 2)) by (unfold in_unit_square; cbn [fst snd]; lra).
  exists (vm_uv2xyz (mk_view d va) (1, 1 / 2)). split; [apply vnorm_1, vm_uv2xyz_unit; auto|].
  assert (I : in_view (mk_view d va) 0 (vm_uv2xyz (mk_view d va) (1, 1 / 2)) = true) by (apply uv_in_view; auto).
  split; [exact I|]. unfold add_vecs, drawn_pixels. rewrite mk_view_hemi_aspect by auto. change (1 =? 2)%Z with false. cbv iota.
  cbn [filter]. rewrite I. cbn [map]. rewrite vm_uv_roundtrip by auto.
  unfold uv2ij. cbn [fst snd]. change (2 =? 2)%Z with true. cbv iota. unfold Rgeb. case_Rleb 1 1; [|lra].
  unfold np_write. cbn [map]. unfold np_index2, np_index. cbn [fst snd].
  replace (Rfloor (IZR (im_ny im) * 1)) with (im_ny im) by (symmetry; apply Rfloor_iff; lra).
  rewrite Z_mod_same_full. rewrite S. replace ((0 <=? 0 + im_ny im)%Z && (0 + im_ny im <? im_ny im)%Z) with false by lia.
  replace ((- im_ny im <=? 0 + im_ny im)%Z && (0 + im_ny im <? 0)%Z) with false by lia. reflexivity.
Qed.

Lemma sph_lt1 w : dot w w = 1 -> 0 < vz w -> fst (xyz2uv false xyz_axes true w) < 1.
Proof.
  intros W Z. pose proof (vnorm_1 w) as V. destruct (xyz2uv_range0 true w (proj2 V W)) as [R1 [_ R2]].
  destruct (Rlt_dec (fst (xyz2uv false xyz_axes true w)) 1) as [L|L]; auto. exfalso.
  pose proof (xyz_roundtrip_flip w (proj2 V W)) as E. destruct (xyz2uv false xyz_axes true w) as [u v]. cbn [fst snd] in *.
  assert (u = 1) by lra. subst u. rewrite uv2xyz_eq in E. cbv zeta in E. apply (f_equal vz) in E. cbn [vz] in E.
  assert (Rd : red_u 1 = 1 /\ sgn_u 1 = 1) by (unfold red_u, sgn_u, Rgtb; case_Rltb 1 1; [lra|auto]). destruct Rd as [Rd Sg].
  rewrite Rd, Sg in E. set (b := 2 * v - 1) in E. replace (2 * 1 - 1) with 1 in E by ring.
  pose proof (rr_abs 1 b) as A. rewrite Rabs_R1 in A. assert (Rabs b <= 1) by (apply Rabs_le; unfold b; lra).
  rewrite Rmax_left in A by auto. assert (rr 1 b * rr 1 b = 1).
  { assert (X : Rabs (rr 1 b) * Rabs (rr 1 b) = 1) by (rewrite A; ring). rewrite <- Rabs_mult in X. rewrite Rabs_right in X; auto.
    pose proof (Rle_0_sqr (rr 1 b)) as Q; unfold Rsqr in Q; lra. }
  lra.
Qed.

Lemma vm_uv_180 d v : vm_xyz2uv (mk_view d 180) v = xyz2uv false xyz_axes true (world2view (mk_view d 180) v).
Proof.
  unfold vm_xyz2uv. set (uv := xyz2uv _ _ _ _). unfold mk_view; cbn [vm_bbox0 vm_sf]. rewrite va_not_360 by apply hemi_180.
  cbn [fst snd]. rewrite (surjective_pairing uv). apply pair_eq; cbn [fst snd]; field.
Qed.
Lemma vm_uv_360 d v : vm_xyz2uv (mk_view d 360) v = xyz2uv false xyz_axes true (world2view (mk_view d 180) v).
Proof.
  unfold vm_xyz2uv. rewrite w2v_360. set (uv := xyz2uv _ _ _ _). unfold mk_view; cbn [vm_bbox0 vm_sf]. rewrite eqb_360.
  cbn [fst snd]. rewrite (surjective_pairing uv). apply pair_eq; cbn [fst snd]; field.
Qed.
Lemma uv2ij_front uv n : (0 < n)%Z -> fst uv < 1 -> (0 <= fst (uv2ij uv n 2) < n)%Z /\ (0 <= snd (uv2ij uv n 2) < n)%Z.
Proof.
  intros N U. unfold uv2ij. change (2 =? 2)%Z with true. cbv iota. cbn [fst snd]. unfold Rgeb. case_Rleb 1 (fst uv); [lra|].
  pose proof (Z.mod_pos_bound (Rfloor (IZR n * fst uv)) n N). pose proof (Z.mod_pos_bound (Rfloor (IZR n * snd uv)) n N). lia.
Qed.
Lemma front_uv_lt1 d v : regular_dir d -> dot v v = 1 -> in_view (mk_view d 180) 0 v = true -> fst (vm_xyz2uv (mk_view d 180) v) < 1.
Proof.
  intros G V I. pose proof (regular_nonzero d G) as N. apply in_view_180 in I; auto. rewrite vm_uv_180. apply sph_lt1; [rewrite w2v_dot; auto|].
  rewrite w2v_z, mk_view_dxyz by auto. exact I.
Qed.
(** square drawing is safe for 180 and 360 degree views *)
Lemma square_draw_180 {A} d (im : image A) vs c : regular_dir d -> (forall v, In v vs -> dot v v = 1) ->
  (0 < im_ny im)%Z -> im_nx im = im_ny im ->
  exists im', add_vecs (mk_view d 180) im false None vs c = Ok im' /\
  paints im im' c (fun p => exists v, In v vs /\ in_view (mk_view d 180) 0 v = true /\ uv2ij (vm_xyz2uv (mk_view d 180) v) (im_ny im) 2 = p).
Proof.
  intros G U N S. unfold add_vecs, drawn_pixels. rewrite mk_view_hemi_aspect by apply hemi_180. change (1 =? 2)%Z with false. cbv iota.
  edestruct (np_write_paints im) as [im' [W P]]; [|exists im'; split; [exact W|refine (paints_ext _ _ _ _ _ _ P)]].
  - intros p Hp. apply in_map_iff in Hp. destruct Hp as (v & <- & Hv). apply filter_In in Hv. destruct Hv as [Hv I].
    pose proof (uv2ij_front (vm_xyz2uv (mk_view d 180) v) (im_ny im) N (front_uv_lt1 d v G (U v Hv) I)). unfold in_image. rewrite S. auto.
  - intros p. rewrite in_map_iff. split.
    + intros (v & E & Hv). apply filter_In in Hv. exists v. tauto.
    + intros (v & Hv & I & E). exists v. rewrite filter_In. tauto.
Qed.
Lemma square_draw_360 {A} d (im : image A) vs c : (0 < im_ny im)%Z -> im_nx im = (2 * im_ny im)%Z ->
  exists im', add_vecs (mk_view d 360) im false None vs c = Ok im' /\
  paints im im' c (fun p => exists v, In v vs /\ uv2ij (vm_xyz2uv (mk_view d 360) v) (im_ny im) 2 = p).
Proof.
  intros N S. unfold add_vecs, drawn_pixels. rewrite (proj2 (mk_view_360 d)). change (2 =? 2)%Z with true. cbv iota.
  edestruct (np_write_paints im) as [im' [W P]]; [|exists im'; split; [exact W|refine (paints_ext _ _ _ _ _ _ P)]].
  - intros p Hp. apply in_map_iff in Hp. destruct Hp as (v & <- & Hv).
    pose proof (uv2ij_range (vm_xyz2uv (mk_view d 360) v) (im_ny im) 2 N) as R. destruct (uv2ij _ _ 2) as [i j].
    change (2 =? 2)%Z with true in R. cbv iota in R. unfold in_image. rewrite S. exact R.
  - intros p. rewrite in_map_iff. split; intros (v & H1 & H2); exists v; tauto.
Qed.

(** * array_ang2uv *)
Lemma np_read_in {A} (im : image A) pts : (forall p, In p pts -> in_image im p) -> np_read im pts = Ok (map (fun p => im_px im (fst p) (snd p)) pts).
Proof. intros H. unfold np_read. rewrite map_np_index2, all_some_map by auto. reflexivity. Qed.
Lemma view_pixel_in d va n v : regular_dir d -> hemi_angle va -> (0 < n)%Z -> dot v v = 1 -> in_view (mk_view d va) 0 v = true ->
  (0 <= fst (ray2pixel (mk_view d va) n v) < n)%Z /\ (0 <= snd (ray2pixel (mk_view d va) n v) < n)%Z.
Proof.
  intros G H N V I. apply in_view_circle in I; auto. destruct (pdist_coord (xyz2vxy (mk_view d va) v) center) as [C1 C2].
  unfold center in C1, C2; cbn [fst snd] in C1, C2. unfold center in I.
  assert (N' : 0 < IZR n) by (apply IZR_lt in N; lra).
  unfold ray2pixel, ray2pixelf; cbn [fst snd]. set (p := xyz2vxy (mk_view d va) v) in *.
  apply Rle_lt_trans with (r3 := 1 / 2) in C1; [|exact I]. apply Rle_lt_trans with (r3 := 1 / 2) in C2; [|exact I].
  apply Rabs_def2 in C1, C2. 
  split; (split; [apply Rfloor_ge; simpl; nra|apply Rfloor_lt; nra]).
Qed.
Lemma bin_in_square b n : (0 < n)%Z -> (0 <= b < n * n)%Z -> 0 < fst (bin2uv b n (1 / 2)) < 1 /\ 0 < snd (bin2uv b n (1 / 2)) < 1.
Proof.
  intros N B. rewrite bin2uv_eq by auto. cbn [fst snd]. destruct (idx_bounds n n b N B) as [[B1 B1'] [B2 B2']].
  apply IZR_le in B1, B2. apply Z.le_succ_l in B1', B2'. apply IZR_le in B1', B2'. rewrite succ_IZR in B1', B2'. assert (N' : 0 < IZR n) by (apply IZR_lt in N; lra).
  assert (X : forall x, x / IZR n * IZR n = x) by (intros; field; lra).
  split; split; apply Rmult_lt_reg_r with (IZR n); rewrite ?X; lra.
Qed.
Lemma ang2uv_ok {A} d va (im : image A) : regular_dir d -> hemi_angle va -> (0 < im_ny im)%Z -> (im_ny im <= im_nx im)%Z ->
  array_ang2uv (mk_view d va) im = Ok (map (fun b =>
    let p := xyz2vxy (mk_view d va) (vm_uv2xyz (mk_view d va) (bin2uv b (im_ny im) (1 / 2))) in
    im_px im (Rfloor (fst p * IZR (im_ny im))) (Rfloor (snd p * IZR (im_ny im)))) (zrange (im_ny im * im_ny im))) /\
  forall b, In b (zrange (im_ny im * im_ny im)) ->
    let p := xyz2vxy (mk_view d va) (vm_uv2xyz (mk_view d va) (bin2uv b (im_ny im) (1 / 2))) in
    in_image im (Rfloor (fst p * IZR (im_ny im)), Rfloor (snd p * IZR (im_ny im))).
Proof.
  intros G H N S. assert (I : forall b, In b (zrange (im_ny im * im_ny im)) -> 
     in_image im (ray2pixel (mk_view d va) (im_ny im) (vm_uv2xyz (mk_view d va) (bin2uv b (im_ny im) (1 / 2))))).
  { intros b Hb. apply in_zrange in Hb. pose proof (bin_in_square b _ N Hb) as U.
    assert (US : in_unit_square (bin2uv b (im_ny im) (1 / 2))) by (unfold in_unit_square; lra).
    pose proof (uv_in_view d va _ G H (or_introl U)) as V.
    pose proof (view_pixel_in d va _ _ G H N (proj1 (vnorm_1 _) (vm_uv2xyz_unit d va _ (or_introl (conj H US)))) V). unfold in_image. lia. }
  split; [|exact I]. unfold array_ang2uv. rewrite np_read_in.
  - rewrite map_map. reflexivity.
  - intros p Hp. apply in_map_iff in Hp. destruct Hp as (b & <- & Hb). auto.
Qed.

(** * array_uv2ang *)
Lemma scatter_filter {A B} (z : B) (g : A -> bool) (f : A -> B) l :
  scatter z (map g l) (map f (filter g l)) = map (fun a => if g a then f a else z) l.
Proof. induction l as [|a l IH]; simpl; auto. destruct (g a) eqn:E; simpl; rewrite IH; reflexivity. Qed.
Lemma select_filter {A} (g : A -> bool) l : select (map g l) l = filter g l.
Proof. induction l as [|a l IH]; simpl; auto. destruct (g a); rewrite IH; auto. Qed.
Lemma select_app {A} m1 m2 (l1 l2 : list A) : length m1 = length l1 -> select (m1 ++ m2) (l1 ++ l2) = select m1 l1 ++ select m2 l2.
Proof. revert l1. induction m1 as [|b m1 IH]; intros [|a l1] E; simpl in *; auto; try discriminate. destruct b; rewrite IH by lia; auto. Qed.
Lemma scatter_app {A} (z : A) m1 m2 v1 v2 : length v1 = length (filter (fun b => b) m1) ->
  scatter z (m1 ++ m2) (v1 ++ v2) = scatter z m1 v1 ++ scatter z m2 v2.
Proof.
  revert v1. induction m1 as [|b m1 IH]; intros v1 E.
  - destruct v1; [reflexivity|discriminate].
  - destruct b; simpl in *.
    + destruct v1 as [|v v1]; [discriminate|]. simpl. rewrite IH by (simpl in E; lia). reflexivity.
    + rewrite IH by auto. reflexivity.
Qed.
Lemma filter_map_length {A} (g : A -> bool) l : length (filter (fun b => b) (map g l)) = length (filter g l).
Proof. induction l as [|a l IH]; simpl; auto. destruct (g a); simpl; lia. Qed.
Lemma zrange_length n : length (zrange n) = Z.to_nat n.
Proof. unfold zrange. rewrite map_length, seq_length. reflexivity. Qed.
Lemma zgrid_length nx ny : length (zgrid nx ny) = (Z.to_nat nx * Z.to_nat ny)%nat.
Proof.
  unfold zgrid. transitivity (length (zrange nx) * Z.to_nat ny)%nat; [|rewrite zrange_length; auto].
  induction (zrange nx) as [|a l IH]; simpl; auto. rewrite app_length, map_length, zrange_length, IH. reflexivity.
Qed.
Lemma pixelrays1_length vm n : length (pixelrays1 vm n) = (Z.to_nat n * Z.to_nat n)%nat.
Proof. unfold pixelrays1. rewrite map_length. apply zgrid_length. Qed.
Lemma regular_y : regular_dir (V3 0 1 0) /\ regular_dir (V3 0 (-1) 0).
Proof.
  assert (P : forall k, k * k = 1 -> regular_dir (V3 0 k 0)).
  { intros k K. right. assert (V : vnorm (V3 0 k 0) = 1) by (apply vnorm_1; unfold dot; cbn [vx vy vz]; lra).
    split; [intros E; apply (f_equal vy) in E; unfold vzero in E; cbn [vy] in E; nra|]. rewrite V. cbn [vx vy vz]. split.
    - apply Rlt_le_trans with (Rabs k); [|apply Rmax_r]. assert (Rabs k = 1). { rewrite <- sqrt_1, <- K. symmetry. apply sqrt_Rsqr_abs. } lra.
    - replace (0 / 1) with 0 by field. rewrite acos_0. unfold cap_bot. pose proof PI_lo. pose proof PI_hi. lra. }
  split; apply P; lra.
Qed.

Lemma init_mask_180 n : init_mask (mk_view (V3 0 1 0) 180) n = map (in_view (mk_view (V3 0 1 0) 180) 0) (pixelrays (mk_view (V3 0 1 0) 180) n).
Proof. unfold init_mask. rewrite mk_view_hemi_aspect by apply hemi_180. reflexivity. Qed.
Lemma pixelray1_unit d va n v : In v (pixelrays1 (mk_view d va) n) -> dot v v = 1.
Proof. intros H. apply in_map_iff in H. destruct H as (p & <- & _). apply vnorm_1, vxy2xyz_unit. Qed.
Lemma pixelrays_180 d n : pixelrays (mk_view d 180) n = pixelrays1 (mk_view d 180) n.
Proof. unfold pixelrays. rewrite mk_view_hemi_aspect by apply hemi_180. reflexivity. Qed.

Lemma uv2ang_square {A} (z : A) (im : image A) : (0 < im_ny im)%Z -> im_nx im = im_ny im ->
  let vm := mk_view (V3 0 1 0) 180 in
  array_uv2ang z im = Ok (map (fun v => if in_view vm 0 v
      then let p := uv2ij (vm_xyz2uv vm v) (im_ny im) 2 in im_px im (fst p) (snd p) else z) (pixelrays vm (im_ny im))) /\
  forall v, In v (pixelrays vm (im_ny im)) -> in_view vm 0 v = true -> in_image im (uv2ij (vm_xyz2uv vm v) (im_ny im) 2).
Proof.
  intros N S vm. assert (I : forall v, In v (pixelrays vm (im_ny im)) -> in_view vm 0 v = true -> in_image im (uv2ij (vm_xyz2uv vm v) (im_ny im) 2)).
  { intros v Hv V. unfold vm in Hv. rewrite pixelrays_180 in Hv. pose proof (pixelray1_unit _ _ _ _ Hv) as U.
    pose proof (uv2ij_front _ _ N (front_uv_lt1 _ v (proj1 regular_y) U V)). unfold in_image. rewrite S. assumption. }
  split; [|exact I]. unfold array_uv2ang. rewrite S, Z.ltb_irrefl. fold vm.
  replace (Z.of_nat (length (init_mask vm (im_ny im))) =? im_ny im * im_ny im)%Z with true.
  2:{ unfold vm. rewrite init_mask_180, map_length, pixelrays_180, pixelrays1_length. symmetry. apply Z.eqb_eq. rewrite Nat2Z.inj_mul, !Z2Nat.id by lia. lia. }
  assert (M : init_mask vm (im_ny im) = map (in_view vm 0) (pixelrays vm (im_ny im))) by apply init_mask_180.
  rewrite M, select_filter. rewrite np_read_in.
  - cbn [bind]. rewrite map_map. rewrite scatter_filter. reflexivity.
  - intros p Hp. apply in_map_iff in Hp. destruct Hp as (v & <- & Hv). apply filter_In in Hv. apply I; tauto.
Qed.
Lemma uv2ang_360 {A} (z : A) (im : image A) : (0 < im_ny im)%Z -> im_nx im = (2 * im_ny im)%Z ->
  let vm := mk_view (V3 0 1 0) 360 in
  let a := mk_view (V3 0 1 0) 180 in
  let b := mk_view (V3 0 (-1) 0) 180 in
  let src v := let p := uv2ij (vm_xyz2uv vm v) (im_ny im) 2 in im_px im (fst p) (snd p) in
  array_uv2ang z im = Ok (map (fun v => if in_view a 0 v then src v else z) (pixelrays a (im_ny im)) ++
                          map (fun v => if in_view b 0 v then src v else z) (pixelrays b (im_ny im))) /\
  forall v, in_image im (uv2ij (vm_xyz2uv vm v) (im_ny im) 2).
Proof.
  intros N S vm a b src.
  assert (I : forall v, in_image im (uv2ij (vm_xyz2uv vm v) (im_ny im) 2)).
  { intros v. pose proof (uv2ij_range (vm_xyz2uv vm v) (im_ny im) 2 N) as R. destruct (uv2ij _ _ 2) as [i j].
    change (2 =? 2)%Z with true in R. cbv iota in R. unfold in_image. rewrite S. exact R. }
  split; [|exact I]. unfold array_uv2ang. rewrite S. replace (im_ny im <? 2 * im_ny im)%Z with true by lia. fold vm.
  assert (NZ : V3 0 1 0 <> vzero) by (apply regular_nonzero, regular_y).
  assert (Iv : vm_ivm vm = b). { unfold vm. rewrite ivm_eq by auto. unfold b, vopp; cbn [vx vy vz]. rewrite Ropp_0. reflexivity. }
  assert (P1 : pixelrays vm (im_ny im) = pixelrays1 a (im_ny im) ++ pixelrays1 b (im_ny im)).
  { unfold pixelrays. unfold vm at 1. rewrite (proj2 (mk_view_360 _)). change (2 =? 2)%Z with true. cbv iota.
    rewrite Iv. unfold vm. rewrite pixelrays1_360. reflexivity. }
  assert (M : init_mask vm (im_ny im) = map (in_view a 0) (pixelrays1 a (im_ny im)) ++ map (in_view b 0) (pixelrays1 b (im_ny im))).
  { unfold init_mask. unfold vm at 1. rewrite (proj2 (mk_view_360 _)). change (2 =? 2)%Z with true. cbv iota.
    rewrite Iv. unfold vm at 2. rewrite pixelrays1_360. fold a. f_equal. apply map_ext_in. intros v Hv.
    pose proof (pixelray1_unit _ _ _ _ Hv) as U. apply Bool.eq_iff_eq_true. unfold vm, a. rewrite !in_view_180 by auto. reflexivity. }
  rewrite M, P1. replace (Z.of_nat _ =? 2 * im_ny im * im_ny im)%Z with true.
  2:{ rewrite app_length, !map_length, !pixelrays1_length. symmetry. apply Z.eqb_eq. rewrite Nat2Z.inj_add, !Nat2Z.inj_mul, !Z2Nat.id by lia. lia. }
  rewrite select_app, !select_filter by (rewrite map_length; reflexivity). rewrite np_read_in.
  - cbn [bind]. rewrite map_map, map_app. rewrite scatter_app by (rewrite map_length, filter_map_length; reflexivity).
    rewrite !scatter_filter. assert (Pa : pixelrays a (im_ny im) = pixelrays1 a (im_ny im)) by apply pixelrays_180.
    assert (Pb : pixelrays b (im_ny im) = pixelrays1 b (im_ny im)) by apply pixelrays_180. rewrite Pa, Pb. reflexivity.
  - intros p Hp. apply in_map_iff in Hp. destruct Hp as (v & <- & Hv). apply I.
Qed.
Lemma uv2ang_other {A} (z : A) (im : image A) : (0 < im_ny im)%Z -> (0 < im_nx im)%Z -> im_nx im <> im_ny im -> im_nx im <> (2 * im_ny im)%Z ->
  array_uv2ang z im = Raise IndexError.
Proof.
  intros N N' S1 S2. unfold array_uv2ang.
  assert (L1 : length (init_mask (mk_view (V3 0 1 0) 180) (im_ny im)) = (Z.to_nat (im_ny im) * Z.to_nat (im_ny im))%nat).
  { rewrite init_mask_180, map_length, pixelrays_180, pixelrays1_length. reflexivity. }
  assert (L2 : length (init_mask (mk_view (V3 0 1 0) 360) (im_ny im)) = (2 * (Z.to_nat (im_ny im) * Z.to_nat (im_ny im)))%nat).
  { unfold init_mask. rewrite (proj2 (mk_view_360 _)). change (2 =? 2)%Z with true. cbv iota. rewrite app_length, !map_length, !pixelrays1_length. lia. }
  destruct (im_ny im <? im_nx im)%Z; [rewrite L2|rewrite L1]; (match goal with |- (if (?x =? ?y)%Z then _ else _) = _ => destruct (Z.eqb_spec x y) as [E|E]; [exfalso|reflexivity] end);
    rewrite ?Nat2Z.inj_mul, ?Z2Nat.id in E by lia; nia.
Qed.

Lemma vm_uv2xyz_360 d uv : vm_uv2xyz (mk_view d 360) uv = vm_uv2xyz (mk_view d 180) uv.
Proof.
  rewrite (vm_uv_hemi d 180) by apply hemi_180. unfold vm_uv2xyz.
  assert (V : forall w, view2world (mk_view d 360) w = view2world (mk_view d 180) w) by reflexivity. rewrite V. f_equal.
  unfold mk_view; cbn [vm_bbox0 vm_sf]. rewrite eqb_360. cbn [fst snd]. f_equal. apply pair_eq; field.
Qed.
Lemma ray2pixel_360_front d n v : d <> vzero -> dot v v = 1 -> 0 < dot (norm d) v ->
  ray2pixel (mk_view d 360) n v = ray2pixel (mk_view d 180) n v.
Proof.
  intros N V F. unfold ray2pixel, ray2pixelf. rewrite xyz2vxy_360, xyz2vxy_180 by auto.
  case_Rltb 0 (dot (norm d) v); [reflexivity|lra].
Qed.
(** a 360 degree view: array_ang2uv reads the front image only *)
Lemma ang2uv_360 {A} d (im : image A) : regular_dir d -> (0 < im_ny im)%Z ->
  array_ang2uv (mk_view d 360) im = array_ang2uv (mk_view d 180) im.
Proof.
  intros G N. unfold array_ang2uv. f_equal. apply map_ext_in. intros b Hb. apply in_zrange in Hb.
  pose proof (bin_in_square b _ N Hb) as U. assert (US : in_unit_square (bin2uv b (im_ny im) (1 / 2))) by (unfold in_unit_square; lra).
  pose proof (uv_in_view d 180 _ G hemi_180 (or_introl U)) as V.
  pose proof (proj1 (vnorm_1 _) (vm_uv2xyz_unit d 180 _ (or_introl (conj hemi_180 US)))) as W.
  rewrite vm_uv2xyz_360. pose proof (regular_nonzero d G). apply ray2pixel_360_front; auto. apply in_view_180 in V; auto.
Qed.

(** * view direction and mutation of arguments *)
Lemma view_dir_near d va : d <> vzero -> 1 - / 10 ^ 7 <= vz (world2view (mk_view d va) (norm d)).
Proof.
  intros N. pose proof (rmtx_yp_everywhere d N) as E.
  assert (N2 : norm d <> vzero) by (apply unit_nonzero, norm_dot; auto).
  pose proof (rmtx_yp_everywhere (norm d) N2) as E2. rewrite norm_idem in E2 by auto.
  unfold world2view, mk_view; cbn [vm_rmtx]. rewrite norm1_nonzero by auto. exact E2.
Qed.
Lemma view_dir_refuted : exists d, dot d d = 1 /\ forall va, world2view (mk_view d va) d <> V3 0 0 1.
Proof.
  destruct rmtx_yp_nadir_refuted as (v & V & R). exists v. split; auto. intros va E. apply R.
  assert (N : v <> vzero) by (apply unit_nonzero; auto).
  assert (Nv : norm v = v). { unfold norm. assert (V' : vnorm v = 1) by (apply vnorm_1; auto). rewrite V'. destruct v as [a b c]. cbn [vx vy vz]. apply vec3_ext; cbn [vx vy vz]; field. }
  unfold world2view, mk_view in E; cbn [vm_rmtx] in E. rewrite norm1_nonzero, Nv in E by auto. exact E.
Qed.

Lemma vxy_call_value d va k xys : fst (vxy2xyz_call (mk_view d va) k xys) = map (vxy2xyz (mk_view d va)) xys.
Proof. unfold vxy2xyz_call; cbn [fst]. rewrite map_map. reflexivity. Qed.
Lemma vxy_call_sequence d va xys : snd (vxy2xyz_call (mk_view d va) pysequence xys) = xys.
Proof. reflexivity. Qed.
Lemma vxy_call_mutates d va : snd (vxy2xyz_call (mk_view d va) ndarray [(1 / 2, 1 / 2)]) = [(0, 0)].
Proof.
  unfold vxy2xyz_call; cbn [snd map fst]. rewrite ang2dir_0; [reflexivity|].
  unfold pd, square; cbn [fst snd]. replace ((1 / 2 - 1 / 2) * _) with 0 by ring. replace ((1 / 2 - 1 / 2) * _) with 0 by ring.
  replace (0 * 0 + 0 * 0) with 0 by ring. apply sqrt_0.
Qed.
Lemma m_vxy_call_mutates m : snd (m_vxy2xyz_call m [(1, 0)]) = [(0, 0)].
Proof. unfold m_vxy2xyz_call; cbn [snd map fst]. replace (1 - 1) with 0 by ring. reflexivity. Qed.
