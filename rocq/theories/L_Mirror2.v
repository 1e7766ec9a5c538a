(** The arrays derived from the view are their own mirror images, and so the score does not tell left from right. *)
From Coq Require Import Lra Lia Psatz.
From Verif Require Import Base L_Base M_Translate M_Mapper M_Io M_Data S_Data S_Mapper L_Mapper L_Io L_Initimg M_Gss S_Gss M_Ndimage S_Ndimage L_Ndimage S_Mirror L_Mirror.
Local Open Scope R_scope.

Lemma grid_length {A} (f : Z * Z -> A) r : length (map f (zgrid r r)) = (Z.to_nat r * Z.to_nat r)%nat.
Proof.
  rewrite map_length. unfold zgrid. assert (G : forall l : list Z, length (flat_map (fun i => map (fun j : Z => (i, j)) (zrange r)) l) = (length l * Z.to_nat r)%nat).
  { induction l as [|x l IH]; [reflexivity|]. cbn [flat_map length]. rewrite app_length, map_length, IH. unfold zrange. rewrite map_length, seq_length. lia. }
  rewrite G. unfold zrange. now rewrite map_length, seq_length.
Qed.
Lemma grid_at {A} (f : Z * Z -> A) r i j : (i < Z.to_nat r)%nat -> (j < Z.to_nat r)%nat -> nth_error (map f (zgrid r r)) (i * Z.to_nat r + j) = Some (f (Z.of_nat i, Z.of_nat j)).
Proof.
  intros Hi Hj. rewrite (nth_error_nth' _ (f (0, 0)%Z)) by (rewrite grid_length; nia). f_equal.
  replace (i * Z.to_nat r + j)%nat with (Z.to_nat (Z.of_nat i * r + Z.of_nat j)) by nia. apply nth_grid; lia.
Qed.
Lemma mirror_grid {A} (f : Z * Z -> A) r : (forall i j, (0 <= i < r)%Z -> (0 <= j < r)%Z -> f (r - 1 - i, j)%Z = f (i, j)) ->
  mirror_of (Z.to_nat r) (map f (zgrid r r)) (map f (zgrid r r)).
Proof.
  intros H. repeat split; [apply grid_length|apply grid_length|]. intros i j Hi Hj. rewrite !grid_at by lia. f_equal. rewrite <- H by lia. do 2 f_equal. lia.
Qed.
Lemma ray_dot d va r i j : regular_dir d -> (0 < r)%Z ->
  let ray i := pixel2ray (mk_view d va) r (IZR i + 1 / 2, IZR j + 1 / 2) in dot (vm_dxyz (mk_view d va)) (ray (r - 1 - i)%Z) = dot (vm_dxyz (mk_view d va)) (ray i).
Proof.
  intros G Hr ray. unfold ray, pixel2ray. rewrite <- !w2v_z by exact G. rewrite !vxy2xyz_eq, !w2v_v2w. cbn [fst snd]. assert (IZR r <> 0) by (apply not_0_IZR; lia).
  rewrite !minus_IZR. replace (((IZR r - 1 - IZR i + 1 / 2) / IZR r - 1 / 2) * (-1 * vscl d va)) with (- (((IZR i + 1 / 2) / IZR r - 1 / 2) * (-1 * vscl d va))) by (field; assumption).
  rewrite ang2dir_flip. reflexivity.
Qed.
Section View.
Variables (d : vec3) (va : R) (r : Z).
Hypotheses (G : regular_dir d) (H : hemi_angle va) (Hr : (0 < r)%Z).
Notation vm := (mk_view d va).
Lemma rays_eq : pixelrays vm r = map (fun p => pixel2ray vm r (IZR (fst p) + 1 / 2, IZR (snd p) + 1 / 2)) (zgrid r r).
Proof. unfold pixelrays. rewrite mk_view_hemi_aspect by exact H. reflexivity. Qed.
Lemma mirror_dot {A} (f : R -> A) : mirror_of (Z.to_nat r) (map (fun v => f (dot (vm_dxyz vm) v)) (pixelrays vm r)) (map (fun v => f (dot (vm_dxyz vm) v)) (pixelrays vm r)).
Proof. rewrite rays_eq, map_map. apply mirror_grid. intros i j Hi Hj. cbn [fst snd]. f_equal. now apply (ray_dot d va r i j). Qed.
Lemma mirror_mask : mirror_of (Z.to_nat r) (map (in_view vm 0) (pixelrays vm r)) (map (in_view vm 0) (pixelrays vm r)).
Proof. exact (mirror_dot (fun c => Rltb (acos (clip c (-1) 1) - 0) (vm_chordfactor vm * vm_viewangle vm * PI / 360))). Qed.
Lemma mirror_ctheta : mirror_of (Z.to_nat r) (map (cos_theta vm) (pixelrays vm r)) (map (cos_theta vm) (pixelrays vm r)).
Proof. exact (mirror_dot (fun c => Rmax 0 (clip c (-1) 1))). Qed.
Lemma mirror_omegas : mirror_of (Z.to_nat r) (pixel_omegas vm r) (pixel_omegas vm r).
Proof.
  unfold pixel_omegas. apply mirror_grid. intros i j Hi Hj. cbn [fst snd]. rewrite !minus_IZR. replace (IZR r - 1 - IZR i + 1 / 2) with (IZR r - (IZR i + 1 / 2)) by field. apply omega_mirror. lia.
Qed.
Lemma mirror_zeroed : mirror_of (Z.to_nat r) (zero_unless (map (in_view vm 0) (pixelrays vm r)) (pixel_omegas vm r)) (zero_unless (map (in_view vm 0) (pixelrays vm r)) (pixel_omegas vm r)).
Proof. unfold zero_unless. apply mirror_map, mirror_combine; [apply mirror_mask|apply mirror_omegas]. Qed.
Lemma mirror_sigma : mirror_of (Z.to_nat r) (map (sigma_of vm) (pixelrays vm r)) (map (sigma_of vm) (pixelrays vm r)).
Proof.
  rewrite rays_eq, map_map. apply mirror_grid. intros i j Hi Hj. cbn [fst snd]. unfold sigma_of, pixel2ray. cbn [fst snd].
  assert (P : 0 < IZR r) by (apply (IZR_lt 0); lia).
  assert (U : forall k, (0 <= k < r)%Z -> 0 <= (IZR k + 1 / 2) / IZR r <= 1).
  { intros k [K1 K2]. assert (IZR k + 1 <= IZR r) by (rewrite <- plus_IZR; apply IZR_le; lia). apply IZR_le in K1. split.
    - apply Rmult_le_pos; [lra|]. left. now apply Rinv_0_lt_compat.
    - apply (Rmult_le_reg_r (IZR r)); [exact P|]. unfold Rdiv. rewrite Rmult_assoc, Rinv_l by lra. lra. }
  rewrite !vxy_roundtrip; try exact H; try (unfold in_unit_square; cbn [fst snd]; split; apply U; lia).
  unfold ecc_scale. cbn [fst snd]. do 3 f_equal. f_equal. f_equal. rewrite !minus_IZR. unfold square. field. lra.
Qed.
Lemma lengths : length (pixel_omegas vm r) = (Z.to_nat r * Z.to_nat r)%nat /\ length (pixelrays vm r) = (Z.to_nat r * Z.to_nat r)%nat.
Proof. split; [apply grid_length|rewrite rays_eq; apply grid_length]. Qed.

(** the score *)
Lemma mirror_compute par r' m o ct ppa s ecc vecs n l l' illum : (g_psf par = true -> kernel_mirrors par ppa) ->
  mirror_of r' m m -> mirror_of r' o o -> mirror_of r' ct ct -> mirror_of r' s s -> mirror_of r' (gi_px l) (gi_px l') ->
  let st x := GState vm (Some x) n vecs (Some o) (Some m) (Some ct) (Some ppa) (Some s) ecc in
  compute scipy_filters par (st l') illum = compute scipy_filters par (st l) illum.
Proof.
  intros K M O C S L st. unfold compute, st. cbn [gs_lum gs_omega gs_mask gs_ctheta gs_pparcmin gs_sigma gs_ecc]. destruct ecc as [ecc|]; [|reflexivity]. cbv zeta.
  assert (E : eye_illuminance m ct (gi_px l') o = eye_illuminance m ct (gi_px l) o).
  { unfold eye_illuminance. rewrite !select_combine. apply (mirror_select_sum _ r'); [exact M|]. repeat apply mirror_combine; auto. }
  rewrite E. match goal with |- bind (pupil _ ?e) _ = _ => generalize e end. intros ev. destruct (pupil (g_age par) ev) as [[pa pd]|] eqn:Pu; [|reflexivity]. cbn [bind].
  pose proof (mirror_response par ppa r' m o s (gi_px l) (gi_px l') (retinal_irradiance (g_f par) (ev / PI) pa) pa pd (fun Q => K Q ev pa pd Pu) M O S L) as A.
  destruct (glare_response _ _ _ _ _ _ (gi_px l) _ _ _), (glare_response _ _ _ _ _ _ (gi_px l') _ _ _); cbn [agree] in A; cbn [bind]; try contradiction; [|now subst].
  f_equal. now apply (mirror_gss _ _ r').
Qed.
Lemma mirror_process par i i' illum : (g_psf par = true -> kernel_mirrors par (IZR r / (60 * va))) -> gi_nx i = r -> gi_ny i = r -> mirror_img i i' ->
  process_gss scipy_filters par (gss_new vm) i' illum = process_gss scipy_filters par (gss_new vm) i illum.
Proof.
  intros K X Y (X' & Y' & L). rewrite X in *. rewrite Y in Y'. destruct lengths as [L1 L2].
  assert (S : forall im, gi_nx im = r -> gi_ny im = r ->
    set_lum (g_scale par) (gss_new vm) im =
      let i := GImg r r (map (fun x => x * g_scale par) (gi_px im)) in
      let omega := zero_unless (map (in_view vm 0) (pixelrays vm r)) (pixel_omegas vm r) in
      set_ecc (GState vm (Some i) r (Some (pixelrays vm r)) (Some omega) (Some (map (in_view vm 0) (pixelrays vm r))) (Some (map (cos_theta vm) (pixelrays vm r)))
                      (Some (IZR r / (60 * va))) (Some (map (sigma_of vm) (pixelrays vm r))) None) i).
  { intros im A B. unfold set_lum, with_lum. cbn [gss_new gs_vm gs_lum gs_res gs_vecs gs_omega gs_mask gs_ctheta gs_pparcmin gs_sigma gs_ecc gi_nx gi_ny gi_px]. rewrite A, B.
    replace (0 =? r)%Z with false by (symmetry; apply Z.eqb_neq; lia). cbv zeta. rewrite map_length, L1, L2, Nat.eqb_refl. cbn [negb]. rewrite map_length, L2.
    replace (Z.to_nat (r * r)) with (Z.to_nat r * Z.to_nat r)%nat by nia. rewrite Nat.eqb_refl. cbn [negb]. now rewrite mk_view_hemi_va by exact H. }
  unfold process_gss. rewrite !S by assumption. cbv zeta. set (o := zero_unless _ _). pose proof mirror_zeroed as O. fold o in O. unfold set_ecc.
  cbn [gs_vm gs_lum gs_res gs_vecs gs_omega gs_mask gs_ctheta gs_pparcmin gs_sigma gs_ecc gi_nx gi_ny gi_px].
  destruct (length o =? _)%nat; [|reflexivity]. unfold ecc_weights. cbn [gi_nx gi_ny gi_px]. rewrite Z.eqb_refl.
  pose proof (mirror_map (fun x => x * g_scale par) _ _ _ L) as L'. pose proof (mirror_map (fun p => fst p ^ 4 * snd p) _ _ _ (mirror_combine _ _ _ _ _ L' O)) as W.
  rewrite (mirror_sum _ _ _ W), (mirror_sumf _ _ _ _ (mirror_combine _ _ _ _ _ mirror_sigma W)). destruct (Reqb _ 0); [reflexivity|]. unfold with_ecc.
  cbn [gs_vm gs_lum gs_res gs_vecs gs_omega gs_mask gs_ctheta gs_pparcmin gs_sigma gs_ecc gi_nx gi_ny gi_px].
  apply (mirror_compute par (Z.to_nat r)); auto using mirror_mask, mirror_ctheta, mirror_sigma.
Qed.
End View.
