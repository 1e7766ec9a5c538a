(** Lemmas about the score of an image. *)
From Coq Require Import Lra Lia Psatz.
From Verif Require Import Base L_Base L_Trig M_Translate S_Translate L_Angles M_Mapper S_Mapper L_Mapper L_Draw M_Io L_Io M_Gss S_Gss L_Gss L_Gss2 L_Gss3 L_Gss4 L_Gss5.
Local Open Scope R_scope.

Lemma masked_length vm r : vm_aspect vm = 1%Z -> (0 <= r)%Z -> length (masked_omega vm r) = Z.to_nat (r * r).
Proof. intros A H. unfold masked_omega. rewrite map_length, combine_length, rays_length, omegas_length, to_nat_sq by auto. lia. Qed.
Lemma masked_nonneg vm r : Forall (fun x => 0 <= x) (masked_omega vm r).
Proof.
  apply Forall_forall. intros x Hx. apply in_map_iff in Hx. destruct Hx as ((v & w) & <- & Hin). apply in_combine_r in Hin. cbn [fst snd].
  unfold pixel_omegas in Hin. apply in_map_iff in Hin. destruct Hin as (p & <- & _). destruct (in_view vm 0 v); [apply omega_nonneg|lra].
Qed.
Lemma masked_sum vm r : Rsum (masked_omega vm r) = seen_omega vm r.
Proof. reflexivity. Qed.
Lemma masked_nth vm r k d0 : vm_aspect vm = 1%Z -> (0 <= r)%Z -> (k < Z.to_nat (r * r))%nat ->
  nth k (masked_omega vm r) 0 = if in_view vm 0 (nth k (pixelrays vm r) d0) then nth k (pixel_omegas vm r) 0 else 0.
Proof.
  intros A Hr Hk. unfold masked_omega. set (F := fun p : vec3 * R => if in_view vm 0 (fst p) : bool then snd p else 0).
  rewrite (nth_indep _ 0 (F (d0, 0))) by (rewrite map_length, combine_length, rays_length, omegas_length by auto; rewrite to_nat_sq in Hk by auto; lia).
  rewrite map_nth, combine_nth by (rewrite rays_length, omegas_length by auto; reflexivity). reflexivity.
Qed.

Definition weights (i : gimg) (om : list R) : list R := map (fun p => (fst p) ^ 4 * snd p) (combine (gi_px i) om).
Lemma weights_nonneg i om : Forall (fun x => 0 <= x) om -> Forall (fun x => 0 <= x) (weights i om).
Proof.
  intros H. apply Forall_forall. intros x Hx. apply in_map_iff in Hx. destruct Hx as ((a & b) & <- & Hin). apply in_combine_r in Hin.
  rewrite Forall_forall in H. apply H in Hin. cbn [fst snd]. apply Rmult_le_pos; [apply pow4_nonneg|exact Hin].
Qed.
Lemma weights_zero : forall px om, length px = length om -> Forall (fun x => 0 <= x) om ->
  Rsum (map (fun p => (fst p) ^ 4 * snd p) (combine px om)) <> 0 <-> exists k, (k < length px)%nat /\ nth k px 0 <> 0 /\ nth k om 0 <> 0.
Proof.
  induction px as [|x px IH]; intros [|w om] L H; try discriminate.
  - cbn. split; [lra|intros (k & Hk & _); cbn in Hk; lia].
  - inversion H as [|? ? Hw Hom]; subst. cbn [map combine Rsum fold_right fst snd].
    fold (Rsum (map (fun p : R * R => fst p ^ 4 * snd p) (combine px om))). specialize (IH om ltac:(cbn in L; lia) Hom).
    pose proof (Rsum_nonneg _ (weights_nonneg (GImg 0 0 px) om Hom)) as Sn. unfold weights in Sn. cbn [gi_px] in Sn.
    set (S := Rsum _) in *. pose proof (pow4_nonneg x) as X4. assert (0 <= x ^ 4 * w) as P by (apply Rmult_le_pos; auto). split.
    + intros N. destruct (Req_dec S 0) as [Z|Z].
      * exists 0%nat. cbn [nth length]. split; [lia|]. split; intros E; apply N; rewrite Z, E; ring.
      * destruct (proj1 IH Z) as (k & Hk & A & B). exists (Datatypes.S k). cbn [nth length]. split; [lia|]. auto.
    + intros (k & Hk & A & B). destruct k as [|k]; cbn [nth length] in *.
      * assert (0 < x ^ 4 * w); [|lra]. apply Rmult_lt_0_compat; [|lra]. assert (x ^ 4 <> 0) by now apply pow_nonzero. lra.
      * assert (S <> 0) by (apply IH; exists k; repeat split; auto; lia). lra.
Qed.

(** what an accepted image leaves behind *)
Lemma set_ecc_loaded vm r i e0 : vm_aspect vm = 1%Z -> square_img i -> gi_nx i = r ->
  set_ecc (loaded vm r i e0) i =
  if Reqb (Rsum (weights i (masked_omega vm r))) 0 then (loaded vm r i e0, Some ZeroDivisionError)
  else (loaded vm r i (Some (Rsumf (fun p => fst p * snd p) (combine (map (sigma_of vm) (pixelrays vm r)) (weights i (masked_omega vm r)))
          / Rsum (weights i (masked_omega vm r)))), None).
Proof.
  intros A (Hp & Hy & Hl) E. unfold set_ecc. cbn [loaded gs_omega gs_sigma gs_res]. fold (masked_omega vm r).
  rewrite masked_length by (auto; lia). rewrite Nat.eqb_refl. unfold ecc_weights. rewrite Hy, E, Z.eqb_refl. fold (weights i (masked_omega vm r)).
  destruct (Reqb _ 0); reflexivity.
Qed.
Lemma scaled_square scale i : square_img i -> square_img (scaled scale i).
Proof. intros (A & B & C). unfold scaled. repeat split; cbn [gi_nx gi_ny gi_px]; auto. now rewrite map_length. Qed.
Lemma set_lum_eq scale vm i : vm_aspect vm = 1%Z -> square_img i ->
  set_lum scale (gss_new vm) i =
  let w := weights (scaled scale i) (masked_omega vm (gi_nx i)) in
  if Reqb (Rsum w) 0 then (loaded vm (gi_nx i) (scaled scale i) None, Some ZeroDivisionError)
  else (loaded vm (gi_nx i) (scaled scale i)
          (Some (Rsumf (fun p => fst p * snd p) (combine (map (sigma_of vm) (pixelrays vm (gi_nx i))) w) / Rsum w)), None).
Proof.
  intros A Hi. rewrite (set_lum_loaded scale vm _ i A (or_introl eq_refl) Hi). cbv zeta. apply set_ecc_loaded; auto. now apply scaled_square.
Qed.
Lemma Reqb_false x y : x <> y -> Reqb x y = false.
Proof. intros H. unfold Reqb. destruct (Req_EM_T x y); [contradiction|reflexivity]. Qed.
Lemma accept_iff scale vm i : vm_aspect vm = 1%Z -> square_img i ->
  snd (set_lum scale (gss_new vm) i) = None <->
  exists k, (k < length (gi_px i))%nat /\ nth k (gi_px i) 0 * scale <> 0 /\
    in_view vm 0 (nth k (pixelrays vm (gi_nx i)) (V3 0 0 0)) = true /\ nth k (pixel_omegas vm (gi_nx i)) 0 <> 0.
Proof.
  intros A Hi. pose proof Hi as (Hp & Hy & Hl). rewrite (set_lum_eq scale vm i A Hi). cbv zeta.
  assert (length (gi_px (scaled scale i)) = length (masked_omega vm (gi_nx i))) as L.
  { unfold scaled. cbn [gi_px]. rewrite map_length, masked_length, Hl, Hy by (auto; lia). reflexivity. }
  pose proof (weights_zero _ _ L (masked_nonneg vm (gi_nx i))) as W. fold (weights (scaled scale i) (masked_omega vm (gi_nx i))) in W.
  assert (forall k, (k < length (gi_px i))%nat -> nth k (gi_px (scaled scale i)) 0 = nth k (gi_px i) 0 * scale) as Nk.
  { intros k Hk. unfold scaled. cbn [gi_px]. rewrite (nth_indep _ 0 (0 * scale)) by now rewrite map_length. apply (map_nth (fun x => x * scale)). }
  assert (Z.to_nat (gi_nx i * gi_nx i) = length (gi_px i)) as Lz by now rewrite Hl, Hy.
  transitivity (Rsum (weights (scaled scale i) (masked_omega vm (gi_nx i))) <> 0).
  { destruct (Req_dec (Rsum (weights (scaled scale i) (masked_omega vm (gi_nx i)))) 0) as [Z|Z].
    - rewrite Z. unfold Reqb. destruct (Req_EM_T 0 0); [|lra]. cbn [snd]. split; [discriminate|lra].
    - rewrite Reqb_false by exact Z. cbn [snd]. tauto. }
  rewrite W. unfold scaled at 1. cbn [gi_px]. rewrite map_length. split.
  - intros (k & Hk & X & Y). exists k. rewrite Nk in X by exact Hk. rewrite (masked_nth vm _ k (V3 0 0 0)) in Y by (auto; lia).
    destruct (in_view vm 0 _); [auto|lra].
  - intros (k & Hk & X & V & Y). exists k. rewrite Nk by exact Hk. rewrite (masked_nth vm _ k (V3 0 0 0)), V by (auto; lia). auto.
Qed.
Lemma accepted scale vm i : vm_aspect vm = 1%Z -> square_img i -> snd (set_lum scale (gss_new vm) i) = None ->
  exists e, set_lum scale (gss_new vm) i = (loaded vm (gi_nx i) (scaled scale i) (Some e), None) /\ emin <= e <= emax /\
    e = (let w := weights (scaled scale i) (masked_omega vm (gi_nx i)) in
         Rsumf (fun p => fst p * snd p) (combine (map (sigma_of vm) (pixelrays vm (gi_nx i))) w) / Rsum w).
Proof.
  intros A Hi. pose proof Hi as (Hp & Hy & Hl). rewrite (set_lum_eq scale vm i A Hi). cbv zeta.
  set (w := weights (scaled scale i) (masked_omega vm (gi_nx i))).
  destruct (Req_dec (Rsum w) 0) as [Z|Z].
  { rewrite Z. unfold Reqb. destruct (Req_EM_T 0 0); [|lra]. discriminate. }
  rewrite Reqb_false by exact Z. intros _. eexists. split; [reflexivity|]. split; [|reflexivity].
  pose proof (weights_nonneg (scaled scale i) _ (masked_nonneg vm (gi_nx i))) as Wn. fold w in Wn. pose proof (Rsum_nonneg w Wn).
  apply average_range; auto; [| |lra].
  - unfold w, weights. rewrite map_length, rays_length by auto. rewrite map_length, combine_length, masked_length by (auto; lia).
    unfold scaled. cbn [gi_px]. rewrite map_length, Hl, Hy, to_nat_sq by lia. lia.
  - apply Forall_map, Forall_forall. intros v _. apply ecc_scale_range.
Qed.

(** the illuminance *)
Lemma eye_illuminance_eq vm i r : vm_aspect vm = 1%Z -> square_img i -> gi_nx i = r ->
  eye_illuminance (map (in_view vm 0) (pixelrays vm r)) (map (cos_theta vm) (pixelrays vm r)) (gi_px i) (masked_omega vm r) = seen_illuminance vm i.
Proof.
  intros A (Hp & Hy & Hl) E. unfold eye_illuminance, seen_illuminance, masked_omega. rewrite E.
  assert (length (pixelrays vm r) = length (gi_px i)) as L1 by (rewrite rays_length, Hl, Hy, E, to_nat_sq by (auto; lia); reflexivity).
  assert (length (pixel_omegas vm r) = length (gi_px i)) as L2 by (rewrite omegas_length, Hl, Hy, E, to_nat_sq by (auto; lia); reflexivity).
  revert L1 L2. generalize (pixelrays vm r) (pixel_omegas vm r) (gi_px i). clear.
  induction l as [|v l IH]; intros [|w om] [|x px] L1 L2; try discriminate; [reflexivity|].
  cbn [map combine select fst snd]. unfold Rsumf in *. specialize (IH om px ltac:(cbn in L1; lia) ltac:(cbn in L2; lia)).
  destruct (in_view vm 0 v) eqn:V; cbn [select combine map Rsum fold_right fst snd].
  - rewrite V. unfold cos_theta at 1. unfold Rsum in IH. rewrite IH. reflexivity.
  - rewrite V, Rplus_0_l. exact IH.
Qed.
Lemma seen_nonneg vm i : Forall (fun x => 0 <= x) (gi_px i) -> 0 <= seen_illuminance vm i.
Proof.
  intros H. unfold seen_illuminance. apply Rsumf_nonneg. intros ((v & w) & l) Hin.
  pose proof (in_combine_r _ _ _ _ Hin) as Hl. apply in_combine_l in Hin. apply in_combine_r in Hin.
  unfold pixel_omegas in Hin. apply in_map_iff in Hin. destruct Hin as (p & <- & _).
  rewrite Forall_forall in H. apply H in Hl. destruct (in_view vm 0 v); [|lra].
  apply Rmult_le_pos; [|apply omega_nonneg]. apply Rmult_le_pos; [apply Rmax_l|exact Hl].
Qed.

Definition illum_of (par : gpar) (vm : viewmapper) (i : gimg) (illum : option R) : R :=
  match illum with Some e => e | None => seen_illuminance vm (scaled (g_scale par) i) end.

(** every image that is accepted gets a score, between 0 and a multiple of the fourth root of the solid angle *)
Lemma process_ok fl par vm i illum : filters_ok fl -> vm_aspect vm = 1%Z -> square_img i ->
  0 <= g_scale par -> Forall (fun x => 0 <= x) (gi_px i) -> snd (set_lum (g_scale par) (gss_new vm) i) = None ->
  g_f par <> 0 -> 10 <= g_age par <= 100 -> 0 < illum_of par vm i illum ->
  (g_psf par = true -> forall pupd, 1.1 < pupd <= 8 -> psf_ok par (IZR (gi_nx i) / (60 * vm_viewangle vm)) pupd) ->
  exists s, process_gss fl par (gss_new vm) i illum = Ok s /\ 0 <= s <= (if g_raw par then 1 else 33.5) * pow0 (seen_omega vm (gi_nx i)) (1 / 4).
Proof.
  intros F A Hi Hs Hx Hok Hf Ha He Hpsf. pose proof Hi as (Hp & Hy & Hl).
  destruct (accepted _ vm i A Hi Hok) as (e & E & Re & _). unfold process_gss. rewrite E. unfold compute. cbn [loaded gs_lum gs_omega gs_mask gs_ctheta gs_pparcmin gs_sigma gs_ecc].
  fold (masked_omega vm (gi_nx i)).
  assert (match illum with Some x => x | None => eye_illuminance (map (in_view vm 0) (pixelrays vm (gi_nx i))) (map (cos_theta vm) (pixelrays vm (gi_nx i))) (gi_px (scaled (g_scale par) i)) (masked_omega vm (gi_nx i)) end = illum_of par vm i illum) as ->.
  { unfold illum_of. destruct illum; [reflexivity|]. apply eye_illuminance_eq; auto. now apply scaled_square. }
  set (ev := illum_of par vm i illum) in *. clearbody ev. cbv zeta.
  destruct (pupil_spec (g_age par) ev Ha ltac:(lra)) as (pd & -> & Bp). cbn [bind].
  assert (0 < PI * square (pd / 2)) as PA by (apply Rmult_lt_0_compat; [apply PI_RGT_0|unfold square; nra]).
  set (pupa := PI * square (pd / 2)) in *. clearbody pupa.
  assert (0 < retinal_irradiance (g_f par) (ev / PI) pupa) as G.
  { unfold retinal_irradiance. assert (0 < square (g_f par)) by (unfold square; nra). apply Rmult_lt_0_compat; apply Rdiv_lt_0_compat; auto. apply PI_RGT_0. }
  destruct (glare_ok fl par (IZR (gi_nx i) / (60 * vm_viewangle vm)) (map (in_view vm 0) (pixelrays vm (gi_nx i))) (masked_omega vm (gi_nx i)) (map (sigma_of vm) (pixelrays vm (gi_nx i)))
     (gi_px (scaled (g_scale par) i)) (retinal_irradiance (g_f par) (ev / PI) pupa) pupa pd F) as (r_g & Er & Lr & Br).
  - unfold scaled. cbn [gi_px]. rewrite !map_length, rays_length, Hl, Hy, to_nat_sq by (auto; lia). reflexivity.
  - unfold scaled. cbn [gi_px]. rewrite map_length, masked_length, Hl, Hy by (auto; lia). reflexivity.
  - unfold scaled. cbn [gi_px]. rewrite !map_length, rays_length, Hl, Hy, to_nat_sq by (auto; lia). reflexivity.
  - unfold scaled. cbn [gi_px]. apply Forall_map. eapply Forall_impl; [|exact Hx]. cbv beta. intros x Hx0. now apply Rmult_le_pos.
  - apply masked_nonneg.
  - exact Hf.
  - lra.
  - intros Q. now apply Hpsf.
  - intros _. exact G.
  - rewrite Er. cbn [bind]. eexists. split; [reflexivity|]. unfold gss.
    pose proof (gss_raw_nonneg r_g (masked_omega vm (gi_nx i))) as N.
    pose proof (gss_raw_le r_g _ (masked_nonneg vm (gi_nx i)) Br) as M. rewrite masked_sum in M.
    set (g := gss_raw _ _) in *. set (b := pow0 _ _) in *. clearbody g b. destruct (g_raw par); [lra|].
    pose proof (weight_range e Re) as W. set (w := weight e) in *. clearbody w. split; [apply Rmult_le_pos; lra|]. 
    apply Rle_trans with (b * w); [apply Rmult_le_compat_r; lra|]. rewrite (Rmult_comm b). apply Rmult_le_compat_r; lra.
Qed.

(** * uniform images *)
Lemma gss_uniform (p : R * R) : forall (f : vec3 -> bool) l om, length l = length om ->
  gss_raw (map (fun v => if f v then p else (0, 0)) l) (map (fun q => if f (fst q) : bool then snd q else 0) (combine l om)) =
  pow0 ((fst p ^ 4 + snd p ^ 4) * Rsumf (fun q => if f (fst q) : bool then snd q else 0) (combine l om)) (1 / 4).
Proof.
  intros f l om L. unfold gss_raw. f_equal. fold (energy4 (map (fun v => if f v then p else (0, 0)) l) (map (fun q : vec3 * R => if f (fst q) then snd q else 0) (combine l om))).
  revert om L. induction l as [|v l IH]; intros [|w om] L; try discriminate.
  - unfold energy4, Rsumf. cbn. ring.
  - cbn [map combine]. rewrite energy4_cons, IH by (cbn in L; lia). unfold Rsumf. cbn [map Rsum fold_right fst snd]. unfold Rsum. destruct (f v); cbn [fst snd]; ring.
Qed.
Lemma Rsumf_scal_combine c : forall (s w : list R), Rsumf (fun p => fst p * snd p) (combine s (map (fun x => c * x) w)) = c * Rsumf (fun p => fst p * snd p) (combine s w).
Proof.
  induction s as [|x s IH]; intros [|y w]; unfold Rsumf in *; cbn [combine map Rsum fold_right fst snd]; try ring.
  unfold Rsum in IH. rewrite IH. ring.
Qed.
Lemma Rsum_scal c w : Rsum (map (fun x => c * x) w) = c * Rsum w.
Proof. induction w as [|x w IH]; cbn [map Rsum fold_right]; [ring|]. unfold Rsum in *. rewrite IH. ring. Qed.
Definition uniform (i : gimg) (l : R) : Prop := gi_px i = map (fun _ => l) (gi_px i).
Lemma weights_uniform i om l : length (gi_px i) = length om -> uniform i l -> weights i om = map (fun x => l ^ 4 * x) om.
Proof.
  unfold weights, uniform. intros L U. rewrite U. revert L. generalize (gi_px i). clear U. intros px. revert om.
  induction px as [|x px IH]; intros [|w om] L; try discriminate; cbn [map combine fst snd]; [reflexivity|]. f_equal. apply IH. cbn in L; lia.
Qed.

Lemma process_uniform fl par vm i l ev pupa pupd v : filters_ok fl -> vm_aspect vm = 1%Z -> square_img i -> uniform i l -> 0 < vm_viewangle vm ->
  0 < l * g_scale par -> seen_omega vm (gi_nx i) <> 0 -> g_f par <> 0 ->
  hemi_angle (g_fwidth par) -> 0.004 <= g_fwidth par ->
  pupil (g_age par) ev = Ok (pupa, pupd) -> 0 < ev -> 0 < pupa ->
  let e_r := retinal_irradiance (g_f par) (l * g_scale par) pupa in
  let e_g := retinal_irradiance (g_f par) (ev / PI) pupa in
  cone_response e_r (local_eye_adaptation e_r e_g) = Ok v ->
  let p := normalized_field_response true (v * (1 - fr_k)) in
  process_gss fl par (gss_new vm) i (Some ev) =
  Ok (pow0 ((fst p ^ 4 + snd p ^ 4) * seen_omega vm (gi_nx i)) (1 / 4) * (if g_raw par then 1 else weight (mean_ecc vm (gi_nx i)))).
Proof.
  intros F A Hi U Hva Hl0 Hom Hf Hw1 Hw2 Hpup He HA e_r e_g Hc p. pose proof Hi as (Hp & Hy & Hl).
  set (n := gi_nx i) in *. set (om := masked_omega vm n).
  assert (length (gi_px (scaled (g_scale par) i)) = length om) as L.
  { unfold scaled, om. cbn [gi_px]. rewrite map_length, masked_length, Hl, Hy by (auto; lia). reflexivity. }
  assert (length (pixelrays vm n) = length om) as Lr by (unfold om; rewrite rays_length, masked_length, to_nat_sq by (auto; lia); reflexivity).
  assert (uniform (scaled (g_scale par) i) (l * g_scale par)) as U'.
  { unfold uniform, scaled in *. cbn [gi_px]. rewrite U, !map_map. reflexivity. }
  pose proof (weights_uniform _ om _ L U') as W. set (lum := l * g_scale par) in *.
  assert (0 < lum ^ 4) as L4 by (apply pow_lt; exact Hl0).
  assert (Rsum om <> 0) as So by exact Hom.
  unfold process_gss. rewrite (set_lum_eq _ vm i A Hi). cbv zeta. fold n. fold om. rewrite W, Rsum_scal, Rsumf_scal_combine.
  rewrite Reqb_false by (apply Rmult_integral_contrapositive; lra).
  replace (lum ^ 4 * Rsumf (fun q : R * R => fst q * snd q) (combine (map (sigma_of vm) (pixelrays vm n)) om) / (lum ^ 4 * Rsum om)) with (mean_ecc vm n).
  2:{ unfold mean_ecc. fold om. rewrite <- masked_sum. fold om. set (x := Rsumf _ _). set (y := Rsum om) in *. set (z := lum ^ 4) in *. field. lra. }
  unfold compute. cbn [loaded gs_lum gs_omega gs_mask gs_ctheta gs_pparcmin gs_sigma gs_ecc]. cbv zeta. fold (masked_omega vm n). fold om. rewrite Hpup. cbn [bind]. fold e_g.
  assert (0 < IZR n / (60 * vm_viewangle vm)) as Hppa by (apply Rdiv_lt_0_compat; [now apply IZR_lt|lra]).
  set (ppa := IZR n / (60 * vm_viewangle vm)) in *. clearbody ppa.
  set (px := gi_px (scaled (g_scale par) i)) in *.
  assert (0 < square (g_f par)) as Sf by (unfold square; nra).
  assert (0 < e_r) as Her by (unfold e_r, retinal_irradiance; apply Rmult_lt_0_compat; [apply Rdiv_lt_0_compat; assumption|exact Hl0]).
  assert (0 < e_g) as Heg by (unfold e_g, retinal_irradiance; apply Rmult_lt_0_compat; apply Rdiv_lt_0_compat; auto; apply PI_RGT_0).
  assert (glare_response fl par ppa (map (in_view vm 0) (pixelrays vm n)) om (map (sigma_of vm) (pixelrays vm n)) px e_g pupa pupd
          = Ok (map (fun u => if in_view vm 0 u then p else (0, 0)) (pixelrays vm n))) as ->.
  { unfold glare_response. cbv zeta.
    assert (map (fun z => retinal_irradiance (g_f par) z pupa) px = map (fun _ => e_r) px) as ->.
    { unfold uniform in U'. fold px in U'. rewrite U', !map_map. reflexivity. }
    assert (Rsum (select (map (in_view vm 0) (pixelrays vm n)) om) <> 0) as Ssel.
    { replace (Rsum (select (map (in_view vm 0) (pixelrays vm n)) om)) with (Rsum om); [exact So|].
      unfold om, masked_omega. assert (length (pixelrays vm n) = length (pixel_omegas vm n)) as Lq by (rewrite rays_length, omegas_length; auto).
      revert Lq. generalize (pixelrays vm n) (pixel_omegas vm n). clear. induction l as [|v l IH]; intros [|w om] Lq; try discriminate; [reflexivity|].
      cbn [map combine fst snd select]. destruct (in_view vm 0 v) eqn:V; cbn [Rsum fold_right]; [unfold Rsum in IH; rewrite IH by (cbn in Lq; lia); reflexivity|].
      rewrite Rplus_0_l. apply IH. cbn in Lq; lia. }
    assert ((if g_psf par then apply_psf (flt_conv fl) par ppa (map (in_view vm 0) (pixelrays vm n)) om (map (fun _ : R => e_r) px) pupd else Ok (map (fun _ : R => e_r) px)) = Ok (map (fun _ : R => e_r) px)) as ->.
    { destruct (g_psf par); [|reflexivity]. now apply psf_uniform. }
    cbn [bind].
    assert ((if g_directmove par then apply_eye_movement_2 (flt_gauss fl) (g_f par) ppa (map (fun _ : R => e_r) px) e_g else Ok (map (fun _ : R => e_r) px)) = Ok (map (fun _ : R => e_r) px)) as ->.
    { destruct (g_directmove par); [|reflexivity]. apply move2_uniform; auto. now apply Rmult_lt_0_compat. }
    cbn [bind].
    assert ((if g_adaptmove par then apply_eye_movement_1 (flt_gauss fl) (flt_gauss_trunc fl) ppa (map (fun _ : R => e_r) px) else map (fun _ : R => e_r) px) = map (fun _ : R => e_r) px) as ->.
    { destruct (g_adaptmove par); [|reflexivity]. now apply move1_uniform. }
    rewrite map_map. rewrite combine_map2.
    rewrite (all_ok_const (fun q => cone_response (fst q) (snd q)) v _ px).
    2:{ apply Forall_map, Forall_forall. intros q _. cbn [fst snd]. exact Hc. }
    2:{ rewrite map_length, combine_length. lia. }
    cbn [bind]. f_equal. rewrite field_uniform; auto.
    2:{ rewrite map_length. lia. }
    2:{ apply Forall_map, Forall_forall. intros u _. pose proof (ecc_scale_range (xyz2vxy vm u)) as B. fold (sigma_of vm u) in B. unfold emin, emax in B. lra. }
    assert (length (pixelrays vm n) = length px) as Lq by lia. revert Lq. generalize (pixelrays vm n) px. clear. fold p.
    induction l as [|u l IH]; intros [|x px] Lq; try discriminate; [reflexivity|]. cbn [map combine fst snd]. f_equal. apply IH. cbn in Lq; lia. }
  cbn [bind]. f_equal. unfold gss. unfold om, masked_omega. rewrite (gss_uniform p (in_view vm 0)) by (rewrite rays_length, omegas_length; auto).
  fold (seen_omega vm n). destruct (g_raw par); [ring|reflexivity].
Qed.
