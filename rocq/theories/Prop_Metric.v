(** Properties of the metric sets (evaluate/basemetricset.py, metricset.py, colormetricset.py, positionindex.py) *)
From Coq Require Import String Lra Lia.
From Verif Require Import Base BaseX M_Translate S_Translate M_Mapper S_Mapper M_Io M_Metric M_Cache S_Metric S_Safe S_Cache.
From Verif Require Import L_Base L_Angles L_Mapper L_Pidx L_Metric L_Metric2 L_Metric3 L_Metric4 L_Metric5 L_Cache L_Cache2 L_Safe L_Construct L_Construct2.
Import ListNotations.
Local Open Scope R_scope.

(** C45: what safe2sum promises. Missing in the _partial theorems: sets with bright rays at the edge of the view (their
    treatment depends on the average luminance of the whole set) and omega_as_view_area=False (omegas are rescaled) *)
Theorem C45_illum_rays_partial : sums_over_rays any_options (fun m => Fin (illum m)).
Proof. exact illum_sum_rays. Qed.
Theorem C45_pwsl2_rays_partial : sums_over_rays fixed_threshold (fun m => Fin (pwsl2 m)).
Proof. exact pwsl2_sum_rays. Qed.
Theorem C45_srcillum_rays_partial : sums_over_rays fixed_threshold (fun m => Fin (srcillum m)).
Proof. exact srcillum_sum_rays. Qed.
Theorem C45_irradiance_rays_partial : forall fuel o vm vl a b m ma mb om oa ob j, o_as_area o = true ->
  no_edge_rays vm (color_args vl (a ++ b)) ->
  construct_color fuel o vm vl (a ++ b) = Some (m, om) -> construct_color fuel o vm vl a = Some (ma, oa) ->
  construct_color fuel o vm vl b = Some (mb, ob) ->
  (j < length vl)%nat -> nth j (irradiance m) 0 = nth j (irradiance ma) 0 + nth j (irradiance mb) 0.
Proof. exact irradiance_sum. Qed.
(** of the rays a metric set holds, without restriction *)
Theorem C45_illum_held : forall m a b, illum (with_rays m (a ++ b)) = illum (with_rays m a) + illum (with_rays m b).
Proof. exact illum_app. Qed.
Theorem C45_illum_lum_partial : sums_over_lum any_options (fun m => Fin (illum m)).
Proof. exact illum_sum_lum. Qed.
Theorem C45_avglum_lum_partial : forall fuel o vm l m ma mb oa ob om, o_as_area o = true ->
  no_edge_rays vm (split_rays l fst) ->
  construct fuel o vm (split_rays l (fun p => fst p + snd p)) = Some (m, om) ->
  construct fuel o vm (split_rays l fst) = Some (ma, oa) ->
  construct fuel o vm (split_rays l snd) = Some (mb, ob) ->
  ms_view_area m <> 0 -> avglum m = xadd (avglum ma) (avglum mb).
Proof. exact avglum_sum_lum. Qed.
Theorem C45_linear_lum : forall m k, illum (with_rays m (scale_lum k (ms_rays m))) = k * illum m.
Proof. exact illum_scale_lum. Qed.
Theorem C45_linear_scale : forall m s, illum (with_scale m s) * ms_scale m = illum m * s.
Proof. exact illum_scale. Qed.
Theorem C45_nonneg_partial : forall fuel o d va args m om, d <> vzero -> hemi_angle va -> o_as_area o = true -> 0 <= o_scale o ->
  no_edge_rays (mk_view d va) args ->
  (forall r, In r args -> r_vec r <> vzero /\ 0 <= r_omega r /\ 0 <= r_lum r) ->
  construct fuel o (mk_view d va) args = Some (m, om) -> 0 <= illum m.
Proof. exact illum_nonneg. Qed.
(** the average luminance and the density, listed as safe to sum, do not sum over ray sets *)
Theorem C45_avglum_rays_refuted : ~ sums_over_rays any_options avglum.
Proof. exact avglum_not_rays. Qed.
Theorem C45_density_rays_refuted : ~ sums_over_rays any_options density.
Proof. exact density_not_rays. Qed.
(** and neither the density nor the source metrics sum over luminances *)
Theorem C45_density_lum_refuted : ~ sums_over_lum any_options density.
Proof. exact density_not_lum. Qed.
Theorem C45_pwsl2_lum_refuted : ~ sums_over_lum fixed_threshold (fun m => Fin (pwsl2 m)).
Proof. exact pwsl2_not_lum. Qed.
Theorem C45_srcillum_lum_refuted : ~ sums_over_lum fixed_threshold (fun m => Fin (srcillum m)).
Proof. exact srcillum_not_lum. Qed.
(** light from behind a 360 degree view counts as negative *)
Theorem C45_nonneg_360_refuted : exists o d r m om, 0 <= o_scale o /\ 0 < r_omega r /\ 0 < r_lum r /\ o_as_area o = true /\
  construct 0 o (mk_view d 360) [r] = Some (m, om) /\ illum m < 0.
Proof.
  exact (let '(ex_intro _ m (ex_intro _ om H)) := illum_negative_360 in
    ex_intro _ (opts1 2000) (ex_intro _ up3 (ex_intro _ (Ray (V3 0 0 (-1)) 1 1) (ex_intro _ m (ex_intro _ om
      (conj Rle_0_1 (conj Rlt_0_1 (conj Rlt_0_1 (conj eq_refl H))))))))).
Qed.
(** every metric the class accepts as safe to sum does sum, over rays or over light, except the density (refuted above);
    irradiance is C45_irradiance_rays_partial *)
Theorem C45_safe_partial : forall k l x, check_safe2sum k l = true -> In x l ->
  x = "density"%string \/ (k = KColor /\ x = "irradiance"%string) \/
  exists f, metric_of k x f /\ (sums_over_rays fixed_threshold f \/ sums_over_light f).
Proof. exact safe_sums. Qed.
Theorem C45_accepted : forall k l, Forall (fun x => In x ["illum"; "avglum"]%string \/
  k <> KBase /\ In x ["pwsl2"; "srcillum"]%string \/ k = KColor /\ x = "irradiance"%string) l -> check_safe2sum k l = true.
Proof. exact safe_accepts. Qed.
Example C45_safe_nonvacuous : check_safe2sum KMetric ["illum"; "pwsl2"]%string = true /\ metric_of KMetric "pwsl2" (fun m => Fin (pwsl2 m)) /\
  check_safe2sum KMetric ["illum"; "gcr"]%string = false.
Proof. split; [reflexivity|]. split; [|reflexivity]. exists Ppwsl2. split; reflexivity. Qed.
Example C45_nonvacuous : any_options (opts1 2000) /\ fixed_threshold (opts1 2000) /\ o_as_area (opts1 2000) = true /\
  hemi_angle 180 /\ no_edge_rays (mk_view up3 180) ([ray1 1] ++ [ray1 3]) /\
  (forall a, exists m om, construct 0 (opts1 2000) (mk_view up3 180) [ray1 a] = Some (m, om) /\ illum m = a).
Proof.
  assert (I : in_view (mk_view up3 180) 0 (norm up3) = true).
  { rewrite norm_up3. apply in_view_180; [apply up3_nonzero|apply up3_unit|auto|]. rewrite norm_up3, up3_unit. lra. }
  split; [exact Logic.I|]. split; [unfold fixed_threshold; cbn; lra|]. split; [reflexivity|]. split; [unfold hemi_angle; lra|].
  split; [right; intros r [<-|[<-|[]]]; left; exact I|].
  intros a. assert (E : no_edge_rays (mk_view up3 180) [ray1 a]) by (right; intros r [<-|[]]; left; exact I).
  rewrite construct_plain by auto. eexists _, _. split; [reflexivity|]. unfold illum, mset_of, seen. cbn [map ray1 r_vec r_omega r_lum filter].
  rewrite I, Bool.orb_true_r. cbn [ms_rays ms_scale opts1 o_scale]. rewrite Rsumf_1. unfold m_ctheta, vm_ctheta. cbn [ms_vm r_vec r_lum r_omega].
  rewrite mk_view_dxyz by apply up3_nonzero. rewrite norm_up3, up3_unit. unfold clip. rewrite Rmax_left, Rmin_left by lra. ring.
Qed.
Example C45_color_nonvacuous : exists m om, construct_color 0 (opts1 2000) full [1; 2; 3] ([(up3, 1, [1; 1; 1])] ++ [(up3, 2, [0; 1; 0])]) = Some (m, om).
Proof. rewrite color_plain by (reflexivity || left; apply full_aspect). eexists _, _. reflexivity. Qed.
Print Assumptions C45_safe_partial.
Print Assumptions C45_accepted.
Print Assumptions C45_illum_rays_partial.
Print Assumptions C45_pwsl2_rays_partial.
Print Assumptions C45_srcillum_rays_partial.
Print Assumptions C45_irradiance_rays_partial.
Print Assumptions C45_illum_held.
Print Assumptions C45_illum_lum_partial.
Print Assumptions C45_avglum_lum_partial.
Print Assumptions C45_linear_lum.
Print Assumptions C45_linear_scale.
Print Assumptions C45_nonneg_partial.
Print Assumptions C45_avglum_rays_refuted.
Print Assumptions C45_density_rays_refuted.
Print Assumptions C45_density_lum_refuted.
Print Assumptions C45_pwsl2_lum_refuted.
Print Assumptions C45_srcillum_lum_refuted.
Print Assumptions C45_nonneg_360_refuted.

(** C46 *)
Theorem C46_gcr_ge_1 : forall m, (forall r, In r (ms_rays m) -> 0 <= r_omega r) -> ms_view_area m = Rsumf r_omega (ms_rays m) ->
  finite (fun g => 1 <= g) (gcr m).
Proof. exact gcr_ge_1. Qed.
Theorem C46_pwgcr_ge_1 : forall m, (forall r, In r (ms_rays m) -> 0 <= r_omega r) -> finite (fun g => 1 <= g) (pwgcr m).
Proof. exact pwgcr_ge_1. Qed.
Theorem C46_loggcr_ge_0 : forall m, (forall r, In r (ms_rays m) -> 0 <= r_omega r) -> ms_view_area m = Rsumf r_omega (ms_rays m) ->
  finite (fun g => 0 <= g) (loggcr m).
Proof. exact (fun m H A => xlog10_ge (gcr m) (gcr_ge_1 m H A)). Qed.
Theorem C46_logpwgcr_ge_0 : forall m, (forall r, In r (ms_rays m) -> 0 <= r_omega r) -> finite (fun g => 0 <= g) (logpwgcr m).
Proof. exact (fun m H => xlog10_ge (pwgcr m) (pwgcr_ge_1 m H)). Qed.
Theorem C46_gcr_uniform : forall m c, (forall r, In r (ms_rays m) -> r_lum r = c) -> ms_view_area m = Rsumf r_omega (ms_rays m) ->
  ms_view_area m <> 0 -> gcr m = Fin 1.
Proof. exact gcr_uniform. Qed.
Theorem C46_pwgcr_uniform : forall m c, (forall r, In r (ms_rays m) -> r_lum r = c /\ 0 < r_omega r) -> ms_rays m <> [] -> pwgcr m = Fin 1.
Proof. exact pwgcr_uniform. Qed.
Theorem C46_gcr_lum : forall m k, 0 < k -> gcr (with_rays m (scale_lum k (ms_rays m))) = gcr m.
Proof. exact gcr_lum. Qed.
Theorem C46_gcr_scale : forall m k, 0 < k -> gcr (with_scale m (k * ms_scale m)) = gcr m.
Proof. exact gcr_scale. Qed.
Theorem C46_pwgcr_lum : forall m k, 0 < k -> pwgcr (with_rays m (scale_lum k (ms_rays m))) = pwgcr m.
Proof. exact pwgcr_lum. Qed.
Theorem C46_pwgcr_scale : forall m k, 0 < k -> pwgcr (with_scale m (k * ms_scale m)) = pwgcr m.
Proof. exact pwgcr_scale. Qed.
(** a set with a contrast: two rays of luminance 1 and 3 *)
Example C46_nonvacuous : exists m om, construct 0 (opts1 2000) full [ray1 1; ray1 3] = Some (m, om) /\
  (forall r, In r (ms_rays m) -> 0 < r_omega r) /\ ms_view_area m = Rsumf r_omega (ms_rays m) /\ gcr m = Fin 1.25.
Proof.
  rewrite full_construct by reflexivity. eexists _, _. split; [reflexivity|].
  assert (N : normed [ray1 1; ray1 3] = [ray1 1; ray1 3]) by (unfold normed; cbn [map ray1 r_vec r_omega r_lum]; rewrite norm_up3; auto).
  rewrite N. split; [intros r [<-|[<-|[]]]; cbn; lra|]. split; [reflexivity|].
  unfold gcr, avglum, mset_of. cbn [ms_rays ms_scale ms_view_area opts1 o_scale]. rewrite !Rsumf_2. cbn [ray1 r_lum r_omega].
  rewrite !xdiv_fin by lra. unfold gcr_of. cbn [xgtb xmul]. replace (Rgtb _ 0) with true by (symmetry; apply Rltb_true; lra).
  rewrite xdiv_fin by lra. f_equal. lra.
Qed.
Print Assumptions C46_gcr_ge_1.
Print Assumptions C46_pwgcr_ge_1.
Print Assumptions C46_loggcr_ge_0.
Print Assumptions C46_logpwgcr_ge_0.
Print Assumptions C46_gcr_uniform.
Print Assumptions C46_pwgcr_uniform.
Print Assumptions C46_gcr_lum.
Print Assumptions C46_gcr_scale.
Print Assumptions C46_pwgcr_lum.
Print Assumptions C46_pwgcr_scale.

(** C47 *)
Theorem C47_dgp_range : forall m, valid_omega m -> 0 < illum m -> finite (fun x => 0 < x <= 1) (dgp m).
Proof. exact dgp_range. Qed.
Theorem C47_dgp_ge_16 : forall m, valid_omega m -> 0 < illum m -> ms_lowlight m = false \/ 500 <= illum m ->
  finite (fun x => 0.16 <= x <= 1) (dgp m).
Proof. exact dgp_ge_16. Qed.
Theorem C47_lowlight : forall m, valid_omega m -> 0 < illum m ->
  exists x y, dgp (with_lowlight m true) = Fin x /\ dgp (with_lowlight m false) = Fin y /\ x <= y.
Proof. exact dgp_lowlight. Qed.
(** at equal illuminance, more glare is not less likely to disturb *)
Theorem C47_dgp_mono : forall m m', valid_omega m -> valid_omega m' -> 0 < illum m -> illum m' = illum m -> pwsl2 m <= pwsl2 m' ->
  ms_lowlight m' = ms_lowlight m -> exists x y, dgp m = Fin x /\ dgp m' = Fin y /\ x <= y.
Proof. exact dgp_mono. Qed.
(** in the dark it is nan *)
Theorem C47_dark : forall m, illum m = 0 -> pwsl2 m = 0 -> dgp m = NaN.
Proof. exact dgp_dark. Qed.
Example C47_nonvacuous : exists m om, construct 0 (opts1 2000) full [ray1 1] = Some (m, om) /\ valid_omega (with_scale m 700) /\
  illum (with_scale m 700) = 700.
Proof.
  rewrite full_construct by reflexivity. eexists _, _. split; [reflexivity|]. rewrite normed_ray1. split; [apply (lit_valid 700)|apply (lit_illum 700)].
Qed.
Print Assumptions C47_dgp_range.
Print Assumptions C47_dgp_ge_16.
Print Assumptions C47_lowlight.
Print Assumptions C47_dgp_mono.
Print Assumptions C47_dark.

(** C48: the _partial theorems need a background luminance above zero *)
Theorem C48_ugr_range_partial : forall m, valid_omega m -> 0 < backlum m -> finite (fun x => 0 <= x) (ugr m).
Proof. exact ugr_range. Qed.
Theorem C48_ugp_range_partial : forall m, valid_omega m -> 0 < backlum m -> finite (fun x => 0 < x < 1) (ugp m).
Proof. exact ugp_range. Qed.
Theorem C48_ugr_no_source_partial : forall m, sources m = [] -> backlum m <> 0 -> ugr m = Fin 0.
Proof. exact ugr_no_source. Qed.
Theorem C48_ugp_mono : forall u v, u < v -> exists x y, ugp_of (Fin u) = Fin x /\ ugp_of (Fin v) = Fin y /\ x < y.
Proof. exact ugp_mono. Qed.
(** without any light both ratings are nan; when every ray is a source the rating is infinite and the probability one *)
Theorem C48_dark_refuted : exists o vm args m om, construct 0 o vm args = Some (m, om) /\ valid_rays m /\ ugr m = NaN /\ dgp m = NaN.
Proof. exact (ex_intro _ (opts1 2000) (ex_intro _ full (ex_intro _ [ray1 0] ugr_nan_witness))). Qed.
Theorem C48_all_source_refuted : exists o vm args m om, construct 0 o vm args = Some (m, om) /\ valid_rays m /\ ugr m = PInf /\ ugp m = Fin 1.
Proof. exact (ex_intro _ (opts1 2000) (ex_intro _ full (ex_intro _ [ray1 3000] ugr_inf_witness))). Qed.
Theorem C48_all_source : forall m, 0 < pwsl2 m -> backlum m = 0 -> ugr m = PInf /\ ugp m = Fin 1.
Proof. exact ugr_all_source. Qed.
Example C48_nonvacuous : valid_omega (lit 1) /\ 0 < backlum (lit 1) /\ sources (lit 1) = [].
Proof.
  split; [apply lit_valid|]. rewrite lit_backlum by lra. split; [|apply lit_background; lra].
  apply Rmult_lt_0_compat; [lra|]. apply Rinv_0_lt_compat, PI_RGT_0.
Qed.
Print Assumptions C48_ugr_range_partial.
Print Assumptions C48_ugp_range_partial.
Print Assumptions C48_ugr_no_source_partial.
Print Assumptions C48_ugp_mono.
Print Assumptions C48_dark_refuted.
Print Assumptions C48_all_source_refuted.
Print Assumptions C48_all_source.

(** C49 *)
Theorem C49_split : forall m t, threshold m = Fin t ->
  splits (fun r => t < r_lum r * ms_scale m) (ms_rays m) (sources m) (background m).
Proof. exact sources_split. Qed.
Theorem C49_area : forall m, srcarea m + Rsumf r_omega (background m) = Rsumf r_omega (ms_rays m).
Proof. exact source_area. Qed.
Theorem C49_illum : forall m, srcillum m + Rsumf (fun r => m_ctheta m r * r_lum r * r_omega r) (background m) * ms_scale m = illum m.
Proof. exact source_illum. Qed.
Theorem C49_backlum : forall m, backlum m = Rsumf (fun r => m_ctheta m r * r_lum r * r_omega r) (background m) * ms_scale m / PI.
Proof. exact backlum_background. Qed.
(** thresholds above 100 are luminances, others factors of the mean luminance of the task area *)
Theorem C49_threshold_absolute : forall m, 100 < ms_threshold m -> threshold m = Fin (ms_threshold m).
Proof. exact threshold_abs. Qed.
Theorem C49_threshold_task : forall m, ms_threshold m <= 100 -> Rsumf r_omega (task_rays m) <> 0 ->
  threshold m = Fin (Rsumf (fun r => r_lum r * r_omega r) (task_rays m) * ms_scale m / Rsumf r_omega (task_rays m) * ms_threshold m).
Proof. exact threshold_task. Qed.
(** with no ray in the task area nothing is a source *)
Theorem C49_no_task : forall m, ms_threshold m <= 100 -> task_rays m = [] -> sources m = [].
Proof. exact no_task_no_source. Qed.
Example C49_nonvacuous : threshold (lit 1) = Fin 2000 /\ threshold (lit 3000) = Fin 2000 /\ background (lit 1) = [ray1 1].
Proof. split; [apply lit_threshold|]. split; [apply lit_threshold|]. apply lit_background. lra. Qed.
Print Assumptions C49_split.
Print Assumptions C49_area.
Print Assumptions C49_illum.
Print Assumptions C49_backlum.
Print Assumptions C49_threshold_absolute.
Print Assumptions C49_threshold_task.
Print Assumptions C49_no_task.

(** C50 *)
Theorem C50_guth_range : forall vm v, 1 <= positions true vm v <= 16.
Proof. exact positions_range. Qed.
Theorem C50_ahead : forall g d va, regular_dir d -> positions g (mk_view d va) d = 1.
Proof. exact positions_ahead. Qed.
Theorem C50_behind : forall d va v, regular_dir d -> v <> vzero -> dot d v < 0 -> positions true (mk_view d va) v = 16.
Proof. exact positions_behind. Qed.
Theorem C50_kim_positive : forall vm v, 0 < positions false vm v.
Proof. exact positions_kim_pos. Qed.
(** the denominator of the Kim index never vanishes *)
Theorem C50_kim_defined : forall t, 0 <= t <= 180 -> 0 < - 0.000009 * (t * t * t) + 0.0013 * (t * t) + 0.0853 * t + 8.772.
Proof. exact kim_denominator. Qed.
(** the Kim index is one at the view direction but below 1/5 right above it *)
Theorem C50_kim_jump : forall t, 0 < t < PI / 180 -> pidx false (sph t (PI / 2)) (t * 180 / PI) < 1 / 5.
Proof. exact kim_near. Qed.
Example C50_nonvacuous : regular_dir (V3 0 0 1) /\ dot (V3 0 0 1) (V3 1 1 (-1)) < 0.
Proof. split; [left; cbn; lra|unfold dot; cbn; lra]. Qed.
Print Assumptions C50_guth_range.
Print Assumptions C50_ahead.
Print Assumptions C50_behind.
Print Assumptions C50_kim_positive.
Print Assumptions C50_kim_defined.
Print Assumptions C50_kim_jump.

(** C86: the index in directions at angle t from the view direction and azimuth p around it *)
Theorem C86_grows : forall d va t1 t2 p, regular_dir d -> 0 < t1 -> t1 <= t2 -> t2 < PI ->
  positions true (mk_view d va) (view2world (mk_view d va) (sph t1 p)) <=
  positions true (mk_view d va) (view2world (mk_view d va) (sph t2 p)).
Proof. exact positions_mono. Qed.
Theorem C86_mirror : forall g d va x y z, regular_dir d -> x * x + y * y + z * z = 1 ->
  positions g (mk_view d va) (view2world (mk_view d va) (V3 (- x) y z)) =
  positions g (mk_view d va) (view2world (mk_view d va) (V3 x y z)).
Proof. exact positions_mirror. Qed.
Theorem C86_length : forall g vm k v, 0 < k -> v <> vzero -> positions g vm (vscale k v) = positions g vm v.
Proof. exact positions_scale. Qed.
(** it only depends on where the direction is in the view *)
Theorem C86_view : forall g d va w, regular_dir d -> dot w w = 1 ->
  positions g (mk_view d va) (view2world (mk_view d va) w) = pidx g w (acos (vz w) * 180 / PI).
Proof. exact positions_view. Qed.
Example C86_nonvacuous : regular_dir (V3 0 1 0) /\ 0.6 * 0.6 + 0 * 0 + 0.8 * 0.8 = 1.
Proof.
  split; [|lra]. right. split; [intros [=E]; lra|]. unfold vnorm, dot. cbn [vx vy vz].
  replace (0 * 0 + 1 * 1 + 0 * 0) with 1 by ring. rewrite sqrt_1, Rabs_R0, Rabs_R1, Rmax_right by lra. split; [lra|].
  replace (0 / 1) with 0 by field. rewrite acos_0. unfold cap_bot. pose proof PI_4. pose proof PI2_1. lra.
Qed.
Print Assumptions C86_grows.
Print Assumptions C86_mirror.
Print Assumptions C86_length.
Print Assumptions C86_view.

(** C51: any number of objects h 0, h 1, ...; the attributes of an object are assigned before they are read. Missing:
    assignments after reads *)
Theorem C51_history_partial : forall h es, assigned_before_read es -> history h empty_cache es = expected h es.
Proof. exact history_correct. Qed.
(** in particular any sequence of reads *)
Theorem C51_reads : forall h l, let es := map (fun ip => Read (fst ip) (snd ip)) l in history h empty_cache es = expected h es.
Proof. exact (fun h l => history_correct h _ (reads_assigned_before_read l)). Qed.
(** a value read once is returned again after any assignment to the object's attributes *)
Theorem C51_stale_refuted : exists h es, history h empty_cache es <> expected h es.
Proof. exact stale_witness. Qed.
Theorem C51_stale : forall h i p m' v, prop_value (fst (h i)) (snd (h i)) p = Ok v -> p <> Pview_area ->
  history h empty_cache [Read i p; Assign i m'; Read i p] = [Some (Ok v); Some (Ok v)].
Proof. exact stale. Qed.
(** each class remembers one object for each property it defines: the old value survives every read of objects to which
    another class provides the property *)
Theorem C51_kept : forall h i js p m' v d, prop_value (fst (h i)) (snd (h i)) p = Ok v -> provides (fst (h i)) p d ->
  (forall j q, In (j, q) js -> ~ provides (fst (h j)) p d) ->
  exists rs, history h empty_cache (Read i p :: Assign i m' :: map (fun x => Read (fst x) (snd x)) js ++ [Read i p]) =
    Some (Ok v) :: rs ++ [Some (Ok v)].
Proof. exact kept. Qed.
(** and the same read of another object that shares the definition drops it: the next read is computed anew *)
Theorem C51_dropped : forall h i j p m' v w d, i <> j -> reads_data p ->
  prop_value (fst (h i)) (snd (h i)) p = Ok v -> prop_value (fst (h j)) (snd (h j)) p = Ok w ->
  provides (fst (h i)) p d -> provides (fst (h j)) p d ->
  history h empty_cache [Read i p; Assign i m'; Read j p; Read i p] =
    [Some (Ok v); Some (Ok w); Some (prop_value (fst (h i)) m' p)].
Proof. exact dropped. Qed.
Example C51_kept_nonvacuous : provides KMetric Pbackground KMetric /\ ~ provides KColor Pbackground KMetric /\
  reads_data Pavglum /\ provides KColor Pavglum KBase /\ provides KMetric Pavglum KBase.
Proof.
  split; [apply provides_own; cbn; tauto|]. split; [intros H; apply provides_definer in H; discriminate H|]. split; [cbn; tauto|].
  assert (B : provides KMetric Pavglum KBase).
  { apply provides_up with KBase; [cbn; intuition discriminate|reflexivity|apply provides_own; cbn; tauto]. }
  split; [|exact B]. apply provides_up with KMetric; [cbn; intuition discriminate|reflexivity|exact B].
Qed.
Example C51_nonvacuous : assigned_before_read [Assign 0 (lit 1); Assign 1 (lit 2); Read 0 Pillum; Assign 2 (lit 3); Read 1 Pugr; Read 0 Pdgp; Read 2 Pillum; Read 1 Pillum]
  /\ prop_value KMetric (lit 1) Pillum = Ok (VX (Fin 1)).
Proof.
  split; [|cbn; rewrite lit_illum; auto]. cbn. repeat split; intros m; intuition discriminate.
Qed.
Print Assumptions C51_history_partial.
Print Assumptions C51_reads.
Print Assumptions C51_stale_refuted.
Print Assumptions C51_stale.
Print Assumptions C51_kept.
Print Assumptions C51_dropped.

(** C52: [rays] are the rays in view *)
Theorem C52_corrects : forall o vm args rays mask om, o_as_area o = false -> 0 <= vm_area vm ->
  view_rays vm args = (rays, mask, om) -> (forall r, In r rays -> 0 <= r_omega r) -> (100 < length rays)%nat ->
  exists n m c k, (forall fuel, (n <= fuel)%nat -> construct fuel o vm args = Some (m, om)) /\
    ms_view_area m = vm_area vm /\ 1 <= c /\ 0 <= k /\ edge_scaled vm c k rays (ms_rays m) /\
    (Rsumf r_omega (ms_rays m) = vm_area vm \/
     (ms_rays m = rays /\ forall r, In r rays -> at_edge vm c r -> r_omega r = 0)).
Proof. exact construct_corrects. Qed.
Theorem C52_area : forall d va, 0 <= vm_area (mk_view d va).
Proof. exact vm_area_nonneg. Qed.
Theorem C52_keeps : forall fuel o vm args rays mask om, view_rays vm args = (rays, mask, om) ->
  o_as_area o = true \/ (length rays <= 100)%nat ->
  exists m, construct fuel o vm args = Some (m, om) /\ ms_rays m = rays /\ ms_view_area m = Rsumf r_omega rays.
Proof. exact construct_keeps. Qed.
Example C52_nonvacuous : exists rays mask om, view_rays full (repeat (ray1 1) 101) = (rays, mask, om) /\
  (forall r, In r rays -> 0 <= r_omega r) /\ (100 < length rays)%nat.
Proof.
  destruct (view_rays_plain full (repeat (ray1 1) 101) (full_no_edge _)) as (mask & E & _).
  eexists _, _, _. split; [exact E|]. rewrite full_seen. split.
  - intros r Hr. unfold normed in Hr. apply in_map_iff in Hr as [r0 [<- Hr]]. apply repeat_spec in Hr as ->. cbn. lra.
  - unfold normed. rewrite map_length, repeat_length. lia.
Qed.
Print Assumptions C52_corrects.
Print Assumptions C52_area.
Print Assumptions C52_keeps.

(** C53: a single bright ray of radius b at angle t overlapping the edge of a view of half angle a is replaced by a ray
    in the view, at the middle of the chord common to both discs, with the area of the overlap. Other rays: C53_short_refuted (Prop_Metric2.v)
    and C53_own_overlap_refuted *)
Theorem C53_clipped_partial : forall fuel o d va pre s post, o_as_area o = true -> d <> vzero -> hemi_angle va ->
  let vm := mk_view d va in let args := pre ++ s :: post in let v := norm (r_vec s) in
  r_vec s <> vzero -> bright_edge vm args s -> (forall r, In r (pre ++ post) -> ~ bright_edge vm args r) ->
  let a := va * PI / 360 in let b := sqrt (r_omega s / PI) in let t := angle (norm d) v in
  0 < r_omega s <= PI * (a * a) -> a - b < t < a + b -> a * a <= t * t + b * b ->
  exists w m, construct fuel o vm args = Some (m, map r_omega pre ++ lens_area a b t :: map r_omega post) /\
    ms_rays m = seen vm pre ++ Ray w (lens_area a b t) (r_lum s) :: seen vm post /\
    (regular_dir (cross v (norm d)) -> dot w w = 1 /\ angle (norm d) w = (a * a - b * b + t * t) / (2 * t)).
Proof. exact clipped_stray. Qed.
(** the caller's omega array is left alone when there is no such ray *)
Theorem C53_arguments_partial : forall fuel o vm args, o_as_area o = true -> no_edge_rays vm args ->
  exists m, construct fuel o vm args = Some (m, map r_omega args) /\ ms_rays m = seen vm args.
Proof. exact (fun fuel o vm args H E => ex_intro _ _ (conj (construct_plain fuel o vm args H E) eq_refl)). Qed.
(** and overwritten when there is *)
Theorem C53_arguments_refuted : exists o vm args m om, construct 0 o vm args = Some (m, om) /\ om <> map r_omega args.
Proof. exact (ex_intro _ (opts1 2000) (ex_intro _ tiny (ex_intro _ one_stray arguments_modified))). Qed.
(** two bright rays of the same size a, equal to the half angle of the view, at different angles t1 < t2: both get the overlap of the second *)
Theorem C53_own_overlap_refuted : exists a t1 t2 v1 v2 dark m om, 0 < a /\ a < t1 /\ t1 < t2 /\ t2 < 2 * a /\
  let vm := mk_view (V3 0 0 1) (a * 360 / PI) in let r1 := Ray v1 (PI * (a * a)) 1 in let r2 := Ray v2 (PI * (a * a)) 1 in
  angle (V3 0 0 1) v1 = t1 /\ angle (V3 0 0 1) v2 = t2 /\ bright_edge vm (r1 :: r2 :: dark) r1 /\ bright_edge vm (r1 :: r2 :: dark) r2 /\
  construct 0 (Opts true 1 true 2000 30 false) vm (r1 :: r2 :: dark) = Some (m, om) /\
  om = lens_area a a t2 :: lens_area a a t2 :: map r_omega dark /\ lens_area a a t2 < lens_area a a t1.
Proof. exact shared_overlap_general. Qed.
Example C53_nonvacuous : let s := stray_at (sqrt 2 * ta) in let pre := repeat dark 10 in
  bright_edge tiny (pre ++ s :: []) s /\ (forall r, In r (pre ++ []) -> ~ bright_edge tiny (pre ++ s :: []) r) /\ r_vec s <> vzero /\
  angle (norm up3) (norm (r_vec s)) = sqrt 2 * ta /\ 0 < r_omega s <= PI * (ta * ta) /\ sqrt (r_omega s / PI) = ta /\
  ta - ta < sqrt 2 * ta < ta + ta /\ ta * ta <= sqrt 2 * ta * (sqrt 2 * ta) + ta * ta /\ regular_dir (cross (norm (r_vec s)) (norm up3)).
Proof. exact one_stray_ok. Qed.
Print Assumptions C53_clipped_partial.
Print Assumptions C53_arguments_partial.
Print Assumptions C53_arguments_refuted.
Print Assumptions C53_own_overlap_refuted.

(** C54 *)
Theorem C54_check_metrics : forall k names,
  exists good bad, check_metrics k names false = Ok good /\ splits (fun n => In n (allmetrics k)) names good bad.
Proof. exact check_metrics_exact. Qed.
Theorem C54_check_raises : forall k names,
  ((forall n, In n names -> In n (allmetrics k)) -> check_metrics k names true = Ok names) /\
  ((exists n, In n names /\ ~ In n (allmetrics k)) -> check_metrics k names true = Raise AttributeError).
Proof. exact check_metrics_raise. Qed.
Theorem C54_call_base : forall m names, ms_rays m <> [] -> (forall n, In n names -> In n (allmetrics KBase)) ->
  exists xs, call KBase m names = Ok xs /\ Forall2 (one_value KBase m) names xs.
Proof. exact call_base. Qed.
Theorem C54_call_metric : forall m names, (forall n, In n names -> In n (allmetrics KMetric)) ->
  exists xs, call KMetric m names = Ok xs /\ Forall2 (one_value KMetric m) names xs.
Proof. exact call_metric. Qed.
Theorem C54_call_unknown : forall k m names, (exists n, In n names /\ ~ In n (allmetrics k)) -> call k m names = Raise AttributeError.
Proof. exact call_unknown. Qed.
(** a colour metric set gives one value for every metric but irradiance, which has one per channel *)
Theorem C54_call_color : forall m names, (forall n, In n names -> In n (allmetrics KColor)) ->
  exists xss, call KColor m names = Ok (concat xss) /\ Forall2 (color_values m) names xss.
Proof. exact call_color. Qed.
(** the maximum luminance of a BaseMetricSet without rays in view raises *)
Theorem C54_empty_maxlum_refuted : forall m, ms_rays m = [] -> call KBase m ["maxlum"%string] = Raise ValueError.
Proof. exact base_empty_maxlum. Qed.
Example C54_nonvacuous : (forall n, In n ["illum"; "dgp"; "illum"]%string -> In n (allmetrics KMetric)) /\
  ~ In "foo"%string (allmetrics KMetric) /\ (forall n, In n ["irradiance"; "ugr"]%string -> In n (allmetrics KColor)) /\ ms_rays (lit 1) <> [].
Proof. split; [|split; [|split]]; cbn; intuition (subst; try discriminate; auto 30). Qed.
Print Assumptions C54_check_metrics.
Print Assumptions C54_check_raises.
Print Assumptions C54_call_base.
Print Assumptions C54_call_metric.
Print Assumptions C54_call_unknown.
Print Assumptions C54_call_color.
Print Assumptions C54_empty_maxlum_refuted.

(** C55 *)
Theorem C55_illum : forall fuel o vm vl args m om, construct_color fuel o vm vl args = Some (m, om) ->
  illum m = Rsumf (fun j => nth j vl 0 * nth j (irradiance m) 0) (seq 0 (length vl)).
Proof. exact color_illum. Qed.
Theorem C55_rows : forall fuel o vm vl args m om, construct_color fuel o vm vl args = Some (m, om) ->
  map r_lum (ms_rays m) = map (rgb2rad vl) (ms_rgb m) /\ ms_channels m = length vl /\
  exists mask, length mask = length args /\ ms_rgb m = select mask (map snd args) /\
    map r_lum (ms_rays m) = select mask (map (fun a => rgb2rad vl (snd a)) args).
Proof. exact color_rows. Qed.
Theorem C55_plain : forall fuel o vm vl args, o_as_area o = true -> no_edge_rays vm (color_args vl args) ->
  construct_color fuel o vm vl args = Some
   (MS vm (o_guth o) (Rsumf r_omega (map (color_ray vl) (color_seen vm vl args))) (map (color_ray vl) (color_seen vm vl args)) (o_scale o) (o_threshold o)
       (o_tradius o) (o_lowlight o) (map snd (color_seen vm vl args)) (length vl), map (fun a => snd (fst a)) args).
Proof. exact color_plain. Qed.
Example C55_nonvacuous : exists m om, construct_color 0 (opts1 2000) full [1; 2; 3] [(up3, 1, [1; 1; 1]); (up3, 2, [0; 1; 0])] = Some (m, om).
Proof. rewrite color_plain by (reflexivity || left; apply full_aspect). eexists _, _. reflexivity. Qed.
Print Assumptions C55_illum.
Print Assumptions C55_rows.
Print Assumptions C55_plain.

(** C87: the published formulas *)
Theorem C87_dgp : forall m t src bg, valid_omega m -> 0 < illum m -> ms_lowlight m = false -> threshold m = Fin t ->
  splits (fun r => t < r_lum r * ms_scale m) (ms_rays m) src bg ->
  dgp m = Fin (Rmin 1 (DGP (illum m) (map (glare_source m) src))).
Proof. exact dgp_formula. Qed.
Theorem C87_ugr : forall m t src bg, 0 < backlum m -> threshold m = Fin t ->
  splits (fun r => t < r_lum r * ms_scale m) (ms_rays m) src bg -> 0 < weighted (map (glare_source m) src) ->
  ugr m = Fin (Rmax 0 (UGR (backlum m) (map (glare_source m) src))).
Proof. exact ugr_formula. Qed.
Theorem C87_illum : forall d va m, d <> vzero -> ms_vm m = mk_view d va -> (forall r, In r (ms_rays m) -> dot (r_vec r) (r_vec r) = 1) ->
  illum m = Rsumf (fun r => r_lum r * ms_scale m * r_omega r * cos (angle (norm d) (r_vec r))) (ms_rays m).
Proof. exact illum_formula. Qed.
Example C87_nonvacuous : let m := glaring in valid_omega m /\ 0 < illum m /\ 0 < backlum m /\ ms_lowlight m = false /\ threshold m = Fin 2000 /\
  splits (fun r => 2000 < r_lum r * ms_scale m) (ms_rays m) [ray1 3000] [ray1 1] /\ 0 < weighted (map (glare_source m) [ray1 3000]).
Proof. exact glaring_ok. Qed.
Print Assumptions C87_dgp.
Print Assumptions C87_ugr.
Print Assumptions C87_illum.
