From Coq Require Import Lra Lia Psatz String.
From Verif Require Import Base BaseX L_Base M_Translate S_Translate M_Mapper S_Mapper M_Io M_Metric M_Cache S_Metric L_Angles L_Mapper L_Pidx L_Metric L_Metric2 L_Metric3 L_Metric4 L_Cache L_Construct L_Construct2.
Import ListNotations.
Local Open Scope R_scope.

(** ** formulas *)
Lemma splits_filter {A} (P : A -> Prop) l x y x' y' : splits P l x y -> splits P l x' y' -> x = x' /\ y = y'.
Proof.
  intros H; revert x' y'; induction H as [|a l x y HP H IH|a l x y HP H IH]; intros x' y' H'; inversion H'; subst; auto; try contradiction;
    match goal with G : splits P l _ _ |- _ => destruct (IH _ _ G) as [-> ->] end; auto.
Qed.
Lemma pwsl2_weighted m t src bg : threshold m = Fin t -> splits (fun r => t < r_lum r * ms_scale m) (ms_rays m) src bg ->
  pwsl2 m = weighted (map (glare_source m) src).
Proof.
  intros T S. destruct (splits_filter _ _ _ _ _ _ S (sources_split m t T)) as [-> _].
  unfold pwsl2, weighted, Rsumf. rewrite map_map. f_equal. apply map_ext. intros r. unfold glare_source, square.
  f_equal. ring.
Qed.
Lemma dgp_formula m t src bg : valid_omega m -> 0 < illum m -> ms_lowlight m = false -> threshold m = Fin t ->
  splits (fun r => t < r_lum r * ms_scale m) (ms_rays m) src bg ->
  dgp m = Fin (Rmin 1 (DGP (illum m) (map (glare_source m) src))).
Proof.
  intros V I L T S. destruct (dgp_fin m V I) as [-> _]. unfold lowlight_factor. rewrite L. cbn [andb].
  unfold dgp_sum, DGP. rewrite <- (pwsl2_weighted m t src bg T S). rewrite Rmult_1_l, Rmin_comm. auto.
Qed.
Lemma ugr_formula m t src bg : 0 < backlum m -> threshold m = Fin t ->
  splits (fun r => t < r_lum r * ms_scale m) (ms_rays m) src bg -> 0 < weighted (map (glare_source m) src) ->
  ugr m = Fin (Rmax 0 (UGR (backlum m) (map (glare_source m) src))).
Proof.
  intros B T S W. unfold ugr, UGR. rewrite (pwsl2_weighted m t src bg T S). set (w := weighted _) in *.
  rewrite xdiv_fin by lra. assert (0 < 0.25 * w / backlum m) by (apply Rmult_lt_0_compat; [lra|apply Rinv_0_lt_compat; auto]).
  unfold xlog10. replace (Rltb 0 (0.25 * w / backlum m)) with true by (symmetry; apply Rltb_true; auto).
  replace (0.25 / backlum m * w) with (0.25 * w / backlum m) by (field; lra).
  unfold xmul. rewrite xmax_fin. auto.
Qed.
Lemma illum_formula d va m : d <> vzero -> ms_vm m = mk_view d va -> (forall r, In r (ms_rays m) -> dot (r_vec r) (r_vec r) = 1) ->
  illum m = Rsumf (fun r => r_lum r * ms_scale m * r_omega r * cos (angle (norm d) (r_vec r))) (ms_rays m).
Proof.
  intros Hd Hv Hr. unfold illum. rewrite Rmult_comm, <- Rsumf_scal. unfold Rsumf. f_equal. apply map_ext_in. intros r Hin.
  unfold m_ctheta, vm_ctheta. rewrite Hv, mk_view_dxyz by auto.
  pose proof (dot_unit_bound (norm d) (r_vec r) (norm_dot d Hd) (Hr r Hin)) as B.
  unfold angle. rewrite cos_acos by auto. unfold clip. rewrite Rmax_left, Rmin_left by lra. ring.
Qed.
Lemma illum_app m a b : illum (with_rays m (a ++ b)) = illum (with_rays m a) + illum (with_rays m b).
Proof. unfold illum, with_rays, m_ctheta. cbn [ms_rays ms_scale ms_vm]. rewrite Rsumf_app. ring. Qed.
Lemma lit_valid s : valid_omega (lit s).
Proof. intros r [<-|[]]. cbn. lra. Qed.
Lemma lit_threshold s : threshold (lit s) = Fin 2000.
Proof. apply threshold_fixed. cbn. lra. Qed.
Lemma lit_background s : s <= 2000 -> sources (lit s) = [] /\ background (lit s) = [ray1 1].
Proof.
  intros H. assert (E : is_source (lit s) (ray1 1) = false).
  { unfold is_source. rewrite lit_threshold. cbn. apply Rltb_false. lra. }
  unfold sources, background. change (ms_rays (lit s)) with [ray1 1]. cbn [filter]. rewrite E. auto.
Qed.
Lemma lit_backlum s : s <= 2000 -> backlum (lit s) = s / PI.
Proof.
  intros H. destruct (lit_background s H) as [E _]. unfold backlum, srcillum. rewrite E, lit_illum. unfold Rsumf. cbn. f_equal. ring.
Qed.
Definition glaring : mset := mset_of (opts1 2000) full [ray1 1; ray1 3000].
Lemma glaring_ok : let m := glaring in valid_omega m /\ 0 < illum m /\ 0 < backlum m /\ ms_lowlight m = false /\ threshold m = Fin 2000 /\
  splits (fun r => 2000 < r_lum r * ms_scale m) (ms_rays m) [ray1 3000] [ray1 1] /\ 0 < weighted (map (glare_source m) [ray1 3000]).
Proof.
  intros m. assert (T : threshold m = Fin 2000) by (apply threshold_fixed; cbn; lra).
  assert (I : illum m = 3001).
  { unfold illum, m, glaring, mset_of. cbn [ms_rays ms_scale opts1 o_scale]. rewrite Rsumf_2. unfold m_ctheta. cbn [ms_vm ray1 r_vec r_lum r_omega].
    rewrite full_ctheta. ring. }
  assert (S : splits (fun r => 2000 < r_lum r * ms_scale m) (ms_rays m) [ray1 3000] [ray1 1]).
  { apply splits_out; [cbn; lra|]. apply splits_in; [cbn; lra|]. apply splits_nil. }
  assert (B : backlum m = 1 / PI).
  { rewrite backlum_background. destruct (splits_filter _ _ _ _ _ _ S (sources_split m 2000 T)) as [_ <-]. rewrite Rsumf_1.
    unfold m_ctheta, m, glaring, mset_of. cbn [ms_vm ms_scale ray1 r_vec r_lum r_omega opts1 o_scale]. rewrite full_ctheta. f_equal. ring. }
  split; [intros r [<-|[<-|[]]]; cbn; lra|]. split; [lra|]. split; [rewrite B; apply Rmult_lt_0_compat; [lra|apply Rinv_0_lt_compat, PI_RGT_0]|].
  split; [reflexivity|]. split; [auto|]. split; [auto|]. unfold weighted. cbn [map]. rewrite Rsumf_1. unfold glare_source.
  cbn [ray1 r_lum r_omega m glaring mset_of ms_scale opts1 o_scale]. pose proof (positions_pos (ms_guth m) (ms_vm m) up3) as P.
  unfold m_pidx. cbn [r_vec]. apply Rmult_lt_0_compat; [lra|]. apply Rinv_0_lt_compat. apply Rmult_lt_0_compat; exact P.
Qed.
Lemma shared_overlap_general : exists a t1 t2 v1 v2 dark m om, 0 < a /\ a < t1 /\ t1 < t2 /\ t2 < 2 * a /\
  let vm := mk_view (V3 0 0 1) (a * 360 / PI) in let r1 := Ray v1 (PI * (a * a)) 1 in let r2 := Ray v2 (PI * (a * a)) 1 in
  angle (V3 0 0 1) v1 = t1 /\ angle (V3 0 0 1) v2 = t2 /\ bright_edge vm (r1 :: r2 :: dark) r1 /\ bright_edge vm (r1 :: r2 :: dark) r2 /\
  construct 0 (Opts true 1 true 2000 30 false) vm (r1 :: r2 :: dark) = Some (m, om) /\
  om = lens_area a a t2 :: lens_area a a t2 :: map r_omega dark /\ lens_area a a t2 < lens_area a a t1.
Proof.
  destruct shared_overlap as (m & om & A & B & C & D & E). pose proof ta_pos as T. destruct sqrt3_b as [B3 Q3]. pose proof sqrt2_b as B2.
  assert (Q2 : sqrt 2 * sqrt 2 = 2) by (apply sqrt_sqrt; lra). pose proof PI2_1.
  exists ta, (sqrt 2 * ta), (sqrt 3 * ta), (tilt (sqrt 2 * ta)), (tilt (sqrt 3 * ta)), (repeat dark 19), m, om.
  assert (1 < sqrt 2) by nra. assert (sqrt 2 < sqrt 3) by nra.
  split; [lra|]. split; [nra|]. split; [nra|]. split; [nra|]. cbv zeta.
  replace (ta * 360 / PI) with 2 by (unfold ta, half; field; lra).
  pose proof (tilt_angle (sqrt 2 * ta) ltac:(nra)) as A1. pose proof (tilt_angle (sqrt 3 * ta) ltac:(nra)) as A2. rewrite norm_up3 in A1, A2.
  split; [exact A1|]. split; [exact A2|]. split; [exact B|]. split; [exact C|]. split; [exact A|]. split; [exact D|exact E].
Qed.
