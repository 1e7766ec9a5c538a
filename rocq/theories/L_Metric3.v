From Coq Require Import Lra Lia Psatz String.
From Verif Require Import Base BaseX L_Base M_Translate S_Translate M_Mapper S_Mapper M_Io M_Metric M_Cache S_Metric L_Angles L_Mapper L_Pidx L_Metric L_Metric2.
Import ListNotations.
Local Open Scope R_scope.

(** ** sources and background *)
Lemma filter_splits {A} (p : A -> bool) l : splits (fun a => p a = true) l (filter p l) (filter (fun a => negb (p a)) l).
Proof.
  induction l as [|a l IH]; cbn; [constructor|]. destruct (p a) eqn:E; cbn; constructor; auto. congruence.
Qed.
Lemma splits_iff {A} (P Q : A -> Prop) l x y : (forall a, P a <-> Q a) -> splits P l x y -> splits Q l x y.
Proof. intros H S. induction S; constructor; auto; firstorder. Qed.
Lemma splits_sum {A} (P : A -> Prop) (f : A -> R) l x y : splits P l x y -> Rsumf f x + Rsumf f y = Rsumf f l.
Proof. intros S. induction S; rewrite ?Rsumf_cons; [unfold Rsumf; cbn|..]; lra. Qed.
(** the rays whose scaled luminance exceeds the threshold *)
Lemma source_fin m r t : threshold m = Fin t -> (is_source m r = true <-> t < r_lum r * ms_scale m).
Proof. intros H. unfold is_source. rewrite H. cbn [xgtb]. unfold Rgtb. apply Rltb_true. Qed.
Lemma sources_split m t : threshold m = Fin t ->
  splits (fun r => t < r_lum r * ms_scale m) (ms_rays m) (sources m) (background m).
Proof. intros H. eapply splits_iff; [intros r; apply (source_fin m r t H)|]. apply filter_splits. Qed.
Lemma sources_split_any m : splits (fun r => is_source m r = true) (ms_rays m) (sources m) (background m).
Proof. apply filter_splits. Qed.
Lemma source_area m : srcarea m + Rsumf r_omega (background m) = Rsumf r_omega (ms_rays m).
Proof. apply (splits_sum _ _ _ _ _ (sources_split_any m)). Qed.
Lemma source_illum m : srcillum m + Rsumf (fun r => m_ctheta m r * r_lum r * r_omega r) (background m) * ms_scale m = illum m.
Proof.
  unfold srcillum, illum. rewrite <- Rmult_plus_distr_r. f_equal. apply (splits_sum _ _ _ _ _ (sources_split_any m)).
Qed.
(** the background luminance estimate is that of the background rays alone *)
Lemma backlum_background m : backlum m = Rsumf (fun r => m_ctheta m r * r_lum r * r_omega r) (background m) * ms_scale m / PI.
Proof. unfold backlum. rewrite <- (source_illum m). f_equal. ring. Qed.
Lemma threshold_abs m : 100 < ms_threshold m -> threshold m = Fin (ms_threshold m).
Proof. intros H. unfold threshold. replace (Rgtb (ms_threshold m) 100) with true; auto. symmetry. apply Rltb_true. auto. Qed.
Lemma threshold_task m : ms_threshold m <= 100 -> Rsumf r_omega (task_rays m) <> 0 ->
  threshold m = Fin (Rsumf (fun r => r_lum r * r_omega r) (task_rays m) * ms_scale m / Rsumf r_omega (task_rays m) * ms_threshold m).
Proof.
  intros H Ho. unfold threshold. replace (Rgtb (ms_threshold m) 100) with false by (symmetry; apply Rltb_false; auto).
  unfold tasklum. fold (task_rays m). rewrite xdiv_fin by auto. reflexivity.
Qed.
(** with a relative threshold and no ray in the task area there are no sources at all *)
Lemma no_task_no_source m : ms_threshold m <= 100 -> task_rays m = [] -> sources m = [].
Proof.
  intros H Ht. assert (T : threshold m = NaN).
  { unfold threshold. replace (Rgtb (ms_threshold m) 100) with false by (symmetry; apply Rltb_false; auto).
    unfold tasklum. fold (task_rays m). rewrite Ht. unfold Rsumf. cbn [map Rsum fold_right].
    rewrite Rmult_0_l. unfold xdiv. replace (Reqb 0 0) with true by (symmetry; apply Reqb_true; auto).
    unfold xinf. replace (Rltb 0 0) with false by (symmetry; apply Rltb_false; lra). reflexivity. }
  unfold sources. induction (ms_rays m) as [|r l IH]; auto. cbn. unfold is_source at 1. rewrite T. cbn. auto.
Qed.

(** ** dgp *)
Lemma valid_valid m : valid_rays m -> valid_omega m.
Proof. intros H r Hr. apply H. auto. Qed.
Lemma pwsl2_nonneg m : valid_omega m -> 0 <= pwsl2 m.
Proof.
  intros H. unfold pwsl2. apply Rsumf_nonneg. intros r Hr. apply filter_In in Hr as [Hr _].
  pose proof (positions_pos (ms_guth m) (ms_vm m) (r_vec r)) as P. fold (m_pidx m r) in P.
  apply Rmult_le_pos; [|left; apply Rinv_0_lt_compat; unfold square; nra].
  apply Rmult_le_pos; [apply Rmult_le_pos; [apply Rle_0_sqr|auto]|apply Rle_0_sqr].
Qed.
Lemma log_gc_fin m : valid_omega m -> 0 < illum m ->
  log_gc m = Fin (log10 (1 + pwsl2 m / Rpower (illum m) 1.87)) /\ 0 <= log10 (1 + pwsl2 m / Rpower (illum m) 1.87).
Proof.
  intros H Hi. assert (P : 0 < Rpower (illum m) 1.87) by apply exp_pos.
  assert (Q : 0 <= pwsl2 m / Rpower (illum m) 1.87).
  { apply Rmult_le_pos; [apply pwsl2_nonneg; auto|left; apply Rinv_0_lt_compat; auto]. }
  unfold log_gc. cbn [xpow]. replace (Rltb 0 (illum m)) with true by (symmetry; apply Rltb_true; auto).
  rewrite xdiv_fin by lra. cbn [xadd xlog10].
  replace (Rltb 0 _) with true by (symmetry; apply Rltb_true; lra). split; auto. apply log10_ge_0. lra.
Qed.
Definition dgp_sum (m : mset) : R := 5.87 / 10 ^ 5 * illum m + 9.18 / 10 ^ 2 * log10 (1 + pwsl2 m / Rpower (illum m) 1.87) + 0.16.
Lemma xmin_fin a b : xmin (Fin a) (Fin b) = Fin (Rmin a b).
Proof.
  unfold xmin, xltb. cbn [xgtb]. unfold Rgtb. destruct (Rltb a b) eqn:E.
  - apply Rltb_true in E. rewrite Rmin_left; auto; lra.
  - apply Rltb_false in E. rewrite Rmin_right; auto.
Qed.
Lemma xmax_fin a b : xmax (Fin a) (Fin b) = Fin (Rmax a b).
Proof.
  unfold xmax. cbn [xgtb]. unfold Rgtb. destruct (Rltb b a) eqn:E.
  - apply Rltb_true in E. rewrite Rmax_left; auto; lra.
  - apply Rltb_false in E. rewrite Rmax_right; auto.
Qed.
Lemma dgp_fin m : valid_omega m -> 0 < illum m -> dgp m = Fin (Rmin (lowlight_factor m * dgp_sum m) 1) /\ 0.16 <= dgp_sum m.
Proof.
  intros H Hi. destruct (log_gc_fin m H Hi) as [E1 E2]. unfold dgp, dgp_t2, dgp_t1. rewrite E1. cbn [xmul xadd].
  rewrite xmin_fin. unfold dgp_sum, Rdiv. split; [reflexivity|].
  assert (0 <= 5.87 * / 10 ^ 5 * illum m) by (apply Rmult_le_pos; lra). unfold Rdiv in E2. lra.
Qed.
Lemma lowlight_range m : 0 < lowlight_factor m <= 1.
Proof.
  unfold lowlight_factor. destruct (ms_lowlight m && _); [|lra].
  pose proof (exp_pos (0.024 * illum m - 4)) as P. set (e := exp _) in *.
  assert (I : 0 < / (1 + e)) by (apply Rinv_0_lt_compat; lra). split; [apply Rmult_lt_0_compat; auto|].
  apply Rmult_le_reg_r with (1 + e); [lra|]. unfold Rdiv. rewrite Rmult_assoc, Rinv_l by lra. lra.
Qed.
Lemma dgp_range m : valid_omega m -> 0 < illum m -> finite (fun x => 0 < x <= 1) (dgp m).
Proof.
  intros H Hi. destruct (dgp_fin m H Hi) as [E1 E2]. exists (Rmin (lowlight_factor m * dgp_sum m) 1). split; auto.
  pose proof (lowlight_range m). assert (0 < lowlight_factor m * dgp_sum m) by (apply Rmult_lt_0_compat; lra).
  unfold Rmin. destruct (Rle_dec _ 1); lra.
Qed.
Lemma dgp_ge_16 m : valid_omega m -> 0 < illum m -> ms_lowlight m = false \/ 500 <= illum m ->
  finite (fun x => 0.16 <= x <= 1) (dgp m).
Proof.
  intros H Hi Hl. destruct (dgp_fin m H Hi) as [E1 E2]. eexists. split; [apply E1|].
  assert (lowlight_factor m = 1) as ->.
  { unfold lowlight_factor. destruct Hl as [->|Hl]; auto. replace (Rltb (illum m) 500) with false by (symmetry; apply Rltb_false; auto).
    rewrite Bool.andb_false_r. auto. }
  unfold Rmin. destruct (Rle_dec _ 1); lra.
Qed.
Lemma dgp_lowlight m : valid_omega m -> 0 < illum m ->
  exists x y, dgp (with_lowlight m true) = Fin x /\ dgp (with_lowlight m false) = Fin y /\ x <= y.
Proof.
  intros H Hi. destruct (dgp_fin (with_lowlight m true) H Hi) as [E1 E2]. destruct (dgp_fin (with_lowlight m false) H Hi) as [F1 _].
  eexists _, _. split; [apply E1|]. split; [apply F1|].
  change (dgp_sum (with_lowlight m true)) with (dgp_sum m) in *. change (dgp_sum (with_lowlight m false)) with (dgp_sum m).
  change (lowlight_factor (with_lowlight m false)) with 1. pose proof (lowlight_range (with_lowlight m true)).
  apply Rle_min_compat_r. apply Rmult_le_compat_r; lra.
Qed.
(** no light at all: nan *)
Lemma dgp_dark m : illum m = 0 -> pwsl2 m = 0 -> dgp m = NaN.
Proof.
  intros H1 H2. unfold dgp, dgp_t2, log_gc. rewrite H1, H2. cbn [xpow].
  replace (Rltb 0 0) with false by (symmetry; apply Rltb_false; lra).
  replace (Reqb 0 0) with true by (symmetry; apply Reqb_true; auto). unfold xdiv.
  replace (Reqb 0 0) with true by (symmetry; apply Reqb_true; auto). unfold xinf.
  replace (Rltb 0 0) with false by (symmetry; apply Rltb_false; lra). reflexivity.
Qed.
(** dgp never decreases when glare sources get stronger at the same illuminance *)
Lemma log10_le x y : 0 < x -> x <= y -> log10 x <= log10 y.
Proof.
  intros H [L| ->]; [|lra]. unfold log10. assert (0 < ln 10) by (rewrite <- ln_1; apply ln_increasing; lra).
  apply Rmult_le_compat_r; [left; apply Rinv_0_lt_compat; auto|]. left. apply ln_increasing; auto.
Qed.
Lemma dgp_mono m m' : valid_omega m -> valid_omega m' -> 0 < illum m -> illum m' = illum m -> pwsl2 m <= pwsl2 m' ->
  ms_lowlight m' = ms_lowlight m -> exists x y, dgp m = Fin x /\ dgp m' = Fin y /\ x <= y.
Proof.
  intros H H' Hi Ei Hp El. destruct (dgp_fin m H Hi) as [E1 _]. destruct (dgp_fin m' H') as [F1 _]; [lra|].
  eexists _, _. split; [apply E1|]. split; [apply F1|]. apply Rle_min_compat_r.
  assert (lowlight_factor m' = lowlight_factor m) as -> by (unfold lowlight_factor; rewrite Ei, El; auto).
  apply Rmult_le_compat_l; [left; apply lowlight_range|]. unfold dgp_sum. rewrite Ei.
  assert (P : 0 < Rpower (illum m) 1.87) by apply exp_pos. pose proof (pwsl2_nonneg m H) as Q.
  assert (I : 0 < / Rpower (illum m) 1.87) by (apply Rinv_0_lt_compat; auto).
  assert (L : log10 (1 + pwsl2 m / Rpower (illum m) 1.87) <= log10 (1 + pwsl2 m' / Rpower (illum m) 1.87)).
  { apply log10_le; unfold Rdiv; [|apply Rplus_le_compat_l, Rmult_le_compat_r; lra].
    assert (0 <= pwsl2 m * / Rpower (illum m) 1.87) by (apply Rmult_le_pos; lra). lra. }
  apply Rplus_le_compat_r, Rplus_le_compat_l, Rmult_le_compat_l; lra.
Qed.

(** ** ugr, ugp *)
Lemma ugr_range m : valid_omega m -> 0 < backlum m -> finite (fun x => 0 <= x) (ugr m).
Proof.
  intros H Hb. unfold ugr. rewrite xdiv_fin by lra. pose proof (pwsl2_nonneg m H) as P. cbn [xlog10].
  assert (0 <= 0.25 * pwsl2 m / backlum m) by (apply Rmult_le_pos; [lra|left; apply Rinv_0_lt_compat; auto]).
  destruct (Rltb 0 _) eqn:E.
  - cbn [xmul]. rewrite xmax_fin. eexists. split; [reflexivity|]. apply Rmax_l.
  - apply Rltb_false in E. replace (Reqb _ 0) with true by (symmetry; apply Reqb_true; lra). cbn [xmul].
    unfold xinf. replace (Rltb 0 8) with true by (symmetry; apply Rltb_true; lra). cbn [xopp xmax xgtb]. exists 0. split; auto. lra.
Qed.
Lemma ugr_no_source m : sources m = [] -> backlum m <> 0 -> ugr m = Fin 0.
Proof.
  intros Hs Hb. unfold ugr, pwsl2. rewrite Hs. unfold Rsumf. cbn [map Rsum fold_right]. rewrite xdiv_fin by lra.
  cbn [xlog10]. replace (0.25 * 0 / backlum m) with 0 by (field; lra).
  replace (Rltb 0 0) with false by (symmetry; apply Rltb_false; lra).
  replace (Reqb 0 0) with true by (symmetry; apply Reqb_true; auto). cbn [xmul]. unfold xinf.
  replace (Rltb 0 8) with true by (symmetry; apply Rltb_true; lra). reflexivity.
Qed.
(** no light: ugr is nan; all light from sources: infinite, and ugp is one *)
Lemma ugr_dark m : pwsl2 m = 0 -> backlum m = 0 -> ugr m = NaN.
Proof.
  intros H1 H2. unfold ugr. rewrite H1, H2. rewrite Rmult_0_r. unfold xdiv.
  replace (Reqb 0 0) with true by (symmetry; apply Reqb_true; auto). unfold xinf.
  replace (Rltb 0 0) with false by (symmetry; apply Rltb_false; lra). reflexivity.
Qed.
Lemma ugp_fin u : ugp_of (Fin u) = Fin (/ (1 + 2 / 7 * Rpower 10 (- (u + 5) / 40)) ^ 10).
Proof.
  unfold ugp_of. cbn [xadd xopp]. rewrite xdiv_fin by lra. cbn [xpow10 xmul xadd].
  assert (P : 0 < Rpower 10 (- (u + 5) / 40)) by apply exp_pos. set (e := Rpower _ _) in *.
  set (b := 1 + 2 / 7 * e). assert (E : xpown (Fin b) 10 = Fin (b ^ 10)) by reflexivity. rewrite E.
  assert (Hb : 0 < b ^ 10) by (apply pow_lt; unfold b; lra). revert Hb. generalize (b ^ 10). intros q Hb.
  rewrite xdiv_fin by lra. f_equal. unfold Rdiv. ring.
Qed.
Lemma ugp_of_range u : 0 < / (1 + 2 / 7 * Rpower 10 (- (u + 5) / 40)) ^ 10 < 1.
Proof.
  assert (P : 0 < Rpower 10 (- (u + 5) / 40)) by apply exp_pos. set (e := Rpower _ _) in *.
  assert (B : 1 < (1 + 2 / 7 * e) ^ 10) by (apply Rlt_pow_R1; [lra|lia]).
  revert B. generalize ((1 + 2 / 7 * e) ^ 10). intros q B.
  split; [apply Rinv_0_lt_compat; lra|]. rewrite <- Rinv_1. apply Rinv_lt_contravar; lra.
Qed.
Lemma ugp_range m : valid_omega m -> 0 < backlum m -> finite (fun x => 0 < x < 1) (ugp m).
Proof.
  intros H Hb. destruct (ugr_range m H Hb) as [u [E _]]. unfold ugp. rewrite E, ugp_fin. eexists. split; [reflexivity|]. apply ugp_of_range.
Qed.
Lemma pow_lt_mono x y n : 0 < x -> x < y -> x ^ S n < y ^ S n.
Proof.
  intros Hx H. induction n as [|n IH]; [cbn; lra|]. change (x * x ^ S n < y * y ^ S n).
  assert (0 < x ^ S n) by (apply pow_lt; auto). nra.
Qed.
Lemma ugp_mono u v : u < v -> exists x y, ugp_of (Fin u) = Fin x /\ ugp_of (Fin v) = Fin y /\ x < y.
Proof.
  intros H. rewrite !ugp_fin. eexists _, _. split; [reflexivity|]. split; [reflexivity|].
  assert (P : Rpower 10 (- (v + 5) / 40) < Rpower 10 (- (u + 5) / 40)) by (apply Rpower_lt; lra).
  assert (Q : 0 < Rpower 10 (- (v + 5) / 40)) by apply exp_pos.
  set (e := Rpower 10 (- (v + 5) / 40)) in *. set (f := Rpower 10 (- (u + 5) / 40)) in *. clearbody e f.
  assert (A : (1 + 2 / 7 * e) ^ 10 < (1 + 2 / 7 * f) ^ 10) by (apply pow_lt_mono; lra).
  assert (B : 0 < (1 + 2 / 7 * e) ^ 10) by (apply pow_lt; lra). revert A B. generalize ((1 + 2 / 7 * e) ^ 10), ((1 + 2 / 7 * f) ^ 10).
  intros q q' A B. apply Rinv_lt_contravar; [|exact A]. apply Rmult_lt_0_compat; lra.
Qed.
Lemma ugr_all_source m : 0 < pwsl2 m -> backlum m = 0 -> ugr m = PInf /\ ugp m = Fin 1.
Proof.
  intros H1 H2. assert (U : ugr m = PInf).
  { unfold ugr. rewrite H2. unfold xdiv. replace (Reqb 0 0) with true by (symmetry; apply Reqb_true; auto).
    unfold xinf. replace (Rltb 0 (0.25 * pwsl2 m)) with true by (symmetry; apply Rltb_true; lra). cbn [xlog10 xmul].
    unfold xinf. replace (Rltb 0 8) with true by (symmetry; apply Rltb_true; lra). reflexivity. }
  split; auto. unfold ugp. rewrite U. unfold ugp_of. cbn [xadd xopp].
  change (xdiv NInf (Fin 40)) with (if Rltb 40 0 then PInf else NInf).
  replace (Rltb 40 0) with false by (symmetry; apply Rltb_false; lra). cbn [xpow10 xmul xadd].
  replace (1 + 2 / 7 * 0) with 1 by ring. assert (E : xpown (Fin 1) 10 = Fin (1 ^ 10)) by reflexivity. rewrite E, pow1.
  rewrite xdiv_fin by lra. f_equal. field.
Qed.
(** concrete reachable objects of those two kinds *)
Lemma illum_black m : (forall r, In r (ms_rays m) -> r_lum r = 0) -> illum m = 0.
Proof.
  unfold illum. generalize (ms_rays m). intros l H.
  replace (Rsumf (fun r => m_ctheta m r * r_lum r * r_omega r) l) with 0; [ring|].
  induction l as [|r l IH]; [reflexivity|]. rewrite Rsumf_cons, <- IH by (intros x Hx; apply H; now right).
  rewrite (H r) by now left. ring.
Qed.
Lemma pwsl2_none m : sources m = [] -> pwsl2 m = 0.
Proof. intros H. unfold pwsl2. now rewrite H. Qed.
Lemma backlum_black m : sources m = [] -> illum m = 0 -> backlum m = 0.
Proof. intros H I. unfold backlum, srcillum. rewrite I, H. unfold Rsumf. cbn [map Rsum fold_right]. field. apply PI_neq0. Qed.
Lemma backlum_all m : sources m = ms_rays m -> backlum m = 0.
Proof.
  intros H. unfold backlum, srcillum, illum. rewrite H. generalize (Rsumf (fun r => m_ctheta m r * r_lum r * r_omega r) (ms_rays m)).
  intros x. field. apply PI_neq0.
Qed.
Lemma pwsl2_single m r : sources m = [r] -> 0 < r_lum r -> 0 < r_omega r -> 0 < ms_scale m -> 0 < pwsl2 m.
Proof.
  intros H Hl Ho Hs. unfold pwsl2. rewrite H, Rsumf_1. pose proof (positions_pos (ms_guth m) (ms_vm m) (r_vec r)) as P.
  fold (m_pidx m r) in P. revert P. generalize (m_pidx m r). intros x P. unfold square.
  apply Rmult_lt_0_compat; [|apply Rinv_0_lt_compat; nra].
  apply Rmult_lt_0_compat; [apply Rmult_lt_0_compat; [|exact Ho]|]; nra.
Qed.
Lemma mset_rays o vm l : ms_rays (mset_of o vm l) = l.
Proof. reflexivity. Qed.
Lemma ugr_nan_witness : exists m om, construct 0 (opts1 2000) full [ray1 0] = Some (m, om) /\ valid_rays m /\ ugr m = NaN /\ dgp m = NaN.
Proof.
  eexists _, _. split; [apply full_construct; auto|]. rewrite normed_ray1.
  assert (S : sources (mset_of (opts1 2000) full [ray1 0]) = []).
  { rewrite sources_ray1 by (cbn; lra). cbn [opts1 o_scale o_threshold].
    replace (Rgtb (0 * 1) 2000) with false by (symmetry; apply Rltb_false; lra). reflexivity. }
  pose proof (mset_rays (opts1 2000) full [ray1 0]) as Hr. revert S Hr. generalize (mset_of (opts1 2000) full [ray1 0]). intros m S Hr.
  assert (I : illum m = 0).
  { apply illum_black. rewrite Hr. intros r [<-|[]]. reflexivity. }
  pose proof (pwsl2_none m S) as P. pose proof (backlum_black m S I) as B.
  split; [|split; [exact (ugr_dark m P B)|exact (dgp_dark m I P)]].
  intros r H. rewrite Hr in H. destruct H as [<-|[]]. cbn [ray1 r_lum r_omega]. lra.
Qed.
Lemma ugr_inf_witness : exists m om, construct 0 (opts1 2000) full [ray1 3000] = Some (m, om) /\ valid_rays m /\ ugr m = PInf /\ ugp m = Fin 1.
Proof.
  eexists _, _. split; [apply full_construct; auto|]. rewrite normed_ray1.
  assert (S : sources (mset_of (opts1 2000) full [ray1 3000]) = [ray1 3000]).
  { rewrite sources_ray1 by (cbn; lra). cbn [opts1 o_scale o_threshold].
    replace (Rgtb (3000 * 1) 2000) with true by (symmetry; apply Rltb_true; lra). reflexivity. }
  assert (K : ms_scale (mset_of (opts1 2000) full [ray1 3000]) = 1) by reflexivity.
  pose proof (mset_rays (opts1 2000) full [ray1 3000]) as Hr. revert S Hr K. generalize (mset_of (opts1 2000) full [ray1 3000]). intros m S Hr K.
  split; [|].
  - intros r H. rewrite Hr in H. destruct H as [<-|[]]. cbn [ray1 r_lum r_omega]. lra.
  - apply ugr_all_source.
    + apply (pwsl2_single m (ray1 3000) S); [cbn [ray1 r_lum]; lra|cbn [ray1 r_omega]; lra|lra].
    + apply backlum_all. now rewrite S, Hr.
Qed.
