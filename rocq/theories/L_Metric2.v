From Coq Require Import Lra Lia Psatz String.
From Verif Require Import Base BaseX L_Base M_Translate S_Translate M_Mapper S_Mapper M_Io M_Metric M_Cache S_Metric L_Angles L_Mapper L_Pidx L_Metric.
Import ListNotations.
Local Open Scope R_scope.

(** ** what safe2sum does not promise *)
Definition opts1 (t : R) : options := Opts true 1 true t 30 false.
Definition up3 : vec3 := V3 0 0 1.
Definition full := mk_view up3 360.
Lemma full_aspect : vm_aspect full = 2%Z. Proof. apply (mk_view_360 up3). Qed.
Lemma full_no_edge args : no_edge_rays full args. Proof. left. apply full_aspect. Qed.
Lemma full_seen args : seen full args = normed args.
Proof.
  unfold seen. rewrite full_aspect. cbn [Z.eqb Pos.eqb orb].
  fold (normed args). assert (F : forall l : list ray, filter (fun _ => true) l = l) by (induction l as [|a l IH]; cbn; f_equal; auto).
  apply F.
Qed.
Lemma up3_unit : dot up3 up3 = 1. Proof. unfold dot, up3. cbn. ring. Qed.
Lemma norm_up3 : norm up3 = up3. Proof. apply norm_unit_id, up3_unit. Qed.
Lemma full_construct fuel o args : o_as_area o = true ->
  construct fuel o full args = Some (mset_of o full (normed args), map r_omega args).
Proof. intros H. rewrite construct_plain by (auto; apply full_no_edge). rewrite full_seen. auto. Qed.
Definition ray1 (l : R) : ray := Ray up3 1 l.
Lemma normed_ray1 l : normed [ray1 l] = [ray1 l].
Proof. unfold normed, ray1. cbn [map r_vec r_omega r_lum]. rewrite norm_up3. auto. Qed.
Lemma full_ctheta : vm_ctheta full up3 = 1.
Proof.
  unfold vm_ctheta, full. rewrite mk_view_dxyz by (apply unit_nonzero, up3_unit). rewrite norm_up3, up3_unit.
  unfold clip, Rmin, Rmax. destruct (Rle_dec 1 (-1)); destruct (Rle_dec _ 1); lra.
Qed.
Lemma Rsumf_1 {A} (f : A -> R) a : Rsumf f [a] = f a. Proof. unfold Rsumf. cbn. ring. Qed.
Lemma Rsumf_2 {A} (f : A -> R) a b : Rsumf f [a; b] = f a + f b. Proof. unfold Rsumf. cbn. ring. Qed.
Lemma xdiv_fin a b : b <> 0 -> xdiv (Fin a) (Fin b) = Fin (a / b).
Proof. intros H. unfold xdiv. replace (Reqb b 0) with false; auto. symmetry. apply Reqb_false. auto. Qed.

Lemma avglum_not_rays : ~ sums_over_rays any_options avglum.
Proof.
  intros H. specialize (H 0%nat (opts1 2000) full [ray1 1] [ray1 1] _ _ _ _ _ _ I eq_refl (full_no_edge _)
    (full_construct 0 (opts1 2000) _ eq_refl) (full_construct 0 (opts1 2000) _ eq_refl) (full_construct 0 (opts1 2000) _ eq_refl)).
  change (normed ([ray1 1] ++ [ray1 1])) with (normed [ray1 1] ++ normed [ray1 1]) in H.
  rewrite !normed_ray1 in H. unfold avglum, mset_of, opts1 in H.
  cbn [app ms_rays ms_scale ms_view_area o_scale] in H. rewrite !Rsumf_2, !Rsumf_1 in H. cbn [ray1 r_lum r_omega] in H.
  rewrite !xdiv_fin in H by lra. cbn [xadd] in H. injection H. lra.
Qed.
Lemma density_not_rays : ~ sums_over_rays any_options density.
Proof.
  intros H. specialize (H 0%nat (opts1 2000) full [ray1 1] [ray1 1] _ _ _ _ _ _ I eq_refl (full_no_edge _)
    (full_construct 0 (opts1 2000) _ eq_refl) (full_construct 0 (opts1 2000) _ eq_refl) (full_construct 0 (opts1 2000) _ eq_refl)).
  change (normed ([ray1 1] ++ [ray1 1])) with (normed [ray1 1] ++ normed [ray1 1]) in H.
  rewrite !normed_ray1 in H. unfold density, mset_of, opts1 in H.
  cbn [app ms_rays ms_scale ms_view_area o_scale length] in H. rewrite !Rsumf_2, !Rsumf_1 in H. cbn [ray1 r_lum r_omega INR] in H.
  rewrite !xdiv_fin in H by lra. cbn [xadd] in H. injection H. lra.
Qed.
Lemma split1 l f : split_rays [(up3, 1, l)] f = [ray1 (f l)]. Proof. reflexivity. Qed.
Lemma lum_witness (P : options -> Prop) f o l : P o -> o_as_area o = true -> sums_over_lum P f ->
  f (mset_of o full [ray1 (fst l + snd l)]) = xadd (f (mset_of o full [ray1 (fst l)])) (f (mset_of o full [ray1 (snd l)])).
Proof.
  intros HP Ho H.
  rewrite <- (normed_ray1 (fst l + snd l)), <- (normed_ray1 (fst l)), <- (normed_ray1 (snd l)).
  apply (H 0%nat o full [(up3, 1, l)] _ _ _ (map r_omega [ray1 (fst l)]) (map r_omega [ray1 (snd l)]) (map r_omega [ray1 (fst l + snd l)]) HP Ho).
  - apply full_no_edge.
  - rewrite split1. rewrite full_construct by auto. auto.
  - rewrite split1. rewrite full_construct by auto. auto.
  - rewrite split1. rewrite full_construct by auto. auto.
Qed.
Lemma density_not_lum : ~ sums_over_lum any_options density.
Proof.
  intros H. apply (lum_witness _ _ (opts1 2000) (1, 1) I eq_refl) in H.
  unfold density, mset_of in H. cbn [ms_rays length ms_view_area INR] in H. rewrite !Rsumf_1 in H. cbn [ray1 r_omega] in H.
  rewrite !xdiv_fin in H by lra. cbn [xadd] in H. injection H. lra.
Qed.
Lemma sources_ray1 o l : 100 < o_threshold o -> sources (mset_of o full [ray1 l]) =
  if Rgtb (l * o_scale o) (o_threshold o) then [ray1 l] else [].
Proof. intros H. rewrite sources_fixed by auto. reflexivity. Qed.
Lemma pwsl2_not_lum : ~ sums_over_lum fixed_threshold (fun m => Fin (pwsl2 m)).
Proof.
  intros H. apply (lum_witness _ _ (opts1 200) (1000, 1000)) in H; [|unfold fixed_threshold; cbn; lra|reflexivity].
  cbn [xadd] in H. injection H as H. unfold pwsl2 in H.
  rewrite !sources_ray1 in H by (cbn; lra). cbn [fst snd opts1 o_scale o_threshold] in H.
  replace (Rgtb ((1000 + 1000) * 1) 200) with true in H by (symmetry; apply Rltb_true; lra).
  replace (Rgtb (1000 * 1) 200) with true in H by (symmetry; apply Rltb_true; lra).
  rewrite !Rsumf_1 in H. unfold m_pidx, mset_of, ray1, square in H. cbn [r_lum r_omega r_vec ms_guth ms_vm ms_scale o_guth o_scale opts1] in H.
  pose proof (positions_pos true full up3) as Hp. set (p := positions _ _ _) in *.
  assert (Hq : 0 < / (p * p)) by (apply Rinv_0_lt_compat; nra). unfold Rdiv in H. lra.
Qed.
Lemma srcillum_not_lum : ~ sums_over_lum fixed_threshold (fun m => Fin (srcillum m)).
Proof.
  intros H. apply (lum_witness _ _ (opts1 1500) (1000, 1000)) in H; [|unfold fixed_threshold; cbn; lra|reflexivity].
  cbn [xadd] in H. injection H as H. unfold srcillum in H.
  rewrite !sources_ray1 in H by (cbn; lra). cbn [fst snd opts1 o_scale o_threshold] in H.
  replace (Rgtb ((1000 + 1000) * 1) 1500) with true in H by (symmetry; apply Rltb_true; lra).
  replace (Rgtb (1000 * 1) 1500) with false in H by (symmetry; apply Rltb_false; lra).
  rewrite !Rsumf_1 in H. unfold m_ctheta, mset_of, ray1 in H. cbn [r_lum r_omega r_vec ms_guth ms_vm ms_scale o_guth o_scale opts1] in H.
  rewrite full_ctheta in H. unfold Rsumf in H. cbn in H. lra.
Qed.

(** ** linearity and sign of illum *)
Lemma illum_scale_lum m k : illum (with_rays m (scale_lum k (ms_rays m))) = k * illum m.
Proof.
  unfold illum, scale_lum, with_rays, m_ctheta. cbn [ms_rays ms_scale ms_vm].
  rewrite <- Rmult_assoc, <- Rsumf_scal. f_equal. unfold Rsumf. rewrite map_map. f_equal. apply map_ext.
  intros r. cbn [r_vec r_omega r_lum]. ring.
Qed.
Lemma illum_scale m s : illum (with_scale m s) * ms_scale m = illum m * s.
Proof. unfold illum, with_scale, m_ctheta. cbn [ms_rays ms_scale ms_vm]. ring. Qed.
Lemma in_view_ctheta d va v : d <> vzero -> hemi_angle va -> dot v v = 1 ->
  in_view (mk_view d va) 0 v = true -> 0 <= vm_ctheta (mk_view d va) v.
Proof.
  intros Hd Hva Hv H. apply in_view_sound in H; auto.
  unfold vm_ctheta. rewrite mk_view_dxyz by auto.
  pose proof (half_range va Hva) as [_ Hh]. unfold angle in H.
  pose proof (dot_unit_bound (norm d) v (norm_dot d Hd) Hv) as B.
  destruct (Rle_dec 0 (dot (norm d) v)).
  - unfold clip, Rmin, Rmax. destruct (Rle_dec _ (-1)); destruct (Rle_dec _ 1); lra.
  - exfalso. assert (PI / 2 < acos (dot (norm d) v)); [|lra]. rewrite <- acos_0. apply acos_decr; lra.
Qed.
Lemma seen_unit vm args r : (forall r, In r args -> r_vec r <> vzero) -> In r (seen vm args) -> dot (r_vec r) (r_vec r) = 1.
Proof.
  intros H Hr. apply filter_In in Hr as [Hr _]. apply in_map_iff in Hr as [r0 [<- H0]]. cbn [r_vec].
  apply norm_dot. auto.
Qed.
Lemma seen_data vm args r : In r (seen vm args) -> exists r0, In r0 args /\ r_omega r = r_omega r0 /\ r_lum r = r_lum r0.
Proof.
  intros Hr. apply filter_In in Hr as [Hr _]. apply in_map_iff in Hr as [r0 [<- H0]]. eauto.
Qed.
Lemma illum_nonneg fuel o d va args m om : d <> vzero -> hemi_angle va -> o_as_area o = true -> 0 <= o_scale o ->
  no_edge_rays (mk_view d va) args ->
  (forall r, In r args -> r_vec r <> vzero /\ 0 <= r_omega r /\ 0 <= r_lum r) ->
  construct fuel o (mk_view d va) args = Some (m, om) -> 0 <= illum m.
Proof.
  intros Hd Hva Ho Hs He Hr. rewrite construct_plain by auto. intros [= <- _].
  unfold illum, mset_of. cbn [ms_rays ms_scale]. apply Rmult_le_pos; auto.
  apply Rsumf_nonneg. intros r Hin. unfold m_ctheta. cbn [ms_vm].
  destruct (seen_data _ _ _ Hin) as [r0 [H0 [E1 E2]]]. destruct (Hr r0 H0) as [_ [A B]].
  assert (0 <= vm_ctheta (mk_view d va) (r_vec r)).
  { apply in_view_ctheta; auto.
    - apply (seen_unit (mk_view d va) args); auto. intros x Hx. apply Hr; auto.
    - apply (seen_in_view _ args); auto. rewrite mk_view_hemi_aspect by auto. lia. }
  rewrite E1, E2. apply Rmult_le_pos; [apply Rmult_le_pos|]; auto.
Qed.
(** a full sphere counts light from behind as negative *)
Lemma full_ctheta_behind : vm_ctheta full (V3 0 0 (-1)) = -1.
Proof.
  unfold vm_ctheta, full. rewrite mk_view_dxyz by (apply unit_nonzero, up3_unit). rewrite norm_up3.
  replace (dot up3 (V3 0 0 (-1))) with (-1) by (unfold dot, up3; cbn [vx vy vz]; ring).
  unfold clip, Rmin, Rmax. destruct (Rle_dec (-1) (-1)); destruct (Rle_dec _ 1); lra.
Qed.
Lemma illum_negative_360 : exists m om, construct 0 (opts1 2000) full [Ray (V3 0 0 (-1)) 1 1] = Some (m, om) /\ illum m < 0.
Proof.
  eexists _, _. split; [apply full_construct; auto|].
  unfold illum, mset_of, normed, m_ctheta. cbn [ms_rays ms_scale ms_vm map r_vec r_lum r_omega opts1 o_scale].
  rewrite Rsumf_1. cbn [r_vec r_lum r_omega]. rewrite norm_unit_id by (unfold dot; cbn; ring).
  rewrite full_ctheta_behind. lra.
Qed.

(** ** contrast ratios *)
Lemma cauchy_weighted {A} (x w : A -> R) l : (forall a, In a l -> 0 <= w a) ->
  Rsumf (fun a => x a * w a) l * Rsumf (fun a => x a * w a) l <= Rsumf (fun a => x a * x a * w a) l * Rsumf w l.
Proof.
  intros Hw. set (S0 := Rsumf w l). set (S1 := Rsumf (fun a => x a * w a) l). set (S2 := Rsumf (fun a => x a * x a * w a) l).
  assert (Hq : forall t, 0 <= S2 + 2 * t * S1 + t * t * S0).
  { intros t. replace (S2 + 2 * t * S1 + t * t * S0) with (Rsumf (fun a => (x a + t) * (x a + t) * w a) l).
    - apply Rsumf_nonneg. intros a Ha. apply Rmult_le_pos; auto. apply Rle_0_sqr.
    - unfold S0, S1, S2. rewrite <- !Rsumf_scal, <- !Rsumf_plus. apply Rsumf_ext. intros a _. ring. }
  assert (H0 : 0 <= S0) by (apply Rsumf_nonneg; auto).
  assert (H2 : 0 <= S2) by (pose proof (Hq 0); lra).
  destruct H0 as [H0|H0].
  - specialize (Hq (- S1 / S0)). 
    assert (E : S2 + 2 * (- S1 / S0) * S1 + - S1 / S0 * (- S1 / S0) * S0 = S2 - S1 * S1 / S0) by (field; lra).
    rewrite E in Hq. assert (S1 * S1 / S0 * S0 <= S2 * S0) by (apply Rmult_le_compat_r; lra).
    replace (S1 * S1 / S0 * S0) with (S1 * S1) in H by (field; lra). auto.
  - rewrite <- H0 in *. assert (S1 = 0); [|nra].
    destruct (Req_dec S1 0) as [|Hn]; auto. exfalso.
    specialize (Hq (- (S2 + 1) / (2 * S1))). 
    replace (S2 + 2 * (- (S2 + 1) / (2 * S1)) * S1 + - (S2 + 1) / (2 * S1) * (- (S2 + 1) / (2 * S1)) * 0) with (-1) in Hq by (field; auto). lra.
Qed.
Definition gcr_raw (x w : ray -> R) (l : list ray) (s a : R) : xr :=
  gcr_of (xdiv (Fin (Rsumf (fun r => x r * x r * w r) l * (s * s))) (Fin a))
         (xdiv (Fin (Rsumf (fun r => x r * w r) l * s)) (Fin a)).
Lemma gcr_raw_ge x w l s : (forall r, In r l -> 0 <= w r) -> finite (fun g => 1 <= g) (gcr_raw x w l s (Rsumf w l)).
Proof.
  intros Hw. unfold gcr_raw, gcr_of, xdiv. pose proof (cauchy_weighted x w l Hw) as C.
  assert (H0 : 0 <= Rsumf w l) by (apply Rsumf_nonneg; auto).
  destruct (Reqb (Rsumf w l) 0) eqn:E.
  - apply Reqb_true in E. rewrite E in C. assert (Z : Rsumf (fun r => x r * w r) l = 0) by nra. rewrite Z, Rmult_0_l.
    unfold xinf. replace (Rltb 0 0) with false by (symmetry; apply Rltb_false; lra). cbn [xgtb]. exists 1. split; [auto|lra].
  - apply Reqb_false in E. cbn [xgtb].
    set (S0 := Rsumf w l) in *. set (S1 := Rsumf (fun r => x r * w r) l) in *. set (S2 := Rsumf (fun r => x r * x r * w r) l) in *.
    destruct (Rgtb (S1 * s / S0) 0) eqn:G; [|exists 1; split; [auto|lra]].
    apply Rltb_true in G. cbn [xmul].
    assert (Hp : 0 < S1 * s / S0 * (S1 * s / S0)) by nra.
    replace (Reqb _ 0) with false by (symmetry; apply Reqb_false; lra).
    eexists. split; [reflexivity|]. set (T := S1 * s / S0 * (S1 * s / S0)) in *.
    apply Rmult_le_reg_r with T; auto.
    replace (S2 * (s * s) / S0 / T * T) with (S2 * (s * s) / S0) by (field; lra). rewrite Rmult_1_l.
    assert (Hs0 : s <> 0) by (intros ->; unfold Rdiv in G; rewrite Rmult_0_r, Rmult_0_l in G; lra).
    assert (Hs : 0 < s * s / S0) by (apply Rmult_lt_0_compat; [nra|apply Rinv_0_lt_compat; lra]).
    replace T with (S1 * S1 / S0 * (s * s / S0)) by (unfold T; field; lra).
    replace (S2 * (s * s) / S0) with (S2 * (s * s / S0)) by (field; lra).
    apply Rmult_le_compat_r; [lra|]. apply Rmult_le_reg_r with S0; [lra|].
    replace (S1 * S1 / S0 * S0) with (S1 * S1) by (field; lra). auto.
Qed.
Lemma gcr_eq m : gcr m = gcr_raw r_lum r_omega (ms_rays m) (ms_scale m) (ms_view_area m).
Proof. reflexivity. Qed.
Lemma pwgcr_eq m : pwgcr m = gcr_raw r_lum (m_pweight m) (ms_rays m) (ms_scale m) (Rsumf (m_pweight m) (ms_rays m)).
Proof. reflexivity. Qed.
Lemma gcr_ge_1 m : (forall r, In r (ms_rays m) -> 0 <= r_omega r) -> ms_view_area m = Rsumf r_omega (ms_rays m) ->
  finite (fun g => 1 <= g) (gcr m).
Proof. intros H E. rewrite gcr_eq, E. apply gcr_raw_ge. auto. Qed.
Lemma pweight_nonneg m r : 0 <= r_omega r -> 0 <= m_pweight m r.
Proof.
  intros H. unfold m_pweight. pose proof (positions_pos (ms_guth m) (ms_vm m) (r_vec r)) as P. fold (m_pidx m r) in P.
  apply Rmult_le_pos; auto. left. apply Rinv_0_lt_compat. unfold square. nra.
Qed.
Lemma pwgcr_ge_1 m : (forall r, In r (ms_rays m) -> 0 <= r_omega r) -> finite (fun g => 1 <= g) (pwgcr m).
Proof. intros H. rewrite pwgcr_eq. apply gcr_raw_ge. intros r Hr. apply pweight_nonneg. auto. Qed.
Lemma log10_ge_0 x : 1 <= x -> 0 <= log10 x.
Proof.
  intros H. unfold log10. assert (0 < ln 10) by (rewrite <- ln_1; apply ln_increasing; lra).
  apply Rmult_le_pos; [|left; apply Rinv_0_lt_compat; auto].
  destruct H as [H| <-]; [|rewrite ln_1; lra]. rewrite <- ln_1. left. apply ln_increasing; lra.
Qed.
Lemma xlog10_ge g : finite (fun g => 1 <= g) g -> finite (fun x => 0 <= x) (xlog10 g).
Proof.
  intros [x [-> H]]. unfold xlog10. replace (Rltb 0 x) with true by (symmetry; apply Rltb_true; lra).
  eexists. split; [reflexivity|]. apply log10_ge_0. auto.
Qed.
(** uniform fields *)
Lemma Rsumf_const_mul {A} (f w : A -> R) c l : (forall a, In a l -> f a = c) -> Rsumf (fun a => f a * w a) l = c * Rsumf w l.
Proof. intros H. rewrite <- Rsumf_scal. apply Rsumf_ext. intros a Ha. rewrite (H a Ha). auto. Qed.
Lemma gcr_raw_uniform w l s c : (forall r, In r l -> r_lum r = c) -> Rsumf w l <> 0 -> gcr_raw r_lum w l s (Rsumf w l) = Fin 1.
Proof.
  intros Hc H0. unfold gcr_raw.
  replace (Rsumf (fun r => r_lum r * r_lum r * w r) l) with (c * c * Rsumf w l).
  2:{ rewrite <- Rsumf_scal. apply Rsumf_ext. intros r Hr. rewrite (Hc r Hr). auto. }
  rewrite (Rsumf_const_mul r_lum w c) by auto. rewrite !xdiv_fin by auto. unfold gcr_of. cbn [xgtb].
  replace (c * Rsumf w l * s / Rsumf w l) with (c * s) by (field; auto).
  destruct (Rgtb (c * s) 0) eqn:E; auto. apply Rltb_true in E. cbn [xmul]. rewrite xdiv_fin by nra. f_equal.
  field. split; nra.
Qed.
Lemma gcr_uniform m c : (forall r, In r (ms_rays m) -> r_lum r = c) -> ms_view_area m = Rsumf r_omega (ms_rays m) ->
  ms_view_area m <> 0 -> gcr m = Fin 1.
Proof. intros H E E0. rewrite gcr_eq, E. apply gcr_raw_uniform with c; auto. congruence. Qed.
Lemma pweighted_area_pos m : (forall r, In r (ms_rays m) -> 0 < r_omega r) -> ms_rays m <> [] -> 0 < Rsumf (m_pweight m) (ms_rays m).
Proof.
  intros H Hn. assert (P : forall r, In r (ms_rays m) -> 0 < m_pweight m r).
  { intros r Hr. unfold m_pweight. pose proof (positions_pos (ms_guth m) (ms_vm m) (r_vec r)) as P. fold (m_pidx m r) in P.
    apply Rmult_lt_0_compat; auto. apply Rinv_0_lt_compat. unfold square. nra. }
  destruct (ms_rays m) as [|r l]; [congruence|]. rewrite Rsumf_cons.
  pose proof (P r (or_introl eq_refl)). assert (0 <= Rsumf (m_pweight m) l); [|lra].
  apply Rsumf_nonneg. intros a Ha. left. apply P. right. auto.
Qed.
Lemma pwgcr_uniform m c : (forall r, In r (ms_rays m) -> r_lum r = c /\ 0 < r_omega r) -> ms_rays m <> [] -> pwgcr m = Fin 1.
Proof.
  intros H Hn. rewrite pwgcr_eq. apply gcr_raw_uniform with c; [intros r Hr; apply (H r Hr)|].
  apply Rgt_not_eq. apply pweighted_area_pos; auto. intros r Hr. apply (H r Hr).
Qed.
(** scale invariance *)
Lemma Rltb_pos_scale k y : 0 < k -> Rltb 0 (k * y) = Rltb 0 y.
Proof. intros Hk. destruct (Rltb 0 y) eqn:F; [apply Rltb_true in F; apply Rltb_true; nra|apply Rltb_false in F; apply Rltb_false; nra]. Qed.
Lemma Rltb_neg_scale k y : 0 < k -> Rltb (k * y) 0 = Rltb y 0.
Proof. intros Hk. destruct (Rltb y 0) eqn:F; [apply Rltb_true in F; apply Rltb_true; nra|apply Rltb_false in F; apply Rltb_false; nra]. Qed.
Lemma xinf_scale k y : 0 < k -> xinf (k * y) = xinf y.
Proof. intros Hk. unfold xinf. rewrite Rltb_pos_scale, Rltb_neg_scale by auto. auto. Qed.
Lemma gcr_raw_scale x w l s a k : 0 < k -> gcr_raw x w l (k * s) a = gcr_raw x w l s a.
Proof.
  intros Hk. unfold gcr_raw. set (S1 := Rsumf (fun r => x r * w r) l). set (S2 := Rsumf (fun r => x r * x r * w r) l).
  replace (S2 * (k * s * (k * s))) with (k * k * (S2 * (s * s))) by ring.
  replace (S1 * (k * s)) with (k * (S1 * s)) by ring. set (p := S2 * (s * s)). set (q := S1 * s).
  assert (Hkk : 0 < k * k) by nra.
  unfold gcr_of, xdiv. destruct (Reqb a 0) eqn:E.
  - rewrite !xinf_scale by auto. reflexivity.
  - apply Reqb_false in E. cbn [xgtb]. unfold Rgtb.
    replace (k * q / a) with (k * (q / a)) by (field; auto). rewrite Rltb_pos_scale by auto.
    destruct (Rltb 0 (q / a)) eqn:G; auto. apply Rltb_true in G. cbn [xmul]. set (y := q / a) in *.
    assert (Hky : 0 < k * y) by nra.
    replace (Reqb (k * y * (k * y)) 0) with false by (symmetry; apply Reqb_false; nra).
    replace (Reqb (y * y) 0) with false by (symmetry; apply Reqb_false; nra). f_equal. field. repeat split; lra.
Qed.
Lemma gcr_scale m k : 0 < k -> gcr (with_scale m (k * ms_scale m)) = gcr m.
Proof. intros H. rewrite !gcr_eq. apply gcr_raw_scale. auto. Qed.
Lemma pwgcr_scale m k : 0 < k -> pwgcr (with_scale m (k * ms_scale m)) = pwgcr m.
Proof. intros H. rewrite !pwgcr_eq. apply gcr_raw_scale. auto. Qed.
Lemma gcr_raw_lum w w' l s a k : 0 < k -> (forall r, w' (Ray (r_vec r) (r_omega r) (k * r_lum r)) = w r) ->
  gcr_raw r_lum w' (scale_lum k l) s a = gcr_raw r_lum w l s a.
Proof.
  intros Hk Hw. transitivity (gcr_raw r_lum w l (k * s) a); [|apply gcr_raw_scale; auto]. unfold gcr_raw.
  assert (E : forall F : R -> R, Rsumf (fun r => F (r_lum r) * w' r) (scale_lum k l) = Rsumf (fun r => F (k * r_lum r) * w r) l).
  { intros F. unfold Rsumf, scale_lum. rewrite map_map. f_equal. apply map_ext. intros r. cbn [r_lum]. rewrite Hw. auto. }
  rewrite (E (fun x => x * x)), (E (fun x => x)).
  replace (Rsumf (fun r => k * r_lum r * (k * r_lum r) * w r) l) with (k * k * Rsumf (fun r => r_lum r * r_lum r * w r) l)
    by (rewrite <- Rsumf_scal; apply Rsumf_ext; intros r _; ring).
  replace (Rsumf (fun r => k * r_lum r * w r) l) with (k * Rsumf (fun r => r_lum r * w r) l)
    by (rewrite <- Rsumf_scal; apply Rsumf_ext; intros r _; ring).
  do 2 f_equal; f_equal; ring.
Qed.
Lemma gcr_lum m k : 0 < k -> gcr (with_rays m (scale_lum k (ms_rays m))) = gcr m.
Proof. intros H. rewrite !gcr_eq. cbn [with_rays ms_rays ms_scale ms_view_area]. apply gcr_raw_lum; auto. Qed.
Lemma pwgcr_lum m k : 0 < k -> pwgcr (with_rays m (scale_lum k (ms_rays m))) = pwgcr m.
Proof.
  intros H. rewrite !pwgcr_eq. cbn [with_rays ms_rays ms_scale].
  replace (Rsumf _ (scale_lum k (ms_rays m))) with (Rsumf (m_pweight m) (ms_rays m)).
  - apply gcr_raw_lum; auto.
  - unfold Rsumf, scale_lum. rewrite map_map. reflexivity.
Qed.
