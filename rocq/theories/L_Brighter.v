(** Lemmas on scenes that become brighter. *)
From Coq Require Import Lra Lia.
From Verif Require Import Base L_Base BaseX M_Translate M_Mapper M_Metric S_Metric L_Metric L_Metric2 L_Pidx L_Metric3 S_Brighter.
Local Open Scope R_scope.

Lemma xinf_scale k a : 0 < k -> xinf (k * a) = xinf a.
Proof. intros H. unfold xinf. case_Rltb 0 a; case_Rltb 0 (k * a); try nra; auto. case_Rltb a 0; case_Rltb (k * a) 0; auto; nra. Qed.
Lemma xdiv_scale k a b : 0 < k -> xdiv (Fin (k * a)) (Fin b) = match xdiv (Fin a) (Fin b) with Fin x => Fin (k * x) | y => y end.
Proof.
  intros H. cbn [xdiv]. destruct (Reqb b 0); [|f_equal; unfold Rdiv; ring]. rewrite xinf_scale by exact H.
  unfold xinf. destruct (Rltb 0 a); auto. destruct (Rltb a 0); auto.
Qed.
Lemma is_source_scale m k r : 1 <= k -> is_source m r = true -> is_source (with_scale m (k * ms_scale m)) r = true.
Proof.
  intros K. unfold is_source, threshold. cbn [with_scale ms_threshold ms_scale].
  replace (r_lum r * (k * ms_scale m)) with (k * (r_lum r * ms_scale m)) by ring. set (x := r_lum r * ms_scale m). clearbody x.
  unfold Rgtb. case_Rltb 100 (ms_threshold m).
  - cbn [xgtb]. unfold Rgtb. intros G. apply Rltb_true in G. apply Rltb_true. nra.
  - unfold tasklum. change (in_task (with_scale m (k * ms_scale m))) with (in_task m). cbn [with_scale ms_rays ms_scale].
    set (t := filter (in_task m) (ms_rays m)).
    replace (Rsumf (fun r => r_lum r * r_omega r) t * (k * ms_scale m)) with (k * (Rsumf (fun r => r_lum r * r_omega r) t * ms_scale m)) by ring.
    rewrite (xdiv_scale k) by lra. destruct (xdiv _ _) as [y| | |]; cbn [xmul]; auto.
    + cbn [xgtb]. unfold Rgtb. intros G. apply Rltb_true in G. apply Rltb_true. rewrite Rmult_assoc. apply Rmult_lt_compat_l; lra.
    + unfold xinf. destruct (Rltb 0 (ms_threshold m)); auto. destruct (Rltb (ms_threshold m) 0); auto.
    + unfold xinf. destruct (Rltb 0 (ms_threshold m)); auto. destruct (Rltb (ms_threshold m) 0); auto.
Qed.
Lemma filter_more {A} (g : A -> R) (p q : A -> bool) l : (forall a, In a l -> p a = true -> q a = true) -> (forall a, In a l -> 0 <= g a) ->
  Rsumf g (filter p l) <= Rsumf g (filter q l).
Proof.
  induction l as [|a l IH]; intros H G; [cbn; lra|]. specialize (IH (fun x Hx => H x (or_intror Hx)) (fun x Hx => G x (or_intror Hx))).
  pose proof (H a (or_introl eq_refl)) as Ha. pose proof (G a (or_introl eq_refl)). cbn [filter].
  destruct (p a); [rewrite Ha by auto; rewrite !Rsumf_cons; lra|]. destruct (q a); [rewrite Rsumf_cons; lra|exact IH].
Qed.
Lemma illum_times m k : illum (with_scale m (k * ms_scale m)) = k * illum m.
Proof. unfold illum. change (m_ctheta (with_scale m (k * ms_scale m))) with (m_ctheta m). cbn [with_scale ms_rays ms_scale]. ring. Qed.
Lemma pwsl2_times m k : valid_omega m -> 1 <= k -> k * k * pwsl2 m <= pwsl2 (with_scale m (k * ms_scale m)).
Proof.
  intros V K. unfold pwsl2. change (m_pidx (with_scale m (k * ms_scale m))) with (m_pidx m). cbn [with_scale ms_scale].
  rewrite <- Rsumf_scal. unfold sources. cbn [with_scale ms_rays].
  eapply Rle_trans; [apply filter_more with (q := is_source (with_scale m (k * ms_scale m)))|].
  - intros r _. now apply is_source_scale.
  - intros r Hr. pose proof (positions_pos (ms_guth m) (ms_vm m) (r_vec r)) as P. fold (m_pidx m r) in P. specialize (V r Hr).
    unfold square. unfold Rdiv. apply Rmult_le_pos; [nra|]. apply Rmult_le_pos; [|left; apply Rinv_0_lt_compat; nra].
    apply Rmult_le_pos; [apply Rmult_le_pos; [nra|exact V]|nra].
  - apply Req_le. apply Rsumf_ext. intros r _. unfold Rdiv. ring.
Qed.
Lemma srcillum_times m k : all_illuminate m -> 1 <= k -> k * srcillum m <= srcillum (with_scale m (k * ms_scale m)).
Proof.
  intros V K. unfold srcillum. change (m_ctheta (with_scale m (k * ms_scale m))) with (m_ctheta m). cbn [with_scale ms_scale].
  unfold sources. cbn [with_scale ms_rays].
  pose proof (filter_more (fun r => m_ctheta m r * r_lum r * r_omega r * ms_scale m) (is_source m) (is_source (with_scale m (k * ms_scale m)))
    (ms_rays m) (fun r _ => is_source_scale m k r K) V) as H.
  assert (S : forall l, Rsumf (fun r => m_ctheta m r * r_lum r * r_omega r * ms_scale m) l = Rsumf (fun r => m_ctheta m r * r_lum r * r_omega r) l * ms_scale m).
  { intros l. rewrite Rmult_comm, <- Rsumf_scal. apply Rsumf_ext. intros r _. ring. }
  rewrite !S in H. apply (Rmult_le_compat_l k) in H; [|lra]. eapply Rle_trans; [|eapply Rle_trans; [exact H|]]; apply Req_le; ring.
Qed.
Lemma backlum_times m k : all_illuminate m -> 1 <= k -> backlum (with_scale m (k * ms_scale m)) <= k * backlum m.
Proof.
  intros V K. unfold backlum. rewrite illum_times. pose proof (srcillum_times m k V K). pose proof PI_RGT_0.
  replace (k * ((illum m - srcillum m) / PI)) with ((k * illum m - k * srcillum m) / PI) by (field; lra).
  unfold Rdiv. apply Rmult_le_compat_r; [left; now apply Rinv_0_lt_compat|lra].
Qed.

Lemma log10_lt x y : 0 < x -> x < y -> log10 x < log10 y.
Proof. intros X Y. unfold log10. assert (0 < ln 10) by (rewrite <- ln_1; apply ln_increasing; lra). apply Rmult_lt_compat_r; [now apply Rinv_0_lt_compat|now apply ln_increasing]. Qed.
Lemma lowlight_grows m m' : ms_lowlight m' = ms_lowlight m -> illum m <= illum m' -> lowlight_factor m <= lowlight_factor m'.
Proof.
  intros E H. unfold lowlight_factor. rewrite E. destruct (ms_lowlight m); cbn [andb]; [|lra].
  assert (S : forall x y, 0 < x -> x <= y -> x / (1 + x) <= y / (1 + y)).
  { intros x y X Y. apply (Rmult_le_reg_r ((1 + x) * (1 + y))); [nra|].
    replace (x / (1 + x) * ((1 + x) * (1 + y))) with (x * (1 + y)) by (field; lra).
    replace (y / (1 + y) * ((1 + x) * (1 + y))) with (y * (1 + x)) by (field; lra). nra. }
  case_Rltb (illum m) 500; case_Rltb (illum m') 500; try lra.
  - apply S; [apply exp_pos|]. destruct H as [H| ->]; [left; apply exp_increasing; lra|lra].
  - pose proof (exp_pos (0.024 * illum m - 4)) as P. set (e := exp _) in *. apply (Rmult_le_reg_r (1 + e)); [lra|].
    unfold Rdiv. rewrite Rmult_assoc, Rinv_l by lra. lra.
Qed.
Lemma dgp_brighter m m' k : valid_omega m -> valid_omega m' -> 0 < illum m -> 1 < k -> illum m' = k * illum m ->
  k * k * pwsl2 m <= pwsl2 m' -> ms_lowlight m' = ms_lowlight m ->
  exists x y, dgp m = Fin x /\ dgp m' = Fin y /\ x <= y <= 1 /\ (x < 1 -> x < y).
Proof.
  intros H H' Hi K Ei Hp El. assert (Hi' : 0 < illum m') by nra.
  destruct (dgp_fin m H Hi) as [E1 E2]. destruct (dgp_fin m' H' Hi') as [F1 F2].
  eexists _, _. split; [apply E1|]. split; [apply F1|].
  assert (D : dgp_sum m < dgp_sum m').
  { unfold dgp_sum. rewrite Ei.
    assert (P : 0 < Rpower (illum m) 1.87) by apply exp_pos. pose proof (pwsl2_nonneg m H) as Q.
    assert (L : log10 (1 + pwsl2 m / Rpower (illum m) 1.87) <= log10 (1 + pwsl2 m' / Rpower (k * illum m) 1.87)).
    { assert (B : pwsl2 m / Rpower (illum m) 1.87 <= pwsl2 m' / Rpower (k * illum m) 1.87).
      { rewrite <- Rpower_mult_distr by lra. assert (PK : 0 < Rpower k 1.87) by apply exp_pos.
        assert (PK2 : Rpower k 1.87 <= k * k).
        { replace (k * k) with (Rpower k 2). apply Rle_Rpower; lra. replace 2 with (INR 2) by (cbn; ring). rewrite Rpower_pow by lra. ring. }
        apply (Rmult_le_reg_r (Rpower k 1.87 * Rpower (illum m) 1.87)); [nra|].
        replace (pwsl2 m / Rpower (illum m) 1.87 * (Rpower k 1.87 * Rpower (illum m) 1.87)) with (pwsl2 m * Rpower k 1.87) by (field; lra).
        replace (pwsl2 m' / (Rpower k 1.87 * Rpower (illum m) 1.87) * (Rpower k 1.87 * Rpower (illum m) 1.87)) with (pwsl2 m') by (field; lra).
        nra. }
      assert (0 <= pwsl2 m / Rpower (illum m) 1.87) by (apply Rmult_le_pos; [exact Q|left; now apply Rinv_0_lt_compat]).
      apply log10_le; lra. }
    assert (illum m < k * illum m) by nra. lra. }
  pose proof (lowlight_range m) as R1. pose proof (lowlight_grows m m' El ltac:(nra)) as R2.
  assert (X : lowlight_factor m * dgp_sum m < lowlight_factor m' * dgp_sum m') by nra.
  unfold Rmin. destruct (Rle_dec _ _); destruct (Rle_dec _ _); lra.
Qed.
Lemma dgp_scale m k : valid_omega m -> 0 < illum m -> 1 < k ->
  exists x y, dgp m = Fin x /\ dgp (with_scale m (k * ms_scale m)) = Fin y /\ x <= y <= 1 /\ (x < 1 -> x < y).
Proof.
  intros V I K. apply (dgp_brighter m (with_scale m (k * ms_scale m)) k V V I K); [apply illum_times|apply pwsl2_times; [exact V|lra]|reflexivity].
Qed.
Lemma ugr_scale m k : valid_omega m -> all_illuminate m -> 1 <= k -> 0 < backlum (with_scale m (k * ms_scale m)) ->
  exists x y, ugr m = Fin x /\ ugr (with_scale m (k * ms_scale m)) = Fin y /\ x <= y.
Proof.
  intros V A K B. set (m' := with_scale m (k * ms_scale m)) in *. pose proof (backlum_times m k A K) as T. fold m' in T.
  pose proof (pwsl2_times m k V K) as P. fold m' in P. pose proof (pwsl2_nonneg m V) as Q. assert (B0 : 0 < backlum m) by nra.
  assert (R : 0 <= 0.25 * pwsl2 m / backlum m <= 0.25 * pwsl2 m' / backlum m').
  { split; [apply Rmult_le_pos; [lra|left; now apply Rinv_0_lt_compat]|].
    apply (Rmult_le_reg_r (backlum m * backlum m')); [nra|].
    replace (0.25 * pwsl2 m / backlum m * (backlum m * backlum m')) with (0.25 * pwsl2 m * backlum m') by (field; lra).
    replace (0.25 * pwsl2 m' / backlum m' * (backlum m * backlum m')) with (0.25 * pwsl2 m' * backlum m) by (field; lra).
    assert (pwsl2 m * backlum m' <= pwsl2 m' * backlum m); [|lra].
    apply Rle_trans with (pwsl2 m * (k * backlum m)); [now apply Rmult_le_compat_l|].
    assert (k * pwsl2 m <= pwsl2 m') as HK by (apply Rle_trans with (k * k * pwsl2 m); [rewrite Rmult_assoc; assert (0 <= k * pwsl2 m) by (apply Rmult_le_pos; lra); nra|exact P]).
    replace (pwsl2 m * (k * backlum m)) with (k * pwsl2 m * backlum m) by ring. apply Rmult_le_compat_r; lra. }
  destruct (ugr_range m' V B) as (y & Y & Y0). unfold ugr in *. rewrite !xdiv_fin in * by lra. cbn [xlog10] in *.
  set (u := 0.25 * pwsl2 m / backlum m) in *. set (w := 0.25 * pwsl2 m' / backlum m') in *. clearbody u w.
  case_Rltb 0 u.
  - revert Y. case_Rltb 0 w; [|lra]. cbn [xmul]. rewrite !xmax_fin. intros Y. eexists _, _. split; [reflexivity|]. split; [reflexivity|].
    pose proof (log10_le u w ltac:(lra) ltac:(lra)). unfold Rmax. destruct (Rle_dec _ _); destruct (Rle_dec _ _); lra.
  - replace (Reqb u 0) with true by (symmetry; apply Reqb_true; lra). cbn [xmul]. unfold xinf at 1.
    replace (Rltb 0 8) with true by (symmetry; apply Rltb_true; lra). cbn [xopp xmax xgtb]. exists 0, y. auto.
Qed.

(** brighter rays, or a larger scale *)
Lemma filter_scale k p q l : (forall r, q (Ray (r_vec r) (r_omega r) (k * r_lum r)) = p r) ->
  filter q (scale_lum k l) = scale_lum k (filter p l).
Proof. intros H. induction l as [|r l IH]; [reflexivity|]. cbn [scale_lum map filter]. rewrite H. destruct (p r); cbn [map]; [f_equal|]; exact IH. Qed.
Lemma sum_scale k g h l : (forall r, h (Ray (r_vec r) (r_omega r) (k * r_lum r)) = g r) -> Rsumf h (scale_lum k l) = Rsumf g l.
Proof. intros H. unfold Rsumf, scale_lum. rewrite map_map. f_equal. apply map_ext. intros r. apply H. Qed.
Section Same.
Context (m : mset) (k : R).
Let a := with_rays m (scale_lum k (ms_rays m)).
Let b := with_scale m (k * ms_scale m).
Lemma same_threshold : threshold a = threshold b.
Proof.
  unfold threshold. change (ms_threshold a) with (ms_threshold m). change (ms_threshold b) with (ms_threshold m).
  destruct (Rgtb _ _); [reflexivity|]. f_equal. unfold tasklum. change (ms_rays a) with (scale_lum k (ms_rays m)). change (ms_rays b) with (ms_rays m).
  rewrite (filter_scale k (in_task b) (in_task a)) by reflexivity.
  rewrite (sum_scale k r_omega r_omega) by reflexivity.
  rewrite (sum_scale k (fun r => k * (r_lum r * r_omega r)) (fun r => r_lum r * r_omega r)) by (intros r; cbn [r_lum r_omega]; ring).
  rewrite Rsumf_scal. f_equal. f_equal. change (ms_scale a) with (ms_scale m). change (ms_scale b) with (k * ms_scale m). ring.
Qed.
Lemma same_sources : sources a = scale_lum k (sources b).
Proof.
  unfold sources. change (ms_rays a) with (scale_lum k (ms_rays m)). change (ms_rays b) with (ms_rays m). apply filter_scale.
  intros r. unfold is_source. rewrite same_threshold. cbn [r_lum]. change (ms_scale a) with (ms_scale m). change (ms_scale b) with (k * ms_scale m).
  f_equal. f_equal. ring.
Qed.
Lemma same_illum : illum a = illum b.
Proof. unfold a, b. now rewrite illum_times, illum_scale_lum. Qed.
Lemma same_pwsl2 : pwsl2 a = pwsl2 b.
Proof.
  unfold pwsl2. rewrite same_sources. apply sum_scale. intros r. cbn [r_lum r_omega]. change (m_pidx a (Ray (r_vec r) (r_omega r) (k * r_lum r))) with (m_pidx b r).
  change (ms_scale a) with (ms_scale m). change (ms_scale b) with (k * ms_scale m). unfold square, Rdiv. ring.
Qed.
Lemma same_srcillum : srcillum a = srcillum b.
Proof.
  unfold srcillum. rewrite same_sources. change (ms_scale a) with (ms_scale m). change (ms_scale b) with (k * ms_scale m).
  rewrite (sum_scale k (fun r => k * (m_ctheta b r * r_lum r * r_omega r)) (fun r => m_ctheta a r * r_lum r * r_omega r)).
  - rewrite Rsumf_scal. ring.
  - intros r. cbn [r_lum r_omega]. change (m_ctheta a (Ray (r_vec r) (r_omega r) (k * r_lum r))) with (m_ctheta b r). ring.
Qed.
Lemma same_metrics : dgp a = dgp b /\ ugr a = ugr b /\ ugp a = ugp b.
Proof.
  assert (B : backlum a = backlum b) by (unfold backlum; now rewrite same_illum, same_srcillum).
  assert (U : ugr a = ugr b) by (unfold ugr; now rewrite same_pwsl2, B).
  split; [|split; [exact U|unfold ugp; now rewrite U]].
  unfold dgp, dgp_t1, dgp_t2, log_gc, lowlight_factor. now rewrite same_illum, same_pwsl2.
Qed.
End Same.

(** a brighter background lowers dgp *)
Definition lamp : ray := Ray up3 (/ 100000) 10000000.
Definition wall (l : R) : ray := Ray up3 1 l.
Definition room (l : R) : mset := mset_of (opts1 2000) full [lamp; wall l].
Lemma room_made l : construct 0 (opts1 2000) full [lamp; wall l] = Some (room l, [/ 100000; 1]).
Proof.
  rewrite full_construct by reflexivity. unfold room, normed, lamp, wall. cbn [map r_vec r_omega r_lum]. now rewrite !norm_up3.
Qed.
Lemma room_illum l : illum (room l) = 100 + l.
Proof.
  unfold illum, room, mset_of, m_ctheta, lamp, wall. cbn [ms_rays ms_scale ms_vm opts1 o_scale]. rewrite Rsumf_2. cbn [r_vec r_lum r_omega].
  rewrite full_ctheta. field.
Qed.
Lemma room_sources l : l <= 2000 -> sources (room l) = [lamp].
Proof.
  intros H. unfold room. rewrite sources_fixed by (cbn; lra). cbn [mset_of opts1 ms_rays ms_scale ms_threshold o_scale o_threshold filter lamp wall r_lum].
  unfold Rgtb. case_Rltb 2000 (10000000 * 1); [|lra]. case_Rltb 2000 (l * 1); [lra|]. reflexivity.
Qed.
Lemma room_pwsl2 l : l <= 2000 -> pwsl2 (room l) = 10 ^ 9 / square (positions true full up3).
Proof.
  intros H. unfold pwsl2. rewrite room_sources, Rsumf_1 by exact H. unfold room, mset_of, m_pidx, lamp. cbn [ms_scale ms_guth ms_vm opts1 o_scale o_guth r_lum r_omega r_vec].
  unfold square. pose proof (positions_pos true full up3). field. lra.
Qed.
Lemma room_valid l : valid_omega (room l).
Proof. intros r [<-|[<-|[]]]; cbn [lamp wall r_omega]; lra. Qed.
Lemma hundred : Rpower 100 1.87 <= 10 ^ 4.
Proof.
  replace (10 ^ 4) with (Rpower 100 2). apply Rle_Rpower; lra. replace 2 with (INR 2) by (cbn; ring). rewrite Rpower_pow by lra. ring.
Qed.
Lemma thousand : 3 * 10 ^ 5 <= Rpower 1000 1.87.
Proof.
  replace 1000 with (Rpower 10 3) by (replace 3 with (INR 3) by (cbn; ring); rewrite Rpower_pow by lra; ring).
  rewrite Rpower_mult. replace (3 * 1.87) with (5 + 0.61) by lra. rewrite Rpower_plus.
  replace (Rpower 10 5) with (10 ^ 5) by (replace 5 with (INR 5) by (cbn; ring); rewrite Rpower_pow by lra; reflexivity).
  assert (3 <= Rpower 10 0.61).
  { apply Rle_trans with (Rpower 10 (/ 2)); [|apply Rle_Rpower; lra]. rewrite Rpower_sqrt by lra.
    replace 3 with (sqrt (3 * 3)) by (rewrite sqrt_square; lra). apply sqrt_le_1_alt. lra. }
  nra.
Qed.
Lemma log10_pow n : log10 (10 ^ n) = INR n.
Proof. unfold log10. rewrite <- Rpower_pow by lra. unfold Rpower. rewrite ln_exp. field. assert (0 < ln 10) by (rewrite <- ln_1; apply ln_increasing; lra). lra. Qed.
Lemma log10_ten x : 0 < x -> log10 (10 * x) = 1 + log10 x.
Proof. intros H. unfold log10. rewrite ln_mult by lra. field. assert (0 < ln 10) by (rewrite <- ln_1; apply ln_increasing; lra). lra. Qed.
Lemma room_dgp : exists x y, dgp (room 0) = Fin x /\ dgp (room 900) = Fin y /\ y < x.
Proof.
  destruct (dgp_fin (room 0) (room_valid 0)) as [E _]; [rewrite room_illum; lra|].
  destruct (dgp_fin (room 900) (room_valid 900)) as [F _]; [rewrite room_illum; lra|].
  eexists _, _. split; [exact E|]. split; [exact F|]. clear E F.
  assert (L : forall l, lowlight_factor (room l) = 1) by reflexivity. rewrite !L, !Rmult_1_l.
  unfold dgp_sum. rewrite !room_illum, !room_pwsl2 by lra. replace (100 + 0) with 100 by ring. replace (100 + 900) with 1000 by ring.
  pose proof (positions_range full up3) as P. set (p := positions true full up3) in *. clearbody p.
  assert (S : 10 ^ 9 / 256 <= 10 ^ 9 / square p <= 10 ^ 9).
  { unfold square. assert (1 <= p * p <= 256) by nra. split.
    - unfold Rdiv. apply Rmult_le_compat_l; [lra|]. apply Rinv_le_contravar; lra.
    - apply (Rmult_le_reg_r (p * p)); [lra|]. unfold Rdiv. rewrite Rmult_assoc, Rinv_l by lra. nra. }
  set (s := 10 ^ 9 / square p) in *. clearbody s. pose proof hundred as A. pose proof thousand as B.
  assert (A0 : 0 < Rpower 100 1.87) by apply exp_pos. set (u := Rpower 100 1.87) in *. set (w := Rpower 1000 1.87) in *. clearbody u w.
  assert (U : s / 10 ^ 4 <= s / u) by (unfold Rdiv; apply Rmult_le_compat_l; [lra|apply Rinv_le_contravar; lra]).
  assert (W : 0 < s / w <= s / (3 * 10 ^ 5)).
  { split; [apply Rdiv_lt_0_compat; lra|]. unfold Rdiv. apply Rmult_le_compat_l; [lra|apply Rinv_le_contravar; lra]. }
  set (x := s / u) in *. set (y := s / w) in *. clearbody x y.
  assert (Y : log10 (1 + y) <= 5) by (replace 5 with (INR 5) by (cbn; ring); rewrite <- log10_pow; apply log10_le; lra).
  assert (X : 1 + log10 (1 + y) <= log10 (1 + x)) by (rewrite <- log10_ten by lra; apply log10_le; lra).
  unfold Rmin. destruct (Rle_dec _ _); destruct (Rle_dec _ _); lra.
Qed.
Lemma brighter_lower : exists o vm a b ma mb oa ob, no_darker a b /\ construct 0 o vm a = Some (ma, oa) /\ construct 0 o vm b = Some (mb, ob) /\
  valid_rays ma /\ valid_rays mb /\ exists x y, dgp ma = Fin x /\ dgp mb = Fin y /\ y < x.
Proof.
  exists (opts1 2000), full, [lamp; wall 0], [lamp; wall 900]. do 4 eexists. split; [|split; [apply room_made|split; [apply room_made|]]].
  - apply Forall2_cons; [split; [reflexivity|split; [reflexivity|lra]]|].
    apply Forall2_cons; [split; [reflexivity|split; [reflexivity|cbn [wall r_lum]; lra]]|]. apply Forall2_nil.
  - split; [intros r [<-|[<-|[]]]; cbn [lamp wall r_omega r_lum]; lra|]. split; [intros r [<-|[<-|[]]]; cbn [lamp wall r_omega r_lum]; lra|].
    exact room_dgp.
Qed.
Lemma room_lit l : 0 <= l -> all_illuminate (room l).
Proof.
  intros H r [<-|[<-|[]]]; unfold m_ctheta, room, mset_of, lamp, wall; cbn [ms_vm ms_scale opts1 o_scale r_vec r_lum r_omega]; rewrite full_ctheta; lra.
Qed.
Lemma room_example : valid_omega (room 900) /\ 0 < illum (room 900) /\ all_illuminate (room 900) /\ 0 < backlum (with_scale (room 900) (2 * 1)).
Proof.
  split; [apply room_valid|]. split; [rewrite room_illum; lra|]. split; [apply room_lit; lra|].
  unfold backlum, srcillum. change (2 * 1) with (2 * ms_scale (room 900)). rewrite illum_times, room_illum.
  rewrite sources_fixed by (cbn; lra). cbn [with_scale room mset_of opts1 ms_rays ms_scale ms_threshold o_scale o_threshold filter lamp wall r_lum].
  unfold Rgtb. case_Rltb 2000 (10000000 * (2 * 1)); [|lra]. case_Rltb 2000 (900 * (2 * 1)); [lra|].
  rewrite Rsumf_1. match goal with |- context [m_ctheta ?a ?r] => change (m_ctheta a r) with (vm_ctheta full up3) end. rewrite full_ctheta.
  cbn [with_scale ms_scale room mset_of opts1 o_scale lamp r_lum r_omega].
  apply Rdiv_lt_0_compat; [lra|apply PI_RGT_0].
Qed.
