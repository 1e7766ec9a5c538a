(** Lemmas on raising the threshold. *)
From Coq Require Import Lra Lia.
From Verif Require Import Base L_Base BaseX M_Translate M_Mapper M_Metric S_Metric L_Metric L_Metric2 L_Pidx L_Metric3 S_Brighter L_Brighter L_Uniform S_Level.
Local Open Scope R_scope.

Section Level.
Context (m : mset) (t' : R).
Let m' := with_threshold m t'.
Hypothesis V : valid_rays m.
Hypothesis S0 : 0 <= ms_scale m.
Hypothesis T : ms_threshold m <= t'.
Hypothesis K : same_kind (ms_threshold m) t'.
Lemma lv_omega : valid_omega m. Proof. intros r Hr. now apply V. Qed.
Lemma lv_source r : is_source m' r = true -> is_source m r = true.
Proof.
  unfold is_source. change (ms_scale m') with (ms_scale m). set (x := r_lum r * ms_scale m). clearbody x.
  unfold threshold. change (ms_threshold m') with t'. change (tasklum m') with (tasklum m). unfold Rgtb.
  destruct K as [[A B]|[A B]].
  - case_Rltb 100 (ms_threshold m); [|lra]. case_Rltb 100 t'; [|lra]. cbn [xgtb]. unfold Rgtb. intros G. apply Rltb_true in G. apply Rltb_true. lra.
  - case_Rltb 100 (ms_threshold m); [lra|]. case_Rltb 100 t'; [lra|]. unfold tasklum.
    set (q := filter (in_task m) (ms_rays m)).
    assert (Q : forall r, In r q -> In r (ms_rays m)) by (intros y Y; apply filter_In in Y; tauto).
    assert (N : 0 <= Rsumf (fun r => r_lum r * r_omega r) q * ms_scale m).
    { apply Rmult_le_pos; [|exact S0]. apply Rsumf_nonneg. intros y Y. destruct (V y (Q y Y)). now apply Rmult_le_pos. }
    assert (O : 0 <= Rsumf r_omega q) by (apply Rsumf_nonneg; intros y Y; apply (V y (Q y Y))).
    set (n := Rsumf _ q * ms_scale m) in *. set (o := Rsumf r_omega q) in *. clearbody n o. cbn [xdiv].
    destruct (Reqb o 0) eqn:EO.
    + replace (xinf n) with (if Rltb 0 n then PInf else NaN) by (unfold xinf; case_Rltb 0 n; auto; case_Rltb n 0; [lra|auto]).
      case_Rltb 0 n; [|cbn [xmul xgtb]; auto]. cbn [xmul]. unfold xinf.
      case_Rltb 0 t'; [discriminate|]. case_Rltb t' 0; [|discriminate]. case_Rltb 0 (ms_threshold m); [lra|]. case_Rltb (ms_threshold m) 0; [auto|lra].
    + assert (o <> 0) by (intros ->; rewrite (proj2 (Reqb_true 0 0) eq_refl) in EO; discriminate). cbn [xmul xgtb]. unfold Rgtb. intros G. apply Rltb_true in G. apply Rltb_true.
      assert (0 <= n / o) by (apply Rmult_le_pos; [exact N|left; apply Rinv_0_lt_compat; lra]). nra.
Qed.
Lemma lv_sources r : In r (sources m') -> In r (sources m).
Proof. unfold sources. change (ms_rays m') with (ms_rays m). rewrite !filter_In. intros [A B]. split; [exact A|now apply lv_source]. Qed.
Lemma lv_srcarea : srcarea m' <= srcarea m.
Proof. apply filter_more; [intros r _; apply lv_source|intros r Hr; apply (V r Hr)]. Qed.
Lemma lv_pwsl2 : pwsl2 m' <= pwsl2 m.
Proof.
  unfold pwsl2, sources. change (ms_scale m') with (ms_scale m). change (m_pidx m') with (m_pidx m). change (ms_rays m') with (ms_rays m).
  apply filter_more; [intros r _; apply lv_source|]. intros r Hr. destruct (V r Hr) as [A B].
  pose proof (positions_pos (ms_guth m) (ms_vm m) (r_vec r)) as P. fold (m_pidx m r) in P. unfold square, Rdiv.
  apply Rmult_le_pos; [|left; apply Rinv_0_lt_compat; nra]. apply Rmult_le_pos; [|nra]. apply Rmult_le_pos; [nra|assumption].
Qed.
Lemma lv_srcillum : all_illuminate m -> srcillum m' <= srcillum m.
Proof.
  intros A. unfold srcillum, sources. change (ms_scale m') with (ms_scale m). change (m_ctheta m') with (m_ctheta m). change (ms_rays m') with (ms_rays m).
  rewrite !(Rmult_comm _ (ms_scale m)), <- !Rsumf_scal.
  apply filter_more; [intros r _; apply lv_source|]. intros r Hr. specialize (A r Hr).
  replace (ms_scale m * (m_ctheta m r * r_lum r * r_omega r)) with (m_ctheta m r * r_lum r * r_omega r * ms_scale m) by ring. exact A.
Qed.
Lemma lv_backlum : all_illuminate m -> backlum m <= backlum m'.
Proof.
  intros A. unfold backlum. change (illum m') with (illum m). pose proof (lv_srcillum A). pose proof PI_RGT_0.
  unfold Rdiv. apply Rmult_le_compat_r; [left; now apply Rinv_0_lt_compat|lra].
Qed.
Lemma lv_dgp : 0 < illum m -> exists x y, dgp m = Fin x /\ dgp m' = Fin y /\ y <= x.
Proof.
  intros I. destruct (dgp_fin m lv_omega I) as [A _]. destruct (dgp_fin m' lv_omega I) as [B _].
  eexists _, _. split; [exact A|]. split; [exact B|]. change (lowlight_factor m') with (lowlight_factor m). pose proof (lowlight_range m) as L.
  assert (D : dgp_sum m' <= dgp_sum m).
  { unfold dgp_sum. change (illum m') with (illum m). assert (P : 0 < Rpower (illum m) 1.87) by apply exp_pos.
    pose proof lv_pwsl2 as Q. pose proof (pwsl2_nonneg m' lv_omega) as Q0. apply Rinv_0_lt_compat in P. unfold Rdiv at 3 6.
    assert (log10 (1 + pwsl2 m' * / Rpower (illum m) 1.87) <= log10 (1 + pwsl2 m * / Rpower (illum m) 1.87)); [apply log10_le; nra|lra]. }
  assert (lowlight_factor m * dgp_sum m' <= lowlight_factor m * dgp_sum m) by (apply Rmult_le_compat_l; lra).
  unfold Rmin. destruct (Rle_dec _ _); destruct (Rle_dec _ _); lra.
Qed.
Lemma lv_ugr : all_illuminate m -> 0 < backlum m -> exists x y, ugr m = Fin x /\ ugr m' = Fin y /\ y <= x.
Proof.
  intros A B. pose proof (lv_backlum A) as B'. pose proof lv_pwsl2 as P. pose proof (pwsl2_nonneg m' lv_omega) as Q.
  assert (R : 0 <= 0.25 * pwsl2 m' / backlum m' <= 0.25 * pwsl2 m / backlum m).
  { split; [apply Rmult_le_pos; [lra|left; apply Rinv_0_lt_compat; lra]|]. unfold Rdiv. apply Rmult_le_compat; [lra|left; apply Rinv_0_lt_compat; lra|lra|].
    apply Rinv_le_contravar; lra. }
  destruct (ugr_range m lv_omega B) as (y & Y & Y0). unfold ugr in *. rewrite !xdiv_fin in * by lra. cbn [xlog10] in *.
  set (u := 0.25 * pwsl2 m' / backlum m') in *. set (w := 0.25 * pwsl2 m / backlum m) in *. clearbody u w.
  case_Rltb 0 u.
  - revert Y. case_Rltb 0 w; [|lra]. cbn [xmul]. rewrite !xmax_fin. intros Y. eexists _, _. split; [reflexivity|]. split; [reflexivity|].
    pose proof (log10_le u w ltac:(lra) ltac:(lra)). unfold Rmax. destruct (Rle_dec _ _); destruct (Rle_dec _ _); lra.
  - exists y, 0. split; [exact Y|]. split; [|exact Y0]. replace (Reqb u 0) with true by (symmetry; apply Reqb_true; lra). cbn [xmul]. unfold xinf.
    replace (Rltb 0 8) with true by (symmetry; apply Rltb_true; lra). reflexivity.
Qed.
Lemma lv_all : (forall r, In r (sources m') -> In r (sources m)) /\ srcarea m' <= srcarea m /\ pwsl2 m' <= pwsl2 m /\
  (all_illuminate m -> srcillum m' <= srcillum m /\ backlum m <= backlum m').
Proof. split; [exact lv_sources|]. split; [exact lv_srcarea|]. split; [exact lv_pwsl2|]. intros A. split; [now apply lv_srcillum|now apply lv_backlum]. Qed.
End Level.

(** from a multiple of the task luminance to a fixed luminance *)
Definition even (t : R) : mset := mset_of (opts1 t) full [wall 200].
Lemma even_made t : construct 0 (opts1 t) full [wall 200] = Some (even t, [1]).
Proof. rewrite full_construct by reflexivity. unfold even, normed, wall. cbn [map r_vec r_omega r_lum]. now rewrite norm_up3. Qed.
Lemma even_illum t : illum (even t) = 200.
Proof. unfold illum, even, mset_of, m_ctheta, wall. cbn [ms_rays ms_scale ms_vm opts1 o_scale]. rewrite Rsumf_1. cbn [r_vec r_lum r_omega]. rewrite full_ctheta. ring. Qed.
Lemma even_valid t : valid_rays (even t).
Proof. intros r [<-|[]]; cbn [wall r_omega r_lum]; lra. Qed.
Lemma even_task t : Rsumf r_omega (filter (in_task (even t)) (ms_rays (even t))) = 1.
Proof.
  assert (I : in_task (even t) (wall 200) = true).
  { unfold in_task. change (ms_vm (even t)) with full. change (ms_tradius (even t)) with 30. apply Rltb_true. unfold vm_degrees, vm_radians. cbn [wall r_vec].
    fold (vm_ctheta full up3). rewrite full_ctheta, acos_1. unfold Rdiv. rewrite !Rmult_0_l. lra. }
  change (ms_rays (even t)) with [wall 200]. cbn [filter]. rewrite I, Rsumf_1. reflexivity.
Qed.
Lemma even_none : sources (even 100) = [].
Proof.
  apply (u_sources (even 100) 200); [|rewrite even_task; lra|change (ms_scale (even 100)) with 1; lra|change (ms_threshold (even 100)) with 100; lra].
  intros r [<-|[]]. cbn [wall r_lum r_omega]. lra.
Qed.
Lemma even_one : sources (even 101) = [wall 200].
Proof.
  rewrite sources_fixed by (change (ms_threshold (even 101)) with 101; lra).
  cbn [even mset_of opts1 ms_rays ms_scale ms_threshold o_scale o_threshold filter wall r_lum]. unfold Rgtb. case_Rltb 101 (200 * 1); [|lra]. reflexivity.
Qed.
Lemma even_dgp : exists x y, dgp (even 100) = Fin x /\ dgp (even 101) = Fin y /\ x < y.
Proof.
  assert (W : forall t, valid_omega (even t)) by (intros t r Hr; now apply (even_valid t)).
  destruct (dgp_fin (even 100) (W 100)) as [A _]; [rewrite even_illum; lra|]. destruct (dgp_fin (even 101) (W 101)) as [B _]; [rewrite even_illum; lra|].
  eexists _, _. split; [exact A|]. split; [exact B|]. assert (L : forall t, lowlight_factor (even t) = 1) by reflexivity. rewrite !L, !Rmult_1_l.
  assert (P0 : pwsl2 (even 100) = 0) by (unfold pwsl2; rewrite even_none; reflexivity).
  assert (P1 : 0 < pwsl2 (even 101)).
  { unfold pwsl2. rewrite even_one, Rsumf_1. change (ms_scale (even 101)) with 1. cbn [wall r_lum r_omega].
    pose proof (positions_pos (ms_guth (even 101)) (ms_vm (even 101)) (r_vec (wall 200))) as P. fold (m_pidx (even 101) (wall 200)) in P. fold (wall 200). set (p := m_pidx _ _) in *. clearbody p.
    unfold square. apply Rdiv_lt_0_compat; nra. }
  unfold dgp_sum. rewrite P0, !even_illum. set (s := pwsl2 (even 101)) in *. clearbody s.
  assert (Q : 0 < Rpower 200 1.87) by apply exp_pos. set (q := Rpower 200 1.87) in *. clearbody q.
  assert (D : 0 < s / q) by (apply Rdiv_lt_0_compat; lra). set (d := s / q) in *. clearbody d. replace (0 / q) with 0 by (field; lra).
  pose proof (log10_lt (1 + 0) (1 + d) ltac:(lra) ltac:(lra)) as G. replace (log10 (1 + 0)) with 0 in * by (replace (1 + 0) with 1 by ring; unfold log10; rewrite ln_1; unfold Rdiv; ring).
  unfold Rmin. destruct (Rle_dec _ _); destruct (Rle_dec _ _); lra.
Qed.
Lemma level_refuted : exists g s a r l t t' vm args m m' om om', t < t' /\
  construct 0 (Opts g s a t r l) vm args = Some (m, om) /\ construct 0 (Opts g s a t' r l) vm args = Some (m', om') /\
  valid_rays m /\ sources m = [] /\ sources m' = ms_rays m' /\ ms_rays m' <> [] /\ exists x y, dgp m = Fin x /\ dgp m' = Fin y /\ x < y.
Proof.
  exists true, 1, true, 30, false, 100, 101, full, [wall 200], (even 100), (even 101), [1], [1]. split; [lra|]. split; [apply even_made|]. split; [apply even_made|].
  split; [apply even_valid|]. split; [exact even_none|]. split; [exact even_one|]. split; [discriminate|exact even_dgp].
Qed.
Lemma level_example : valid_rays (room 900) /\ 0 <= ms_scale (room 900) /\ same_kind (ms_threshold (room 900)) 20000000 /\ 0 < illum (room 900) /\
  all_illuminate (room 900) /\ 0 < backlum (room 900) /\ sources (room 900) = [lamp] /\ sources (with_threshold (room 900) 20000000) = [].
Proof.
  split; [intros r [<-|[<-|[]]]; cbn [lamp wall r_omega r_lum]; lra|]. split; [change (ms_scale (room 900)) with 1; lra|].
  split; [left; change (ms_threshold (room 900)) with 2000; lra|]. split; [rewrite room_illum; lra|]. split; [apply room_lit; lra|].
  split; [|split; [apply room_sources; lra|]].
  - unfold backlum, srcillum. rewrite room_illum, room_sources, Rsumf_1 by lra. change (m_ctheta (room 900) lamp) with (vm_ctheta full up3). rewrite full_ctheta.
    change (ms_scale (room 900)) with 1. cbn [lamp r_lum r_omega]. apply Rdiv_lt_0_compat; [lra|apply PI_RGT_0].
  - rewrite sources_fixed by (cbn; lra). cbn [with_threshold room mset_of opts1 ms_rays ms_scale ms_threshold o_scale o_threshold filter lamp wall r_lum].
    unfold Rgtb. case_Rltb 20000000 (10000000 * 1); [lra|]. case_Rltb 20000000 (900 * 1); [lra|]. reflexivity.
Qed.
