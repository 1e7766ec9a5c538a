(** Lemmas on scenes of one luminance. *)
From Coq Require Import Lra Lia String.
From Verif Require Import Base L_Base BaseX M_Translate M_Mapper M_Io M_Metric S_Metric S_Translate S_Mapper L_Angles L_Mapper L_Pidx L_Metric L_Metric2 L_Grow.
Import ListNotations.
Local Open Scope R_scope.

Section Uniform.
Context (m : mset) (x : R) (H : forall r, In r (ms_rays m) -> r_lum r = x /\ 0 <= r_omega r).
Context (area : ms_view_area m = Rsumf r_omega (ms_rays m)) (P : 0 < ms_view_area m).
Let L := x * ms_scale m.
Lemma u_sum (w : ray -> R) q : (forall r, In r q -> In r (ms_rays m)) -> Rsumf (fun r => r_lum r * w r) q = x * Rsumf w q.
Proof. intros Q. apply (Rsumf_const_mul r_lum w x). intros r I. apply H, Q, I. Qed.
Lemma u_avglum : avglum m = Fin L.
Proof. unfold avglum. rewrite (u_sum r_omega) by auto. rewrite <- area, xdiv_fin by lra. f_equal. unfold L. field. lra. Qed.
Lemma u_some : exists r, In r (ms_rays m) /\ 0 < r_omega r.
Proof.
  assert (N : forall q, (forall r, In r q -> 0 <= r_omega r) -> 0 < Rsumf r_omega q -> exists r, In r q /\ 0 < r_omega r).
  { induction q as [|r q IH]; intros A B; [cbn in B; lra|]. destruct (Rlt_dec 0 (r_omega r)) as [G|G]; [exists r; split; [left; reflexivity|exact G]|].
    rewrite Rsumf_cons in B. destruct IH as [y [I Y]]; [intros; apply A; right; assumption| |exists y; split; [right; exact I|exact Y]].
    pose proof (A r (or_introl eq_refl)). lra. }
  apply N; [intros r I; apply H, I|]. rewrite <- area. exact P.
Qed.
Lemma u_pwpos : 0 < pweighted_area m.
Proof.
  destruct u_some as [r [I O]]. assert (Q : forall a, 0 < square (m_pidx m a)).
  { intros a. pose proof (positions_pos (ms_guth m) (ms_vm m) (r_vec a)). unfold square, m_pidx. nra. }
  apply (Rsumf_pos (m_pweight m) (ms_rays m) r); [|exact I|].
  - intros b J. unfold m_pweight, Rdiv. apply Rmult_le_pos; [apply H, J|]. left. apply Rinv_0_lt_compat, Q.
  - unfold m_pweight, Rdiv. apply Rmult_lt_0_compat; [exact O|]. apply Rinv_0_lt_compat, Q.
Qed.
Lemma u_pwavglum : pwavglum m = Fin L.
Proof. unfold pwavglum. rewrite (u_sum (m_pweight m)) by auto. pose proof u_pwpos as Q. fold (pweighted_area m). rewrite xdiv_fin by lra. f_equal. unfold L. field. lra. Qed.
Lemma u_avgray : avgraylum m = Fin L.
Proof.
  destruct u_some as [r [I _]]. unfold avgraylum, xmean.
  assert (E : Rsum (map r_lum (ms_rays m)) = INR (List.length (ms_rays m)) * x).
  { rewrite <- (Rsumf_const x (ms_rays m)). apply (Rsumf_ext r_lum (fun _ => x)). intros a J. apply H, J. }
  assert (N : 0 < INR (List.length (ms_rays m))) by (apply lt_0_INR; destruct (ms_rays m); [contradiction|cbn; lia]).
  rewrite E, map_length, xdiv_fin by lra. cbn [xmul]. f_equal. unfold L. field. lra.
Qed.
Lemma u_max : maxlum m = L.
Proof.
  destruct u_some as [r [I _]]. unfold maxlum. destruct (map r_lum (ms_rays m)) as [|y q] eqn:E; [destruct (ms_rays m); [contradiction|discriminate]|].
  assert (A : forall z, In z (y :: q) -> z = x) by (intros z J; rewrite <- E in J; apply in_map_iff in J as [a [<- J]]; apply H, J).
  unfold L. f_equal. clear - A. revert y A. induction q as [|z q IH]; intros y A; cbn [list_max]; [apply A; left; reflexivity|].
  rewrite IH by (intros t J; apply A; right; exact J). rewrite (A y) by (left; reflexivity). apply Rmax_left. lra.
Qed.
Lemma u_gcr : 0 < L -> gcr m = Fin 1 /\ pwgcr m = Fin 1.
Proof.
  intros G. unfold gcr, pwgcr. rewrite u_avglum, u_pwavglum. pose proof u_pwpos as Q. unfold gcr_of, xgtb, Rgtb. case_Rltb 0 L; [|lra].
  assert (Ew : forall w, Rsumf (fun r => r_lum r * r_lum r * w r) (ms_rays m) = x * x * Rsumf w (ms_rays m)).
  { intros w. transitivity (Rsumf (fun r => r_lum r * (r_lum r * w r)) (ms_rays m)); [apply Rsumf_ext; intros; ring|].
    rewrite u_sum, u_sum by auto. ring. }
  rewrite (Ew r_omega), (Ew (m_pweight m)). fold (pweighted_area m). rewrite <- area. rewrite !xdiv_fin by lra. cbn [xmul].
  unfold L in *. assert (x <> 0) by (intros ->; lra). assert (ms_scale m <> 0) by (intros Z; rewrite Z in G; lra).
  rewrite !xdiv_fin by nra. split; f_equal; field; repeat split; lra.
Qed.
Lemma u_log : 0 < L -> loggcr m = Fin 0 /\ logpwgcr m = Fin 0.
Proof.
  intros G. destruct (u_gcr G) as [A B]. unfold loggcr, logpwgcr. rewrite A, B. unfold xlog10. case_Rltb 0 1; [|lra].
  unfold log10. rewrite ln_1. split; f_equal; unfold Rdiv; ring.
Qed.
(** a threshold relative to the task finds no sources *)
Lemma u_task : 0 < Rsumf r_omega (filter (in_task m) (ms_rays m)) -> tasklum m = Fin L.
Proof.
  intros T. unfold tasklum. rewrite (u_sum r_omega) by (intros r I; apply filter_In in I; apply I). rewrite xdiv_fin by lra. f_equal. unfold L. field. lra.
Qed.
Lemma u_sources : 0 < Rsumf r_omega (filter (in_task m) (ms_rays m)) -> 0 <= L -> 1 <= ms_threshold m <= 100 -> sources m = [].
Proof.
  intros T G R. assert (E : threshold m = Fin (L * ms_threshold m)).
  { unfold threshold, Rgtb. case_Rltb 100 (ms_threshold m); [lra|]. rewrite u_task by exact T. reflexivity. }
  unfold sources. assert (F : forall r, In r (ms_rays m) -> is_source m r = false).
  { intros r I. unfold is_source. rewrite E. destruct (H r I) as [-> _]. fold L. unfold xgtb, Rgtb. case_Rltb (L * ms_threshold m) L; [nra|reflexivity]. }
  revert F. clear. induction (ms_rays m) as [|r q IH]; intros F; [reflexivity|]. cbn [filter]. rewrite F by (left; reflexivity). apply IH. intros; apply F; right; assumption.
Qed.
End Uniform.
Lemma seen_uniform vm args x : (forall r, In r args -> r_lum r = x /\ 0 <= r_omega r) -> forall r, In r (seen vm args) -> r_lum r = x /\ 0 <= r_omega r.
Proof. intros A r I. unfold seen in I. apply filter_In in I as [I _]. apply in_map_iff in I as [q [<- I]]. exact (A q I). Qed.
Lemma uniform_averages fuel o vm args x m om : o_as_area o = true -> no_edge_rays vm args -> (forall r, In r args -> r_lum r = x /\ 0 <= r_omega r) ->
  construct fuel o vm args = Some (m, om) -> 0 < ms_view_area m ->
  avglum m = Fin (x * o_scale o) /\ pwavglum m = Fin (x * o_scale o) /\ avgraylum m = Fin (x * o_scale o) /\ maxlum m = x * o_scale o /\
  (0 < x * o_scale o -> gcr m = Fin 1 /\ pwgcr m = Fin 1 /\ loggcr m = Fin 0 /\ logpwgcr m = Fin 0).
Proof.
  intros A E U C P. rewrite construct_plain in C by assumption.
  assert (Em : m = mset_of o vm (seen vm args)) by congruence. clear C. subst m.
  pose proof (seen_uniform vm args x U) as H. set (m := mset_of o vm (seen vm args)) in *.
  assert (S : o_scale o = ms_scale m) by reflexivity. rewrite S. change (seen vm args) with (ms_rays m) in H. assert (Ar : ms_view_area m = Rsumf r_omega (ms_rays m)) by reflexivity.
  split; [now apply u_avglum|]. split; [now apply u_pwavglum|]. split; [now apply u_avgray|]. split; [now apply u_max|]. intros G.
  destruct (u_gcr m x H Ar P G), (u_log m x H Ar P G). repeat split; assumption.
Qed.
Lemma uniform_glare fuel o vm args x m om : o_as_area o = true -> no_edge_rays vm args -> (forall r, In r args -> r_lum r = x /\ 0 <= r_omega r) ->
  construct fuel o vm args = Some (m, om) -> 0 < x * o_scale o -> 0 < illum m -> 1 <= o_threshold o <= 100 ->
  0 < Rsumf r_omega (filter (in_task m) (ms_rays m)) ->
  sources m = [] /\ tasklum m = Fin (x * o_scale o) /\ ugr m = Fin 0 /\
  dgp m = Fin (Rmin 1 (lowlight_factor m * (5.87 / 10 ^ 5 * illum m + 0.16))).
Proof.
  intros A E U C G I T K. rewrite construct_plain in C by assumption.
  assert (Em : m = mset_of o vm (seen vm args)) by congruence. clear C. subst m.
  pose proof (seen_uniform vm args x U) as H. set (m := mset_of o vm (seen vm args)) in *.
  assert (S : o_scale o = ms_scale m) by reflexivity. rewrite S in *. change (seen vm args) with (ms_rays m) in H. change (o_threshold o) with (ms_threshold m) in T.
  assert (Ns : sources m = []) by (apply (u_sources m x H); [exact K|lra|exact T]).
  split; [exact Ns|]. split; [now apply u_task|].
  assert (Z : pwsl2 m = 0) by (unfold pwsl2; rewrite Ns; reflexivity).
  assert (Zi : srcillum m = 0) by (unfold srcillum; rewrite Ns; cbn; ring).
  pose proof PI_pos as Pi. split.
  - unfold ugr. rewrite Z. assert (B : 0 < backlum m) by (unfold backlum; rewrite Zi; apply Rdiv_lt_0_compat; lra).
    rewrite xdiv_fin by lra. replace (0.25 * 0 / backlum m) with 0 by (field; lra). unfold xlog10. case_Rltb 0 0; [lra|].
    replace (Reqb 0 0) with true by (symmetry; apply Reqb_true; reflexivity). cbn [xmul]. unfold xinf. case_Rltb 0 8; [|lra]. reflexivity.
  - unfold dgp, dgp_t2, log_gc. rewrite Z. unfold xpow. case_Rltb 0 (illum m); [|lra].
    assert (Rp : 0 < Rpower (illum m) 1.87) by apply exp_pos. rewrite xdiv_fin by lra. replace (0 / Rpower (illum m) 1.87) with 0 by (field; lra).
    cbn [xadd]. unfold xlog10. case_Rltb 0 (1 + 0); [|lra]. replace (1 + 0) with 1 by ring. unfold log10. rewrite ln_1. cbn [xmul xadd].
    set (y := lowlight_factor m * _). assert (Ey : y = lowlight_factor m * (5.87 / 10 ^ 5 * illum m + 0.16)) by (unfold y, dgp_t1; f_equal; field; assert (0 < ln 10) by (rewrite <- ln_1; apply ln_increasing; lra); lra).
    clearbody y. rewrite <- Ey. unfold xmin, xltb, xgtb, Rgtb. case_Rltb y 1; f_equal; [rewrite Rmin_right|rewrite Rmin_left]; lra.
Qed.
Lemma uniform_example : exists m om, construct 0 (Opts true 179 true 4 30 false) full [ray1 2; ray1 2] = Some (m, om) /\ 0 < ms_view_area m /\
  illum m = 716 /\ 0 < Rsumf r_omega (filter (in_task m) (ms_rays m)).
Proof.
  eexists _, _. split; [apply full_construct; reflexivity|]. unfold mset_of at 1. cbn [ms_view_area]. change (normed [ray1 2; ray1 2]) with (normed [ray1 2] ++ normed [ray1 2]).
  rewrite !normed_ray1. cbn [app]. split; [rewrite Rsumf_2; cbn [ray1 r_omega]; lra|].
  assert (Ct : vm_ctheta full up3 = 1).
  { unfold vm_ctheta, full. rewrite mk_view_dxyz by (apply unit_nonzero, up3_unit). rewrite norm_up3, up3_unit. unfold clip, Rmin, Rmax. repeat destruct (Rle_dec _ _); lra. }
  split.
  - unfold illum, mset_of. cbn [ms_rays ms_scale o_scale]. rewrite Rsumf_2. unfold m_ctheta. cbn [ms_vm ray1 r_vec r_lum r_omega]. rewrite Ct. lra.
  - cbn [ms_rays mset_of]. assert (I : forall mm, ms_vm mm = full -> ms_tradius mm = 30 -> in_task mm (ray1 2) = true).
    { intros mm V T. unfold in_task. rewrite V, T. apply Rltb_true. unfold vm_degrees, vm_radians. cbn [ray1 r_vec]. fold (vm_ctheta full up3). rewrite Ct, acos_1. unfold Rdiv. rewrite !Rmult_0_l. lra. }
    cbn [filter]. rewrite I by reflexivity. rewrite Rsumf_2. cbn [ray1 r_omega]. lra.
Qed.
