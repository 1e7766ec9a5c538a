(** Lemmas on turning the scene and the view together. *)
From Coq Require Import Lra Lia String.
From Verif Require Import Base L_Base BaseX M_Translate S_Translate L_Angles M_Mapper S_Mapper L_Mapper M_Io M_Metric S_Metric L_Pidx L_Metric L_Metric2 L_Units S_Units L_Order S_Turn.
Import ListNotations.
Local Open Scope R_scope.

(** the view space coordinates of a vector *)
Lemma up_in_view d va : off_vertical d -> let z := world2view (mk_view d va) (V3 0 0 1) in
  vx z = 0 /\ 0 < vy z /\ vz z = vz (norm d) /\ vy z * vy z = 1 - vz (norm d) * vz (norm d).
Proof.
  intros [H O] z. pose proof (regular_nonzero d H) as N.
  assert (Z : vz z = vz (norm d)).
  { unfold z. rewrite w2v_z by exact H. rewrite mk_view_dxyz by exact N. unfold dot. cbn [vx vy vz]. ring. }
  assert (S : vx z * vx z + vy z * vy z + vz z * vz z = 1).
  { pose proof (w2v_dot d va (V3 0 0 1) (V3 0 0 1)) as D. unfold dot at 2 in D. cbn [vx vy vz] in D. fold z in D. unfold dot in D. lra. }
  assert (X : vx z = 0 /\ 0 < vy z).
  { unfold z, world2view. unfold mk_view; cbn [vm_rmtx]. rewrite norm1_nonzero by exact N.
    change (world2view_m (rmtx_yp (norm d)) (V3 0 0 1)) with (yp_forward (rmtx_yp (norm d)) (V3 0 0 1)).
    assert (N2 : norm d <> vzero) by (apply unit_nonzero, norm_dot; auto).
    destruct H as [[Hx [Hy _]]|[_ [Hxy Hz]]]; [destruct O; contradiction|].
    pose proof (vnorm_pos d N) as P. pose proof (rmtx_yp_exact (norm d) N2) as E. rewrite norm_idem in E by exact N. apply E.
    - unfold norm; cbn [vx vy]. unfold Rdiv. rewrite !Rabs_mult, (Rabs_right (/ vnorm d)) by (left; apply Rinv_0_lt_compat; auto).
      rewrite !(Rmult_comm _ (/ vnorm d)), RmaxRmult by (left; apply Rinv_0_lt_compat; auto).
      unfold atol_default. apply Rmult_lt_reg_l with (vnorm d); [auto|].
      rewrite <- Rmult_assoc, Rinv_r by lra. lra.
    - exact Hz. }
  destruct X as [X Y]. split; [exact X|]. split; [exact Y|]. split; [exact Z|]. rewrite X, Z in S. lra.
Qed.
Lemma view_y d va v : off_vertical d ->
  vy (world2view (mk_view d va) v) = (vz v - vz (norm d) * dot (norm d) v) / sqrt (1 - vz (norm d) * vz (norm d)).
Proof.
  intros O. pose proof (proj1 O) as H. pose proof (regular_nonzero d H) as N. destruct (up_in_view d va O) as (X & Y & Z & Q).
  pose proof (w2v_dot d va v (V3 0 0 1)) as D. unfold dot at 2 in D. cbn [vx vy vz] in D. unfold dot in D. rewrite X, Z in D.
  pose proof (w2v_z d va v H) as W. rewrite mk_view_dxyz in W by exact N. rewrite W in D.
  set (z := vy (world2view (mk_view d va) (V3 0 0 1))) in *. clearbody z.
  assert (E : sqrt (1 - vz (norm d) * vz (norm d)) = z) by (rewrite <- Q; apply sqrt_square; lra). rewrite E.
  apply Rmult_eq_reg_r with z; [|lra]. unfold Rdiv. rewrite Rmult_assoc, Rinv_l by lra. lra.
Qed.
(** the position index depends on the length and on these two coordinates only *)
Lemma pidx_plane g w w' s : dot w w = dot w' w' -> vy w = vy w' -> vz w = vz w' -> pidx g w s = pidx g w' s.
Proof.
  intros D Y Z. assert (X : square (vx w) = square (vx w')) by (unfold dot in D; rewrite Y, Z in D; unfold square; lra).
  unfold pidx, plane_tau, iwata_sigma. rewrite Y, Z, X. reflexivity.
Qed.

Section Turn.
Context (mirror : bool) (c s : R) (U : c * c + s * s = 1).
Let T := about_vertical mirror c s.
Lemma T_dot v w : dot (T v) (T w) = dot v w.
Proof.
  unfold T, about_vertical, dot. destruct mirror; cbn [vx vy vz].
  - transitivity ((c * c + s * s) * (vx v * vx w + vy v * vy w) + vz v * vz w); [ring|rewrite U; ring].
  - transitivity ((c * c + s * s) * (vx v * vx w + vy v * vy w) + vz v * vz w); [ring|rewrite U; ring].
Qed.
Lemma T_norm v : norm (T v) = T (norm v).
Proof.
  unfold norm at 1, vnorm. rewrite T_dot. fold (vnorm v). unfold T, about_vertical, norm, Rdiv. destruct mirror; cbn [vx vy vz]; f_equal; ring.
Qed.
Lemma T_norm1 v : norm1 (T v) = T (norm1 v).
Proof.
  assert (E : forall w, norm1 w = let n := vnorm w in let n := if Reqb n 0 then 1 else n in V3 (vx w / n) (vy w / n) (vz w / n)) by reflexivity.
  rewrite !E. unfold vnorm. rewrite T_dot. cbv zeta. set (n := if Reqb _ 0 then _ else _). clearbody n.
  unfold T, about_vertical, Rdiv. destruct mirror; cbn [vx vy vz]; f_equal; ring.
Qed.
Lemma T_z v : vz (T v) = vz v. Proof. unfold T, about_vertical. destruct mirror; reflexivity. Qed.
Context (d : vec3) (va : R).
Let vm := mk_view d va.
Let vm' := mk_view (T d) va.
Lemma T_axis v : dot (vm_dxyz vm') (T v) = dot (vm_dxyz vm) v.
Proof. unfold vm, vm', mk_view. cbn [vm_dxyz]. rewrite T_norm1. apply T_dot. Qed.
Lemma T_ctheta v : vm_ctheta vm' (T v) = vm_ctheta vm v. Proof. unfold vm_ctheta. now rewrite T_axis. Qed.
Lemma T_radians v : vm_radians vm' (T v) = vm_radians vm v. Proof. unfold vm_radians. now rewrite T_axis. Qed.
Lemma T_degrees v : vm_degrees vm' (T v) = vm_degrees vm v. Proof. unfold vm_degrees. now rewrite T_radians. Qed.
Lemma T_in_view tol v : in_view vm' tol (T v) = in_view vm tol v. Proof. unfold in_view. now rewrite T_radians. Qed.
Context (O : off_vertical d) (O' : off_vertical (T d)).
Lemma T_positions g v : positions g vm' (T v) = positions g vm v.
Proof.
  unfold positions. rewrite T_norm, T_degrees. set (w := norm v). clearbody w. apply pidx_plane.
  - unfold vm, vm'. rewrite !w2v_dot. apply T_dot.
  - unfold vm, vm'. rewrite !view_y by assumption. rewrite T_norm, !T_z, T_dot. reflexivity.
  - unfold vm, vm'. rewrite !w2v_z by (apply O || apply O'). apply T_axis.
Qed.
Let t := ray_about mirror c s.
Lemma t_seen args : seen vm' (map t args) = map t (seen vm args).
Proof.
  unfold seen. rewrite !map_map, !filter_map, !map_map. change (vm_aspect vm') with (vm_aspect vm).
  assert (E : forall l, filter (fun r => (vm_aspect vm =? 2)%Z || in_view vm' 0 (r_vec (Ray (norm (r_vec (t r))) (r_omega (t r)) (r_lum (t r))))) l =
                        filter (fun r => (vm_aspect vm =? 2)%Z || in_view vm 0 (r_vec (Ray (norm (r_vec r)) (r_omega r) (r_lum r)))) l).
  { intros l. apply filter_ext. intros r. f_equal. cbn [r_vec t ray_about]. fold T. rewrite T_norm. apply T_in_view. }
  rewrite E. apply map_ext. intros r. unfold t, ray_about. cbn [r_vec r_omega r_lum]. f_equal. apply T_norm.
Qed.
Lemma t_edge args : no_edge_rays vm args -> no_edge_rays vm' (map t args).
Proof.
  intros [H|H]; [left; exact H|]. right. intros r I. apply in_map_iff in I as [q [<- I]]. cbn [t ray_about r_vec]. fold T. rewrite T_norm.
  change (vm_viewangle vm') with (vm_viewangle vm). rewrite T_in_view, T_degrees. exact (H q I).
Qed.
Lemma t_set fuel k area rays og : set_omega fuel k vm' area (map t rays) og =
  match set_omega fuel k vm area rays og with Some (r, a) => Some (map t r, a) | None => None end.
Proof.
  unfold set_omega. rewrite map_length.
  assert (E3 : map (fun r => acos (vm_ctheta vm' (r_vec r))) (map t rays) = map (fun r => acos (vm_ctheta vm (r_vec r))) rays).
  { rewrite map_map. apply map_ext. intros r. f_equal. apply T_ctheta. }
  assert (E : forall os, mk_rays (map r_vec (map t rays)) os (map r_lum (map t rays)) = map t (mk_rays (map r_vec rays) os (map r_lum rays))).
  { clear. induction rays as [|r rays IH]; intros [|x os]; try reflexivity. unfold mk_rays in *. cbn [map combine fst snd]. rewrite IH. reflexivity. }
  rewrite E3. change (vm_viewangle vm') with (vm_viewangle vm). destruct (k && _); [|now rewrite E].
  destruct (omega_loop _ _ _ _ _ _); [|reflexivity]. now rewrite E.
Qed.
(** the metrics *)
Context (guth : bool) (area sc th tr : R) (low : bool) (l : list ray).
Let m := MS vm guth area l sc th tr low [] 0.
Let m' := MS vm' guth area (map t l) sc th tr low [] 0.
Lemma t_sum (f f' : ray -> R) q : (forall r, f' (t r) = f r) -> Rsumf f' (map t q) = Rsumf f q.
Proof. intros H. unfold Rsumf. rewrite map_map. f_equal. apply map_ext. exact H. Qed.
Lemma t_filter (f f' : ray -> bool) q : (forall r, f' (t r) = f r) -> filter f' (map t q) = map t (filter f q).
Proof. intros H. rewrite filter_map. f_equal. apply filter_ext. exact H. Qed.
Lemma t_ct r : m_ctheta m' (t r) = m_ctheta m r. Proof. exact (T_ctheta (r_vec r)). Qed.
Lemma t_px r : m_pidx m' (t r) = m_pidx m r. Proof. exact (T_positions guth (r_vec r)). Qed.
Lemma t_pw r : m_pweight m' (t r) = m_pweight m r. Proof. unfold m_pweight. now rewrite t_px. Qed.
Lemma t_pwarea : pweighted_area m' = pweighted_area m. Proof. exact (t_sum _ _ l t_pw). Qed.
Lemma t_light q : Rsumf (fun r => m_ctheta m' r * r_lum r * r_omega r) (map t q) = Rsumf (fun r => m_ctheta m r * r_lum r * r_omega r) q.
Proof. apply t_sum. intros r. now rewrite t_ct. Qed.
Lemma t_illum : illum m' = illum m. Proof. unfold illum. change (ms_rays m') with (map t l). now rewrite t_light. Qed.
Lemma t_lum_sum q : Rsumf (fun r => r_lum r * r_omega r) (map t q) = Rsumf (fun r => r_lum r * r_omega r) q. Proof. now apply t_sum. Qed.
Lemma t_omega_sum q : Rsumf r_omega (map t q) = Rsumf r_omega q. Proof. now apply t_sum. Qed.
Lemma t_avglum : avglum m' = avglum m. Proof. unfold avglum. change (ms_rays m') with (map t l). now rewrite t_lum_sum. Qed.
Lemma t_pwavglum : pwavglum m' = pwavglum m.
Proof. unfold pwavglum. rewrite t_pwarea. change (ms_rays m') with (map t l). rewrite (t_sum (fun r => r_lum r * m_pweight m r)); [reflexivity|]. intros r. now rewrite t_pw. Qed.
Lemma t_lums q : map r_lum (map t q) = map r_lum q. Proof. now rewrite map_map. Qed.
Lemma t_avgray : avgraylum m' = avgraylum m. Proof. unfold avgraylum. change (ms_rays m') with (map t l). now rewrite t_lums. Qed.
Lemma t_maxbase : maxlum_base m' = maxlum_base m. Proof. unfold maxlum_base. change (ms_rays m') with (map t l). now rewrite t_lums. Qed.
Lemma t_max : maxlum m' = maxlum m. Proof. unfold maxlum. change (ms_rays m') with (map t l). now rewrite t_lums. Qed.
Lemma t_gcr : gcr m' = gcr m.
Proof. unfold gcr. rewrite t_avglum. change (ms_rays m') with (map t l). rewrite (t_sum (fun r => r_lum r * r_lum r * r_omega r)) by reflexivity. reflexivity. Qed.
Lemma t_pwgcr : pwgcr m' = pwgcr m.
Proof. unfold pwgcr. rewrite t_pwavglum, t_pwarea. change (ms_rays m') with (map t l). rewrite (t_sum (fun r => r_lum r * r_lum r * m_pweight m r)); [reflexivity|]. intros r. now rewrite t_pw. Qed.
Lemma t_density : density m' = density m. Proof. unfold density. change (ms_rays m') with (map t l). now rewrite map_length. Qed.
Lemma t_task : tasklum m' = tasklum m.
Proof.
  unfold tasklum. change (ms_rays m') with (map t l). rewrite (t_filter (in_task m)).
  - now rewrite t_lum_sum, t_omega_sum.
  - intros r. unfold in_task. f_equal. exact (T_degrees (r_vec r)).
Qed.
Lemma t_thr : threshold m' = threshold m. Proof. unfold threshold. now rewrite t_task. Qed.
Lemma t_src r : is_source m' (t r) = is_source m r. Proof. unfold is_source. now rewrite t_thr. Qed.
Lemma t_sources : sources m' = map t (sources m). Proof. exact (t_filter _ _ l t_src). Qed.
Lemma t_back : background m' = map t (background m). Proof. apply (t_filter _ _ l). intros r. now rewrite t_src. Qed.
Lemma t_pwsl2 : pwsl2 m' = pwsl2 m. Proof. unfold pwsl2. rewrite t_sources. apply t_sum. intros r. now rewrite t_px. Qed.
Lemma t_srcillum : srcillum m' = srcillum m. Proof. unfold srcillum. rewrite t_sources. now rewrite t_light. Qed.
Lemma t_srcarea : srcarea m' = srcarea m. Proof. unfold srcarea. rewrite t_sources. apply t_omega_sum. Qed.
Lemma t_backlum : backlum m' = backlum m. Proof. unfold backlum. now rewrite t_illum, t_srcillum. Qed.
Lemma t_backtrue : backlum_true m' = backlum_true m. Proof. unfold backlum_true. rewrite t_back. now rewrite t_lum_sum, t_omega_sum. Qed.
Lemma t_log : log_gc m' = log_gc m. Proof. unfold log_gc. now rewrite t_pwsl2, t_illum. Qed.
Lemma t_t1 : dgp_t1 m' = dgp_t1 m. Proof. unfold dgp_t1. now rewrite t_illum. Qed.
Lemma t_t2 : dgp_t2 m' = dgp_t2 m. Proof. unfold dgp_t2. now rewrite t_log. Qed.
Lemma t_dgp : dgp m' = dgp m. Proof. unfold dgp, lowlight_factor. rewrite t_t1, t_t2, t_illum. reflexivity. Qed.
Lemma t_ugr : ugr m' = ugr m. Proof. unfold ugr. now rewrite t_pwsl2, t_backlum. Qed.
Lemma t_prop kd p : named p -> prop_value kd m' p = prop_value kd m p.
Proof.
  intros N. unfold prop_value. destruct (negb (has_prop kd p)); [reflexivity|].
  destruct p; try contradiction.
  all: try (unfold loggcr, logpwgcr, ugp).
  all: rewrite ?t_pwarea, ?t_illum, ?t_avglum, ?t_pwavglum, ?t_avgray, ?t_gcr, ?t_pwgcr, ?t_density, ?t_maxbase, ?t_max, ?t_task, ?t_thr, ?t_pwsl2,
    ?t_srcillum, ?t_srcarea, ?t_backlum, ?t_backtrue, ?t_log, ?t_t1, ?t_t2, ?t_dgp, ?t_ugr; reflexivity.
Qed.
Lemma t_call kd names : call kd m' names = call kd m names.
Proof.
  unfold call. destruct (check_metrics kd names true); [|reflexivity]. cbn [bind].
  assert (E : call_values (prop_value kd m') names = call_values (prop_value kd m) names).
  { induction names as [|n names IH]; [reflexivity|]. cbn [call_values]. destruct (prop_of_name n) as [p|] eqn:E; [|reflexivity].
    rewrite (t_prop kd p (name_named n p E)), IH. reflexivity. }
  rewrite E. reflexivity.
Qed.
End Turn.
Lemma turn_positions mirror c s g d va v : c * c + s * s = 1 -> let T := about_vertical mirror c s in off_vertical d -> off_vertical (T d) ->
  positions g (mk_view (T d) va) (T v) = positions g (mk_view d va) v.
Proof. intros U T O O'. now apply T_positions. Qed.
Lemma turn_metrics mirror c s fuel o d va args kd names : c * c + s * s = 1 -> off_vertical d -> off_vertical (about_vertical mirror c s d) ->
  no_edge_rays (mk_view d va) args ->
  outcome (construct fuel o (mk_view (about_vertical mirror c s d) va) (map (ray_about mirror c s) args)) kd names =
  outcome (construct fuel o (mk_view d va) args) kd names.
Proof.
  intros U O O' H. unfold construct.
  destruct (view_rays_plain _ args H) as [mask [-> _]].
  destruct (view_rays_plain _ _ (t_edge mirror c s U d va args H)) as [mask' [-> _]].
  rewrite (t_seen mirror c s U d va). rewrite (map_map (ray_about mirror c s) r_omega (seen _ _)). cbn [ray_about r_omega].
  change (map (fun x => r_omega x) ?l) with (map r_omega l).
  rewrite (t_set mirror c s U d va). change (vm_area (mk_view (about_vertical mirror c s d) va)) with (vm_area (mk_view d va)).
  destruct (set_omega _ _ _ _ _ _) as [[r a]|]; [|reflexivity]. cbn [outcome].
  rewrite (t_call mirror c s U d va O O'). rewrite map_map. reflexivity.
Qed.
(** a view straight up *)
Lemma up_refuted : exists c s v, c * c + s * s = 1 /\ let T := about_vertical false c s in T (V3 0 0 1) = V3 0 0 1 /\
  positions false (mk_view (T (V3 0 0 1)) 180) (T v) <> positions false (mk_view (V3 0 0 1) 180) v.
Proof.
  exists (-1), 0, (V3 0 1 0). split; [ring|]. intros T. assert (TZ : T (V3 0 0 1) = V3 0 0 1) by (unfold T, about_vertical; cbn [vx vy vz]; f_equal; ring).
  split; [exact TZ|]. rewrite TZ. assert (TV : T (V3 0 1 0) = V3 0 (-1) 0) by (unfold T, about_vertical; cbn [vx vy vz]; f_equal; ring). rewrite TV.
  assert (Nz : V3 0 0 1 <> vzero) by (intros [= E]; lra).
  assert (Uz : norm (V3 0 0 1) = V3 0 0 1) by (apply norm_unit_id; unfold dot; cbn [vx vy vz]; ring).
  assert (W : forall v, world2view (mk_view (V3 0 0 1) 180) v = v).
  { intros v. unfold world2view, mk_view. cbn [vm_rmtx]. rewrite norm1_nonzero, Uz by exact Nz.
    change (yp_forward (rmtx_yp (V3 0 0 1)) v = v). rewrite rmtx_yp_z by lra. unfold yp_forward. cbn [fst snd]. now rewrite !mmulv_id. }
  assert (P : forall y, y * y = 1 -> positions false (mk_view (V3 0 0 1) 180) (V3 0 y 0) = pidx_kim 90 (acos y * 180 / PI)).
  { intros y Y. unfold positions. rewrite norm_unit_id by (unfold dot; cbn [vx vy vz]; lra). rewrite W.
    assert (D : vm_degrees (mk_view (V3 0 0 1) 180) (V3 0 y 0) = 90).
    { unfold vm_degrees. rewrite vm_radians_eq by (try exact Nz; unfold dot; cbn [vx vy vz]; lra). rewrite mk_view_dxyz, Uz by exact Nz.
      unfold dot. cbn [vx vy vz]. replace (0 * 0 + 0 * y + 1 * 0) with 0 by ring. rewrite acos_0. field. apply PI_neq0. }
    rewrite D. unfold pidx, plane_tau. cbn [vx vy]. replace (square 0 + square y) with 1 by (unfold square; lra). rewrite sqrt_1.
    replace (Reqb 1 0) with false by (symmetry; apply Reqb_false; lra). cbn [option_map]. do 3 f_equal. f_equal. field. }
  rewrite !P by ring. rewrite acos_1, acos_m1 || (rewrite acos_1; replace (acos (-1)) with PI by (rewrite <- cos_PI, acos_cos; pose proof PI_pos; lra)).
  replace (PI * 180 / PI) with 180 by (field; apply PI_neq0). replace (0 * 180 / PI) with 0 by (field; apply PI_neq0).
  unfold pidx_kim. intros E. apply exp_inv in E. lra.
Qed.
Lemma turn_example : 3 / 5 * (3 / 5) + 4 / 5 * (4 / 5) = 1 /\ off_vertical (V3 0 1 0) /\ off_vertical (about_vertical false (3 / 5) (4 / 5) (V3 0 1 0)) /\
  about_vertical false (3 / 5) (4 / 5) (V3 0 1 0) = V3 (- (4 / 5)) (3 / 5) 0 /\
  no_edge_rays (mk_view (V3 0 1 0) 180) [Ray (V3 0 1 0) 1 1].
Proof.
  assert (C : PI / 2 < PI - cap_bot) by (unfold cap_bot; pose proof PI2_1; pose proof PI_4; lra).
  assert (A : about_vertical false (3 / 5) (4 / 5) (V3 0 1 0) = V3 (- (4 / 5)) (3 / 5) 0) by (unfold about_vertical; cbn [vx vy vz]; f_equal; field).
  assert (G : forall x y, x * x + y * y = 1 -> / 10 ^ 8 < Rmax (Rabs x) (Rabs y) -> x <> 0 \/ y <> 0 -> off_vertical (V3 x y 0)).
  { intros x y S M Z. split; [right|exact Z]. assert (N : vnorm (V3 x y 0) = 1) by (unfold vnorm, dot; cbn [vx vy vz]; replace (x * x + y * y + 0 * 0) with 1 by lra; apply sqrt_1).
    rewrite N. cbn [vx vy vz]. split; [intros [= -> ->]; lra|]. split; [lra|]. replace (0 / 1) with 0 by field. rewrite acos_0. exact C. }
  split; [field|]. split; [apply G; [ring| |right; lra]; rewrite Rabs_R0, Rabs_R1, Rmax_right; lra|]. split; [|split; [exact A|]].
  - rewrite A. apply G; [field| |left; lra]. eapply Rlt_le_trans; [|apply Rmax_l]. rewrite Rabs_left; lra.
  - right. intros r [<-|[]]. left. cbn [r_vec]. assert (N : norm (V3 0 1 0) = V3 0 1 0) by (apply norm_unit_id; unfold dot; cbn [vx vy vz]; ring).
    assert (Nz : V3 0 1 0 <> vzero) by (intros [= E]; lra).
    rewrite N. apply in_view_complete; [exact Nz|unfold dot; cbn [vx vy vz]; ring|unfold hemi_angle; lra|].
    rewrite N. unfold angle, dot. cbn [vx vy vz]. replace (0 * 0 + 1 * 1 + 0 * 0) with 1 by ring. rewrite acos_1. unfold half. pose proof PI_pos. lra.
Qed.
