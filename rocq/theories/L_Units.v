(** Lemmas on units of luminance. *)
From Coq Require Import Lra Lia String.
From Verif Require Import Base L_Base BaseX M_Translate M_Mapper M_Io M_Metric S_Metric L_Metric L_Metric2 L_Brighter S_Units.
Local Open Scope R_scope.

Section Scaled.
Context (k : R) (K : 0 < k).
Let up (r : ray) : ray := Ray (r_vec r) (r_omega r) (k * r_lum r).

Lemma up_sum l : Rsum (map r_lum (scale_lum k l)) = k * Rsum (map r_lum l).
Proof. unfold scale_lum. rewrite map_map. cbn [r_lum]. exact (Rsumf_scal r_lum k l). Qed.
Lemma stray_scale vm l : stray_mask vm (scale_lum k l) = stray_mask vm l.
Proof.
  unfold stray_mask, lum_average, xmean. rewrite up_sum. unfold scale_lum at 1. rewrite !map_length, xdiv_scale by exact K.
  assert (N : map (fun _ : ray => false) (scale_lum k l) = map (fun _ => false) l) by (unfold scale_lum; rewrite map_map; reflexivity).
  destruct (xdiv _ _) as [avg| | |]; try exact N.
  unfold Rgtb. case_Rltb 0 avg.
  - case_Rltb 0 (k * avg); [|nra]. unfold scale_lum. rewrite map_map. apply map_ext. intros r. unfold is_stray. cbn [r_vec r_lum].
    f_equal. f_equal. field. lra.
  - case_Rltb 0 (k * avg); [nra|]. exact N.
Qed.
Lemma select_map {A B} (f : A -> B) mask l : select mask (map f l) = map f (select mask l).
Proof. revert l. induction mask as [|b mask IH]; intros [|x l]; try reflexivity; cbn [select map]; try (destruct b; reflexivity). destruct b; cbn [map]; rewrite IH; reflexivity. Qed.
Lemma combine_map_r {A B C} (f : B -> C) (a : list A) l : combine a (map f l) = map (fun p => (fst p, f (snd p))) (combine a l).
Proof. revert l. induction a as [|x a IH]; intros [|y l]; try reflexivity. cbn [combine map fst snd]. now rewrite IH. Qed.
Lemma strays_scale vm smask l : strays vm smask (scale_lum k l) = strays vm smask l.
Proof. unfold strays, scale_lum. rewrite map_length, combine_map_r, select_map, map_map. reflexivity. Qed.
Lemma mk_rays_scale v os ls : mk_rays v os (map (Rmult k) ls) = scale_lum k (mk_rays v os ls).
Proof. unfold mk_rays, scale_lum. rewrite combine_map_r, !map_map. reflexivity. Qed.
Lemma lums_scale l : map r_lum (scale_lum k l) = map (Rmult k) (map r_lum l).
Proof. unfold scale_lum. rewrite !map_map. reflexivity. Qed.
Lemma view_rays_scale vm l : view_rays vm (scale_lum k l) =
  (scale_lum k (fst (fst (view_rays vm l))), snd (fst (view_rays vm l)), snd (view_rays vm l)).
Proof.
  unfold view_rays.
  assert (E : map (fun r => Ray (norm (r_vec r)) (r_omega r) (r_lum r)) (scale_lum k l) = scale_lum k (map (fun r => Ray (norm (r_vec r)) (r_omega r) (r_lum r)) l))
    by (unfold scale_lum; rewrite !map_map; reflexivity).
  rewrite E. set (n := map _ l). clearbody n. clear E.
  destruct (vm_aspect vm =? 2)%Z; [cbn [fst snd]; unfold scale_lum; rewrite !map_map; reflexivity|].
  rewrite stray_scale, strays_scale, lums_scale.
  assert (E1 : map r_omega (scale_lum k n) = map r_omega n) by (unfold scale_lum; rewrite map_map; reflexivity).
  assert (E2 : map r_vec (scale_lum k n) = map r_vec n) by (unfold scale_lum; rewrite map_map; reflexivity).
  assert (E3 : map (fun r => in_view vm 0 (r_vec r)) (scale_lum k n) = map (fun r => in_view vm 0 (r_vec r)) n) by (unfold scale_lum; rewrite map_map; reflexivity).
  rewrite E1, E2, E3. destruct (fold_left _ _ _) as [[omega v] mask]. cbn [fst snd].
  rewrite mk_rays_scale. unfold scale_lum. rewrite select_map. reflexivity.
Qed.
Lemma set_omega_scale fuel c vm area l og : set_omega fuel c vm area (scale_lum k l) og =
  match set_omega fuel c vm area l og with Some (r, a) => Some (scale_lum k r, a) | None => None end.
Proof.
  unfold set_omega. rewrite lums_scale.
  assert (E2 : map r_vec (scale_lum k l) = map r_vec l) by (unfold scale_lum; rewrite map_map; reflexivity).
  assert (E3 : map (fun r => acos (vm_ctheta vm (r_vec r))) (scale_lum k l) = map (fun r => acos (vm_ctheta vm (r_vec r))) l) by (unfold scale_lum; rewrite map_map; reflexivity).
  assert (E4 : List.length (scale_lum k l) = List.length l) by (unfold scale_lum; apply map_length).
  rewrite E2, E3, E4. destruct (c && _).
  - destruct (omega_loop _ _ _ _ _ _); [|reflexivity]. now rewrite mk_rays_scale.
  - now rewrite mk_rays_scale.
Qed.

(** the two sets *)
Definition times (m : mset) : mset :=
  MS (ms_vm m) (ms_guth m) (ms_view_area m) (scale_lum k (ms_rays m)) (ms_scale m) (ms_threshold m) (ms_tradius m) (ms_lowlight m)
     (map (map (Rmult k)) (ms_rgb m)) (ms_channels m).
Lemma construct_scale fuel o vm args : 
  match construct fuel o vm args with
  | Some (m, om) => construct fuel o vm (scale_lum k args) = Some (times m, om) /\
                    construct fuel (brighter k o) vm args = Some (with_scale m (k * ms_scale m), om)
  | None => construct fuel o vm (scale_lum k args) = None /\ construct fuel (brighter k o) vm args = None
  end.
Proof.
  unfold construct. rewrite view_rays_scale. destruct (view_rays vm args) as [[rays mask] omega]. cbn [fst snd brighter o_as_area].
  rewrite set_omega_scale.
  assert (E1 : map r_omega (scale_lum k rays) = map r_omega rays) by (unfold scale_lum; rewrite map_map; reflexivity).
  rewrite E1. destruct (set_omega _ _ _ _ _ _) as [[r a]|]; split; reflexivity.
Qed.
Lemma construct_color_scale fuel o vm vl args : 
  match construct_color fuel o vm vl args with
  | Some (m, om) => construct_color fuel o vm vl (scale_rgb k args) = Some (times m, om) /\
                    construct_color fuel (brighter k o) vm vl args = Some (with_scale m (k * ms_scale m), om)
  | None => construct_color fuel o vm vl (scale_rgb k args) = None /\ construct_color fuel (brighter k o) vm vl args = None
  end.
Proof.
  unfold construct_color.
  assert (E : map (fun a => Ray (fst (fst a)) (snd (fst a)) (rgb2rad vl (snd a))) (scale_rgb k args) =
              scale_lum k (map (fun a => Ray (fst (fst a)) (snd (fst a)) (rgb2rad vl (snd a))) args)).
  { unfold scale_rgb, scale_lum. rewrite !map_map. apply map_ext. intros a. cbn [fst snd r_vec r_omega r_lum]. f_equal.
    generalize (snd a). intros c. unfold rgb2rad. rewrite combine_map_r || idtac.
    revert vl. induction c as [|x c IH]; intros [|v vl]; cbn [map combine Rsum fold_right fst snd]; try ring.
    specialize (IH vl). cbn [map combine Rsum fold_right fst snd] in IH. unfold Rsum in *. rewrite IH. ring. }
  rewrite E. set (rays := map _ args). clearbody rays. clear E.
  pose proof (construct_scale fuel o vm rays) as C. destruct (construct fuel o vm rays) as [[m om]|].
  - destruct C as [C1 C2]. rewrite C1, C2, view_rays_scale. cbn [fst snd]. 
    assert (E : map snd (scale_rgb k args) = map (map (Rmult k)) (map snd args)) by (unfold scale_rgb; rewrite !map_map; reflexivity).
    rewrite E, select_map. split; reflexivity.
  - destruct C as [C1 C2]. rewrite C1, C2. split; reflexivity.
Qed.

Lemma max_scale x l : list_max (k * x) (map (Rmult k) l) = k * list_max x l.
Proof.
  revert x. induction l as [|y l IH]; intros x; [reflexivity|]. cbn [map list_max]. rewrite IH.
  rewrite RmaxRmult by lra. reflexivity.
Qed.
Lemma mean_scale x n t : xmul (xdiv (Fin (k * x)) (Fin n)) (Fin t) = xmul (xdiv (Fin x) (Fin n)) (Fin (k * t)).
Proof.
  rewrite xdiv_scale by exact K. destruct (xdiv _ _); cbn [xmul]; try reflexivity.
  - f_equal. ring.
  - now rewrite xinf_scale.
  - now rewrite xinf_scale.
Qed.

Context (m : mset).
Let a := times m.
Let b := with_scale m (k * ms_scale m).
Lemma eq_pweighted : pweighted_area a = pweighted_area b.
Proof. exact (sum_scale k (m_pweight m) (m_pweight a) (ms_rays m) (fun _ => eq_refl)). Qed.
Lemma lin_sum (g : vec3 -> R -> R) : Rsumf (fun r => r_lum r * g (r_vec r) (r_omega r)) (scale_lum k (ms_rays m)) = k * Rsumf (fun r => r_lum r * g (r_vec r) (r_omega r)) (ms_rays m).
Proof. rewrite <- Rsumf_scal. apply sum_scale. intros r. cbn [r_vec r_omega r_lum]. ring. Qed.
Lemma sq_sum (g : vec3 -> R -> R) : Rsumf (fun r => r_lum r * r_lum r * g (r_vec r) (r_omega r)) (scale_lum k (ms_rays m)) = k * k * Rsumf (fun r => r_lum r * r_lum r * g (r_vec r) (r_omega r)) (ms_rays m).
Proof. rewrite <- Rsumf_scal. apply sum_scale. intros r. cbn [r_vec r_omega r_lum]. ring. Qed.
Let pw (v : vec3) (w : R) : R := w / square (positions (ms_guth m) (ms_vm m) v).
Lemma eq_avglum : avglum a = avglum b.
Proof. unfold avglum. cbn [a b times with_scale ms_rays ms_scale ms_view_area]. rewrite (lin_sum (fun _ w => w)). do 2 f_equal. ring. Qed.
Lemma eq_pwavglum : pwavglum a = pwavglum b.
Proof.
  unfold pwavglum. rewrite eq_pweighted. f_equal. f_equal.
  transitivity (Rsumf (fun r => r_lum r * pw (r_vec r) (r_omega r)) (scale_lum k (ms_rays m)) * ms_scale m); [reflexivity|].
  rewrite lin_sum. transitivity (Rsumf (fun r => r_lum r * pw (r_vec r) (r_omega r)) (ms_rays m) * (k * ms_scale m)); [ring|reflexivity].
Qed.
Lemma eq_gcr : gcr a = gcr b.
Proof.
  unfold gcr. rewrite eq_avglum. cbn [a b times with_scale ms_rays ms_scale ms_view_area]. rewrite (sq_sum (fun _ w => w)).
  do 3 f_equal. ring.
Qed.
Lemma eq_pwgcr : pwgcr a = pwgcr b.
Proof.
  unfold pwgcr. rewrite eq_pwavglum, eq_pweighted. do 3 f_equal.
  transitivity (Rsumf (fun r => r_lum r * r_lum r * pw (r_vec r) (r_omega r)) (scale_lum k (ms_rays m)) * (ms_scale m * ms_scale m)); [reflexivity|].
  rewrite sq_sum. transitivity (Rsumf (fun r => r_lum r * r_lum r * pw (r_vec r) (r_omega r)) (ms_rays m) * ((k * ms_scale m) * (k * ms_scale m))); [ring|reflexivity].
Qed.
Lemma eq_maxlum : maxlum a = maxlum b.
Proof.
  unfold maxlum. cbn [a b times with_scale ms_rays ms_scale]. rewrite lums_scale. destruct (map r_lum (ms_rays m)); [reflexivity|].
  cbn [map]. rewrite max_scale. ring.
Qed.
Lemma eq_maxlum_base : maxlum_base a = maxlum_base b.
Proof.
  unfold maxlum_base. cbn [a b times with_scale ms_rays ms_scale]. rewrite lums_scale. destruct (map r_lum (ms_rays m)); [reflexivity|].
  cbn [map np_max bind]. rewrite max_scale. f_equal. ring.
Qed.
Lemma eq_avgray : avgraylum a = avgraylum b.
Proof.
  unfold avgraylum, xmean. cbn [a b times with_scale ms_rays ms_scale]. rewrite up_sum, lums_scale, map_length. apply mean_scale.
Qed.
Lemma eq_density : density a = density b.
Proof. unfold density. cbn [a b times with_scale ms_rays ms_view_area]. unfold scale_lum. now rewrite map_length. Qed.
Lemma eq_sources : sources a = scale_lum k (sources b). Proof. exact (same_sources m k). Qed.
Lemma eq_threshold : threshold a = threshold b. Proof. exact (same_threshold m k). Qed.
Lemma eq_background : background a = scale_lum k (background b).
Proof.
  unfold background. change (ms_rays a) with (scale_lum k (ms_rays m)). change (ms_rays b) with (ms_rays m). apply filter_scale.
  intros r. f_equal. unfold is_source. rewrite eq_threshold. cbn [r_lum]. change (ms_scale a) with (ms_scale m). change (ms_scale b) with (k * ms_scale m).
  f_equal. f_equal. ring.
Qed.
Lemma eq_backtrue : backlum_true a = backlum_true b.
Proof.
  unfold backlum_true. rewrite eq_background. rewrite (sum_scale k r_omega r_omega) by reflexivity.
  rewrite (sum_scale k (fun r => k * (r_lum r * r_omega r)) (fun r => r_lum r * r_omega r)) by (intros r; cbn [r_lum r_omega]; ring).
  rewrite Rsumf_scal. f_equal. f_equal. change (ms_scale a) with (ms_scale m). change (ms_scale b) with (k * ms_scale m). ring.
Qed.
Lemma eq_srcarea : srcarea a = srcarea b.
Proof. unfold srcarea. rewrite eq_sources. now apply sum_scale. Qed.
Lemma eq_tasklum : tasklum a = tasklum b.
Proof.
  unfold tasklum. change (ms_rays a) with (scale_lum k (ms_rays m)). change (ms_rays b) with (ms_rays m).
  rewrite (filter_scale k (in_task b) (in_task a)) by reflexivity.
  rewrite (sum_scale k r_omega r_omega) by reflexivity.
  rewrite (sum_scale k (fun r => k * (r_lum r * r_omega r)) (fun r => r_lum r * r_omega r)) by (intros r; cbn [r_lum r_omega]; ring).
  rewrite Rsumf_scal. f_equal. f_equal. change (ms_scale a) with (ms_scale m). change (ms_scale b) with (k * ms_scale m). ring.
Qed.
Lemma eq_irradiance : irradiance a = irradiance b.
Proof.
  unfold irradiance. change (ms_channels a) with (ms_channels b). apply map_ext. intros j.
  change (ms_rays a) with (scale_lum k (ms_rays m)). change (ms_rgb a) with (map (map (Rmult k)) (ms_rgb m)).
  change (ms_rays b) with (ms_rays m). change (ms_rgb b) with (ms_rgb m).
  change (ms_scale a) with (ms_scale m). change (ms_scale b) with (k * ms_scale m).
  rewrite <- Rmult_assoc. f_equal. rewrite (Rmult_comm _ k), <- Rsumf_scal.
  generalize (ms_rgb m). intros c. generalize (ms_rays m). intros l. revert c.
  induction l as [|r l IH]; intros [|x c]; try reflexivity. cbn [scale_lum map combine]. rewrite !Rsumf_cons. f_equal; [|apply IH].
  cbn [fst snd]. change (m_ctheta a (Ray (r_vec r) (r_omega r) (k * r_lum r))) with (m_ctheta b r). cbn [r_omega].
  replace (nth j (map (Rmult k) x) 0) with (k * nth j x 0) by (rewrite <- (map_nth (Rmult k)); f_equal; ring). ring.
Qed.
Lemma eq_rays (g : vec3 -> R -> R) : map (fun r => g (r_vec r) (r_omega r)) (scale_lum k (ms_rays m)) = map (fun r => g (r_vec r) (r_omega r)) (ms_rays m).
Proof. unfold scale_lum. now rewrite map_map. Qed.
Definition alike (u v : res value) : Prop :=
  match u, v with Ok x, Ok y => flatten_value x = flatten_value y | Raise e, Raise f => e = f | _, _ => False end.
Lemma alike_refl u : alike u u. Proof. destruct u; reflexivity. Qed.
Lemma alike_eq u v : u = v -> alike u v. Proof. intros ->. apply alike_refl. Qed.
Lemma same_prop kd p : alike (prop_value kd a p) (prop_value kd b p).
Proof.
  destruct (same_metrics m k) as (D & U & P).
  assert (G : log_gc a = log_gc b) by (unfold log_gc; rewrite (same_pwsl2 m k : pwsl2 a = pwsl2 b), (same_illum m k : illum a = illum b); reflexivity).
  unfold prop_value. destruct (negb (has_prop kd p)); [reflexivity|].
  destruct p; try (apply alike_refl); try reflexivity.
  all: apply alike_eq.
  - f_equal. f_equal. exact (eq_rays (fun v _ => vm_ctheta (ms_vm m) v)).
  - f_equal. f_equal. exact (eq_rays (fun v _ => acos (vm_ctheta (ms_vm m) v))).
  - f_equal. f_equal. exact (eq_rays (fun v _ => positions (ms_guth m) (ms_vm m) v)).
  - f_equal. f_equal. exact (eq_rays pw).
  - now rewrite eq_pweighted.
  - do 3 f_equal. exact (same_illum m k).
  - now rewrite eq_avglum.
  - rewrite eq_maxlum, eq_maxlum_base. reflexivity.
  - now rewrite eq_pwavglum.
  - now rewrite eq_avgray.
  - now rewrite eq_gcr.
  - now rewrite eq_pwgcr.
  - unfold logpwgcr. now rewrite eq_pwgcr.
  - unfold loggcr. now rewrite eq_gcr.
  - now rewrite eq_density.
  - do 2 f_equal. rewrite eq_sources. unfold scale_lum. rewrite map_map. reflexivity.
  - now rewrite eq_threshold.
  - do 3 f_equal. exact (same_pwsl2 m k).
  - do 3 f_equal. exact (same_srcillum m k).
  - now rewrite eq_srcarea.
  - do 3 f_equal. unfold backlum. f_equal. f_equal; [exact (same_illum m k)|exact (same_srcillum m k)].
  - now rewrite eq_backtrue.
  - now rewrite eq_tasklum.
  - do 2 f_equal. exact D.
  - do 3 f_equal. unfold dgp_t1. f_equal. exact (same_illum m k).
  - do 2 f_equal. exact G.
  - do 2 f_equal. unfold dgp_t2. f_equal. exact G.
  - do 2 f_equal. exact U.
  - do 2 f_equal. exact P.
  - now rewrite eq_irradiance.
Qed.
Lemma same_call kd names : call kd a names = call kd b names.
Proof.
  unfold call. destruct (check_metrics kd names true); [|reflexivity]. cbn [bind].
  assert (H : match call_values (prop_value kd a) names, call_values (prop_value kd b) names with
              | Ok x, Ok y => map flatten_value x = map flatten_value y | Raise e, Raise f => e = f | _, _ => False end).
  { induction names as [|n names IH]; [reflexivity|]. cbn [call_values]. destruct (prop_of_name n) as [p|]; [|reflexivity].
    pose proof (same_prop kd p) as S. unfold alike in S. destruct (prop_value kd a p), (prop_value kd b p); try contradiction; cbn [bind]; [|exact S].
    destruct (call_values (prop_value kd a) names), (call_values (prop_value kd b) names); try contradiction; cbn [bind map]; [|exact IH].
    now rewrite S, IH. }
  destruct (call_values (prop_value kd a) names), (call_values (prop_value kd b) names); try contradiction; cbn [bind]; congruence.
Qed.
End Scaled.
Lemma units fuel o vm args k kd names : 0 < k ->
  outcome (construct fuel o vm (scale_lum k args)) kd names = outcome (construct fuel (brighter k o) vm args) kd names.
Proof.
  intros K. pose proof (construct_scale k K fuel o vm args) as C. destruct (construct fuel o vm args) as [[m om]|]; destruct C as [-> ->]; [|reflexivity].
  cbn [outcome]. do 2 f_equal. now apply same_call.
Qed.
Lemma units_color fuel o vm vl args k kd names : 0 < k ->
  outcome (construct_color fuel o vm vl (scale_rgb k args)) kd names = outcome (construct_color fuel (brighter k o) vm vl args) kd names.
Proof.
  intros K. pose proof (construct_color_scale k K fuel o vm vl args) as C. destruct (construct_color fuel o vm vl args) as [[m om]|]; destruct C as [-> ->]; [|reflexivity].
  cbn [outcome]. do 2 f_equal. now apply same_call.
Qed.
Lemma units_example : 0 < 179 /\
  exists om v, outcome (construct 0 (opts1 2000) full [ray1 3]) KMetric ["illum"; "dgp"]%string = Some (om, Ok v).
Proof. split; [lra|]. rewrite full_construct by reflexivity. eexists _, _. cbn [outcome]. reflexivity. Qed.
