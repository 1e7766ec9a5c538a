(** Lemmas on the order of the rays. *)
From Coq Require Import Lra Lia String Sorting.Permutation.
From Verif Require Import Base L_Base BaseX M_Translate M_Mapper M_Io M_Metric S_Metric L_Metric L_Metric2 L_Peak L_Units S_Order.
Import ListNotations.
Local Open Scope R_scope.

Lemma perm_filter {A} (f : A -> bool) l l' : Permutation l l' -> Permutation (filter f l) (filter f l').
Proof.
  induction 1; cbn [filter]; auto.
  - destruct (f x); auto.
  - destruct (f x), (f y); auto using perm_swap.
  - eauto using Permutation_trans.
Qed.
Lemma select_two {A B} (f : A -> bool) (g : A -> B) l : select (map f l) (map g l) = map g (filter f l).
Proof. induction l as [|x l IH]; [reflexivity|]. cbn [map select filter]. destruct (f x); cbn [map]; rewrite IH; reflexivity. Qed.
Lemma combine_two {A B C} (f : A -> B) (g : A -> C) l : combine (map f l) (map g l) = map (fun x => (f x, g x)) l.
Proof. induction l as [|x l IH]; [reflexivity|]. cbn [map combine]. now rewrite IH. Qed.

(** the loop of the setter as a change of every ray that depends on sums only *)
Fixpoint change (fuel : nat) (a excess : R) (rad : ray -> R) (side : ray -> R) (rays : list ray) : option (ray -> R) :=
  match fuel with
  | O => None
  | S fuel =>
      let on r := Rgtb (rad r) (a - side r) in
      let edgetotal := Rsumf r_omega (filter on rays) in
      let adjust := if Rgtb edgetotal 0 then 1 - excess / edgetotal else 1 in
      if Rltb adjust 0 then change fuel a excess rad (fun r => side r * 1.1) rays
      else Some (fun r => if on r then r_omega r * adjust else r_omega r)
  end.
Lemma change_loop fuel a excess rad side rays :
  omega_loop fuel a excess (map rad rays) (map r_omega rays) (map side rays) = option_map (fun f => map f rays) (change fuel a excess rad side rays).
Proof.
  revert side. induction fuel as [|fuel IH]; intros side; [reflexivity|]. cbn [omega_loop change].
  assert (E : edge_mask a (map rad rays) (map side rays) = map (fun r => Rgtb (rad r) (a - side r)) rays).
  { unfold edge_mask. rewrite combine_two, map_map. reflexivity. }
  rewrite E, select_two. change (Rsum (map r_omega ?l)) with (Rsumf r_omega l).
  set (adj := if Rgtb _ 0 then _ else _). clearbody adj. destruct (Rltb adj 0).
  - rewrite map_map. apply (IH (fun r => side r * 1.1)).
  - cbn [option_map]. rewrite combine_two, map_map. reflexivity.
Qed.
Lemma change_perm fuel a excess rad side l l' : Permutation l l' -> change fuel a excess rad side l = change fuel a excess rad side l'.
Proof.
  intros P. revert side. induction fuel as [|fuel IH]; intros side; [reflexivity|]. cbn [change].
  rewrite (Rsumf_perm r_omega _ _ (perm_filter (fun r => Rgtb (rad r) (a - side r)) _ _ P)). rewrite IH. reflexivity.
Qed.
(** the solid angles and the area of the setter as a function of the rays *)
Definition setter (fuel : nat) (correct : bool) (vm : viewmapper) (area : R) (rays : list ray) : option ((ray -> R) * R) :=
  if correct && (100 <? List.length rays)%nat then
    option_map (fun f => (f, area)) (change fuel (vm_viewangle vm * PI / 360) (Rsumf r_omega rays - area) (fun r => acos (vm_ctheta vm (r_vec r))) (fun r => sqrt (r_omega r)) rays)
  else Some (r_omega, Rsumf r_omega rays).
Definition with_omega (f : ray -> R) (r : ray) : ray := Ray (r_vec r) (f r) (r_lum r).
Lemma mk_rays_map f rays : mk_rays (map r_vec rays) (map f rays) (map r_lum rays) = map (with_omega f) rays.
Proof. induction rays as [|r rays IH]; [reflexivity|]. cbn. f_equal. exact IH. Qed.
Lemma set_omega_map fuel c vm area rays : set_omega fuel c vm area rays (map r_omega rays) =
  match setter fuel c vm area rays with Some (f, a) => Some (map (with_omega f) rays, a) | None => None end.
Proof.
  unfold set_omega, setter. destruct (c && _); cbn [option_map]; [|rewrite mk_rays_map; reflexivity].
  rewrite (map_map r_omega sqrt). change (Rsum (map r_omega rays)) with (Rsumf r_omega rays). rewrite change_loop.
  destruct (change _ _ _ _ _ _); cbn [option_map]; [|reflexivity]. rewrite mk_rays_map. reflexivity.
Qed.
Lemma setter_perm fuel c vm area l l' : Permutation l l' -> setter fuel c vm area l = setter fuel c vm area l'.
Proof.
  intros P. unfold setter. rewrite (Permutation_length P), (Rsumf_perm r_omega _ _ P).
  rewrite (change_perm _ _ _ _ _ _ _ P). reflexivity.
Qed.

(** sets that differ in the order of the rays *)
Definition reordered (m m' : mset) : Prop :=
  Permutation (ms_rays m) (ms_rays m') /\ Permutation (combine (ms_rays m) (ms_rgb m)) (combine (ms_rays m') (ms_rgb m')) /\
  exists rays rgb, m' = MS (ms_vm m) (ms_guth m) (ms_view_area m) rays (ms_scale m) (ms_threshold m) (ms_tradius m) (ms_lowlight m) rgb (ms_channels m).
Lemma list_max_upper x l y : In y (x :: l) -> y <= list_max x l.
Proof.
  revert x. induction l as [|z l IH]; intros x [->|H]; cbn [list_max]; try lra; try contradiction; [apply Rmax_l|].
  eapply Rle_trans; [apply IH; exact H|apply Rmax_r].
Qed.
Lemma list_max_member x l : In (list_max x l) (x :: l).
Proof.
  revert x. induction l as [|z l IH]; intros x; cbn [list_max]; [left; reflexivity|].
  unfold Rmax. destruct (Rle_dec _ _); [right; apply IH|left; reflexivity].
Qed.
Lemma list_max_perm x l y l' : Permutation (x :: l) (y :: l') -> list_max x l = list_max y l'.
Proof.
  intros P. apply Rle_antisym; apply list_max_upper.
  - apply (Permutation_in _ P), list_max_member.
  - apply (Permutation_in _ (Permutation_sym P)), list_max_member.
Qed.
Lemma np_max_perm l l' : Permutation l l' -> np_max l = np_max l'.
Proof.
  intros P. destruct l as [|x l], l' as [|y l']; [reflexivity|apply Permutation_nil in P; discriminate|apply Permutation_sym, Permutation_nil in P; discriminate|].
  cbn [np_max]. f_equal. now apply list_max_perm.
Qed.

Definition named (p : prop) : Prop :=
  match p with
  | Pctheta | Pradians | Ppos_idx | Ppweight | Psrc_mask | Ptask_mask | Psources | Pbackground | Psource_pos_idx => False
  | _ => True
  end.
Lemma name_named n p : prop_of_name n = Some p -> named p.
Proof.
  unfold prop_of_name. destruct (List.find _ _) as [[s q]|] eqn:F; [|discriminate]. apply find_some in F as [F _]. intros [= <-].
  cbn [In] in F. repeat (destruct F as [[= _ <-]|F]; [exact I|]). contradiction.
Qed.

Section Same.
Context (vm : viewmapper) (guth : bool) (area : R) (sc th tr : R) (low : bool) (ch : nat) (l l' : list ray) (c c' : list (list R)).
Context (P : Permutation l l') (Q : Permutation (combine l c) (combine l' c')).
Let m := MS vm guth area l sc th tr low c ch.
Let m' := MS vm guth area l' sc th tr low c' ch.
Lemma sum_all (f : ray -> R) : Rsumf f (ms_rays m) = Rsumf f (ms_rays m').
Proof. exact (Rsumf_perm f l l' P). Qed.
Lemma o_pwarea : pweighted_area m = pweighted_area m'. Proof. exact (sum_all (m_pweight m)). Qed.
Lemma o_illum : illum m = illum m'. Proof. unfold illum. rewrite (sum_all (fun r => m_ctheta m r * r_lum r * r_omega r)). reflexivity. Qed.
Lemma o_avglum : avglum m = avglum m'. Proof. unfold avglum. rewrite (sum_all (fun r => r_lum r * r_omega r)). reflexivity. Qed.
Lemma o_pwavglum : pwavglum m = pwavglum m'. Proof. unfold pwavglum. rewrite o_pwarea, (sum_all (fun r => r_lum r * m_pweight m r)). reflexivity. Qed.
Lemma o_avgray : avgraylum m = avgraylum m'.
Proof.
  unfold avgraylum, xmean. rewrite (Rsum_perm _ _ (Permutation_map r_lum (P : Permutation (ms_rays m) (ms_rays m')))).
  rewrite !map_length, (Permutation_length (P : Permutation (ms_rays m) (ms_rays m'))). reflexivity.
Qed.
Lemma o_gcr : gcr m = gcr m'. Proof. unfold gcr. rewrite o_avglum, (sum_all (fun r => r_lum r * r_lum r * r_omega r)). reflexivity. Qed.
Lemma o_pwgcr : pwgcr m = pwgcr m'. Proof. unfold pwgcr. rewrite o_pwavglum, o_pwarea, (sum_all (fun r => r_lum r * r_lum r * m_pweight m r)). reflexivity. Qed.
Lemma o_density : density m = density m'. Proof. unfold density. rewrite (Permutation_length (P : Permutation (ms_rays m) (ms_rays m'))). reflexivity. Qed.
Lemma o_maxbase : maxlum_base m = maxlum_base m'.
Proof. unfold maxlum_base. rewrite (np_max_perm _ _ (Permutation_map r_lum (P : Permutation (ms_rays m) (ms_rays m')))). reflexivity. Qed.
Lemma o_max : maxlum m = maxlum m'.
Proof.
  pose proof (np_max_perm _ _ (Permutation_map r_lum (P : Permutation (ms_rays m) (ms_rays m')))) as N. unfold maxlum.
  destruct (map r_lum (ms_rays m)), (map r_lum (ms_rays m')); cbn [np_max] in N; try discriminate; [reflexivity|]. injection N as ->. reflexivity.
Qed.
Lemma o_task : tasklum m = tasklum m'.
Proof.
  unfold tasklum. change (in_task m') with (in_task m). pose proof (perm_filter (in_task m) _ _ (P : Permutation (ms_rays m) (ms_rays m'))) as T.
  rewrite !(Rsumf_perm _ _ _ T). reflexivity.
Qed.
Lemma o_thr : threshold m = threshold m'. Proof. unfold threshold. rewrite o_task. reflexivity. Qed.
Lemma o_source r : is_source m r = is_source m' r. Proof. unfold is_source. rewrite o_thr. reflexivity. Qed.
Lemma o_sources : Permutation (sources m) (sources m').
Proof. unfold sources. rewrite (filter_ext (is_source m') (is_source m)) by (intros; symmetry; apply o_source). now apply perm_filter. Qed.
Lemma o_back : Permutation (background m) (background m').
Proof. unfold background. rewrite (filter_ext (fun r => negb (is_source m' r)) (fun r => negb (is_source m r))) by (intros; f_equal; symmetry; apply o_source). now apply perm_filter. Qed.
Lemma o_pwsl2 : pwsl2 m = pwsl2 m'. Proof. exact (Rsumf_perm _ _ _ o_sources). Qed.
Lemma o_srcillum : srcillum m = srcillum m'. Proof. unfold srcillum. rewrite (Rsumf_perm _ _ _ o_sources). reflexivity. Qed.
Lemma o_srcarea : srcarea m = srcarea m'. Proof. exact (Rsumf_perm _ _ _ o_sources). Qed.
Lemma o_backlum : backlum m = backlum m'. Proof. unfold backlum. now rewrite o_illum, o_srcillum. Qed.
Lemma o_backtrue : backlum_true m = backlum_true m'. Proof. unfold backlum_true. rewrite !(Rsumf_perm _ _ _ o_back). reflexivity. Qed.
Lemma o_log : log_gc m = log_gc m'. Proof. unfold log_gc. now rewrite o_pwsl2, o_illum. Qed.
Lemma o_t1 : dgp_t1 m = dgp_t1 m'. Proof. unfold dgp_t1. now rewrite o_illum. Qed.
Lemma o_t2 : dgp_t2 m = dgp_t2 m'. Proof. unfold dgp_t2. now rewrite o_log. Qed.
Lemma o_dgp : dgp m = dgp m'. Proof. unfold dgp, lowlight_factor. rewrite o_t1, o_t2, o_illum. reflexivity. Qed.
Lemma o_ugr : ugr m = ugr m'. Proof. unfold ugr. now rewrite o_pwsl2, o_backlum. Qed.
Lemma o_irr : irradiance m = irradiance m'.
Proof.
  unfold irradiance. change (ms_channels m') with (ms_channels m). apply map_ext. intros j. f_equal.
  exact (Rsumf_perm (fun p => m_ctheta m (fst p) * nth j (snd p) 0 * r_omega (fst p)) _ _ Q).
Qed.
Lemma o_prop kd p : named p -> prop_value kd m p = prop_value kd m' p.
Proof.
  intros N. unfold prop_value. destruct (negb (has_prop kd p)); [reflexivity|].
  destruct p; try contradiction.
  all: try (unfold loggcr, logpwgcr, ugp).
  all: rewrite ?o_pwarea, ?o_illum, ?o_avglum, ?o_pwavglum, ?o_avgray, ?o_gcr, ?o_pwgcr, ?o_density, ?o_maxbase, ?o_max, ?o_task, ?o_thr, ?o_pwsl2,
    ?o_srcillum, ?o_srcarea, ?o_backlum, ?o_backtrue, ?o_log, ?o_t1, ?o_t2, ?o_dgp, ?o_ugr, ?o_irr; reflexivity.
Qed.
Lemma o_values kd names : call_values (prop_value kd m) names = call_values (prop_value kd m') names.
Proof.
  induction names as [|n names IH]; [reflexivity|]. cbn [call_values]. destruct (prop_of_name n) as [p|] eqn:E; [|reflexivity].
  rewrite (o_prop kd p (name_named n p E)), IH. reflexivity.
Qed.
Lemma o_call kd names : call kd m names = call kd m' names.
Proof. unfold call. destruct (check_metrics kd names true); [|reflexivity]. cbn [bind]. rewrite o_values. reflexivity. Qed.
End Same.

(** the construction *)
Lemma seen_perm vm l l' : Permutation l l' -> Permutation (seen vm l) (seen vm l').
Proof. intros P. unfold seen. apply perm_filter. now apply Permutation_map. Qed.
Lemma edge_perm vm l l' : Permutation l l' -> no_edge_rays vm l -> no_edge_rays vm l'.
Proof. intros P [H|H]; [left; exact H|]. right. intros r I. apply H. exact (Permutation_in _ (Permutation_sym P) I). Qed.
Lemma construct_map fuel o vm args : no_edge_rays vm args -> construct fuel o vm args =
  match setter fuel (negb (o_as_area o)) vm (vm_area vm) (seen vm args) with
  | Some (f, a) => Some (MS vm (o_guth o) a (map (with_omega f) (seen vm args)) (o_scale o) (o_threshold o) (o_tradius o) (o_lowlight o) [] 0, map r_omega args)
  | None => None
  end.
Proof.
  intros H. unfold construct. destruct (view_rays_plain vm args H) as [mask [-> _]]. rewrite set_omega_map.
  destruct (setter _ _ _ _ _) as [[f a]|]; reflexivity.
Qed.
Lemma order_any fuel o vm args args' : no_edge_rays vm args -> Permutation args args' ->
  same_metrics_of (construct fuel o vm args) (construct fuel o vm args').
Proof.
  intros H P. rewrite (construct_map fuel o vm args H), (construct_map fuel o vm args' (edge_perm _ _ _ P H)).
  pose proof (seen_perm vm _ _ P) as S. rewrite (setter_perm _ _ _ _ _ _ S). destruct (setter _ _ _ _ _) as [[f a]|]; [|exact I].
  cbn [same_metrics_of ms_rays]. pose proof (Permutation_map (with_omega f) S) as M. split; [exact M|]. intros kd names. apply o_call; [exact M|].
  assert (N : forall l : list ray, combine l (@nil (list R)) = []) by (intros [|x l]; reflexivity). rewrite !N. constructor.
Qed.
(** colours *)
Definition ray_of_color (vl : list R) (a : vec3 * R * list R) : ray := Ray (fst (fst a)) (snd (fst a)) (rgb2rad vl (snd a)).
Definition unit_ray (r : ray) : ray := Ray (norm (r_vec r)) (r_omega r) (r_lum r).
Definition kept (vm : viewmapper) (r : ray) : bool := (vm_aspect vm =? 2)%Z || in_view vm 0 (r_vec r).
Lemma view_mask vm args : no_edge_rays vm args -> snd (fst (view_rays vm args)) = map (fun r => kept vm (unit_ray r)) args.
Proof.
  intros H. unfold view_rays, kept. destruct (vm_aspect vm =? 2)%Z eqn:E; cbn [orb].
  - cbn [fst snd]. rewrite map_map. reflexivity.
  - apply Z.eqb_neq in E. fold (normed args). rewrite stray_mask_plain by auto.
    assert (St : strays vm (map (fun _ => false) (normed args)) (normed args) = []) by (unfold strays; rewrite select_false; auto).
    rewrite St. cbn [fold_left fst snd]. unfold normed. rewrite map_map. reflexivity.
Qed.
Lemma seen_filter vm args : seen vm args = filter (kept vm) (map unit_ray args). Proof. reflexivity. Qed.
Lemma filter_map {A B} (f : B -> bool) (g : A -> B) l : filter f (map g l) = map g (filter (fun x => f (g x)) l).
Proof. induction l as [|x l IH]; [reflexivity|]. cbn [map filter]. destruct (f (g x)); cbn [map]; rewrite IH; reflexivity. Qed.
Lemma order_color fuel o vm vl args args' : no_edge_rays vm (map (ray_of_color vl) args) -> Permutation args args' ->
  same_metrics_of (construct_color fuel o vm vl args) (construct_color fuel o vm vl args').
Proof.
  intros H P. unfold construct_color. fold (ray_of_color vl).
  change (fun a : vec3 * R * list R => Ray (fst (fst a)) (snd (fst a)) (rgb2rad vl (snd a))) with (ray_of_color vl).
  pose proof (Permutation_map (ray_of_color vl) P) as PR. pose proof (edge_perm _ _ _ PR H) as H'.
  rewrite (construct_map fuel o vm _ H), (construct_map fuel o vm _ H').
  pose proof (seen_perm vm _ _ PR) as S. rewrite (setter_perm _ _ _ _ _ _ S). destruct (setter _ _ _ _ _) as [[f a]|]; [|exact I].
  rewrite (view_mask vm _ H), (view_mask vm _ H').
  cbn [same_metrics_of ms_rays ms_vm ms_guth ms_view_area ms_scale ms_threshold ms_tradius ms_lowlight].
  pose proof (Permutation_map (with_omega f) S) as M. split; [exact M|]. intros kd names. apply o_call; [exact M|].
  rewrite !map_map, !select_two, !seen_filter, !filter_map, !map_map.
  rewrite !combine_two. apply Permutation_map. apply perm_filter. exact P.
Qed.
