(** Lemmas on subdividing rays. *)
From Coq Require Import Lra Lia String.
From Verif Require Import Base L_Base BaseX M_Translate M_Mapper M_Io M_Metric S_Metric L_Metric L_Metric2 L_Order S_Split.
Import ListNotations.
Local Open Scope R_scope.

Lemma parts_sum (g : vec3 -> R -> R) v x parts : Forall (fun p => r_vec p = v /\ r_lum p = x) parts ->
  Rsumf (fun p => g (r_vec p) (r_lum p) * r_omega p) parts = g v x * Rsumf r_omega parts.
Proof.
  induction 1 as [|p parts [A B] F IH]; [rewrite !Rsumf_nil || cbn; ring|]. rewrite !Rsumf_cons, IH, A, B. ring.
Qed.
Lemma split_sum (g : vec3 -> R -> R) f l l' : (forall r, f r = g (r_vec r) (r_lum r) * r_omega r) -> subdivided l l' -> Rsumf f l' = Rsumf f l.
Proof.
  intros E S. assert (X : forall q, Rsumf f q = Rsumf (fun p => g (r_vec p) (r_lum p) * r_omega p) q).
  { intros q. unfold Rsumf. f_equal. apply map_ext. exact E. }
  rewrite !X. clear X E f. induction S as [|r parts l l' N F O S IH]; [reflexivity|].
  rewrite Rsumf_app, Rsumf_cons, IH, (parts_sum g (r_vec r) (r_lum r)), O by exact F. ring.
Qed.
Lemma filter_parts (h : vec3 -> R -> bool) v x parts : Forall (fun p => r_vec p = v /\ r_lum p = x) parts ->
  filter (fun p => h (r_vec p) (r_lum p)) parts = if h v x then parts else [].
Proof.
  induction 1 as [|p parts [A B] F IH]; [now destruct (h v x)|]. cbn [filter]. rewrite IH, A, B. destruct (h v x); reflexivity.
Qed.
Lemma split_filter (h : vec3 -> R -> bool) f l l' : (forall r, f r = h (r_vec r) (r_lum r)) -> subdivided l l' -> subdivided (filter f l) (filter f l').
Proof.
  intros E S. rewrite !(filter_ext f (fun p => h (r_vec p) (r_lum p))) by exact E. clear E f.
  induction S as [|r parts l l' N F O S IH]; [constructor|]. rewrite filter_app, (filter_parts h (r_vec r) (r_lum r) parts F).
  cbn [filter]. destruct (h (r_vec r) (r_lum r)); [now constructor|exact IH].
Qed.
Lemma split_normed l l' : subdivided l l' -> subdivided (normed l) (normed l').
Proof.
  induction 1 as [|r parts l l' N F O S IH]; [constructor|]. unfold normed. rewrite map_app. cbn [map]. constructor.
  - destruct parts; [contradiction|discriminate].
  - clear - F. induction F as [|p parts [A B] F IH]; [constructor|]. cbn [map]. constructor; [|exact IH]. cbn [r_vec r_lum]. now rewrite A, B.
  - cbn [r_omega]. rewrite <- O. unfold Rsumf. rewrite map_map. reflexivity.
  - exact IH.
Qed.
Lemma split_seen vm l l' : subdivided l l' -> subdivided (seen vm l) (seen vm l').
Proof. intros S. unfold seen. apply (split_filter (fun v _ => (vm_aspect vm =? 2)%Z || in_view vm 0 v)); [reflexivity|]. now apply split_normed. Qed.
Lemma split_in l l' : subdivided l l' -> forall x, In x (map r_lum l) <-> In x (map r_lum l').
Proof.
  induction 1 as [|r parts l l' N F O S IH]; intros x; [reflexivity|]. rewrite map_app, in_app_iff. cbn [map In]. rewrite IH.
  assert (E : In x (map r_lum parts) <-> r_lum r = x).
  { clear - N F. rewrite in_map_iff. rewrite Forall_forall in F. split.
    - intros [p [<- I]]. symmetry. apply F, I.
    - intros <-. destruct parts as [|p parts]; [contradiction|]. exists p. split; [apply F; left; reflexivity|left; reflexivity]. }
  rewrite E. reflexivity.
Qed.
Lemma split_edge vm l l' : subdivided l l' -> no_edge_rays vm l -> no_edge_rays vm l'.
Proof.
  intros S [H|H]; [left; exact H|]. right. induction S as [|r parts l l' N F O S IH]; [intros r []|].
  intros p I. apply in_app_iff in I as [I|I].
  - rewrite Forall_forall in F. destruct (F p I) as [-> _]. apply H. left. reflexivity.
  - apply IH; [|exact I]. intros q J. apply H. right. exact J.
Qed.
Lemma split_max l l' : subdivided l l' -> np_max (map r_lum l') = np_max (map r_lum l).
Proof.
  intros S. pose proof (split_in l l' S) as E. destruct (map r_lum l) as [|x a], (map r_lum l') as [|y b]; [reflexivity|exfalso; apply (proj2 (E y)); left; reflexivity|exfalso; apply (proj1 (E x)); left; reflexivity|].
  cbn [np_max]. f_equal. apply Rle_antisym; apply list_max_upper.
  - apply E, list_max_member.
  - apply E, list_max_member.
Qed.

Section Split.
Context (vm : viewmapper) (guth : bool) (area sc th tr : R) (low : bool) (l l' : list ray) (S : subdivided l l').
Let m := MS vm guth area l sc th tr low [] 0.
Let m' := MS vm guth area l' sc th tr low [] 0.
Let pw (v : vec3) : R := / square (positions guth vm v).
Lemma s_pwarea : pweighted_area m' = pweighted_area m. Proof. apply (split_sum (fun v _ => pw v)); [|exact S]. intros r. unfold m_pweight, Rdiv. apply Rmult_comm. Qed.
Lemma s_light a b : subdivided a b -> Rsumf (fun r => m_ctheta m r * r_lum r * r_omega r) b = Rsumf (fun r => m_ctheta m r * r_lum r * r_omega r) a.
Proof. apply (split_sum (fun v x => vm_ctheta vm v * x)). reflexivity. Qed.
Lemma s_lum a b : subdivided a b -> Rsumf (fun r => r_lum r * r_omega r) b = Rsumf (fun r => r_lum r * r_omega r) a.
Proof. apply (split_sum (fun _ x => x)). reflexivity. Qed.
Lemma s_omega a b : subdivided a b -> Rsumf r_omega b = Rsumf r_omega a.
Proof. apply (split_sum (fun _ _ => 1)). intros r. ring. Qed.
Lemma s_illum : illum m' = illum m. Proof. unfold illum. change (m_ctheta m') with (m_ctheta m). now rewrite (s_light l l' S : Rsumf _ (ms_rays m') = Rsumf _ (ms_rays m)). Qed.
Lemma s_avglum : avglum m' = avglum m. Proof. unfold avglum. now rewrite (s_lum l l' S : Rsumf _ (ms_rays m') = Rsumf _ (ms_rays m)). Qed.
Lemma s_pwavglum : pwavglum m' = pwavglum m.
Proof.
  unfold pwavglum. rewrite s_pwarea. rewrite (split_sum (fun v x => x * pw v) (fun r => r_lum r * m_pweight m' r) (ms_rays m) (ms_rays m')); [reflexivity| |exact S].
  intros r. unfold m_pweight, Rdiv. change (m_pidx m' r) with (positions guth vm (r_vec r)). unfold pw. ring.
Qed.
Lemma s_gcr : gcr m' = gcr m.
Proof. unfold gcr. rewrite s_avglum, (split_sum (fun _ x => x * x) (fun r => r_lum r * r_lum r * r_omega r) (ms_rays m) (ms_rays m')); [reflexivity|reflexivity|exact S]. Qed.
Lemma s_pwgcr : pwgcr m' = pwgcr m.
Proof.
  unfold pwgcr. rewrite s_pwavglum, s_pwarea. rewrite (split_sum (fun v x => x * x * pw v) (fun r => r_lum r * r_lum r * m_pweight m' r) (ms_rays m) (ms_rays m')); [reflexivity| |exact S].
  intros r. unfold m_pweight, Rdiv. change (m_pidx m' r) with (positions guth vm (r_vec r)). unfold pw. ring.
Qed.
Lemma s_maxbase : maxlum_base m' = maxlum_base m. Proof. unfold maxlum_base. now rewrite (split_max l l' S : np_max (map r_lum (ms_rays m')) = np_max (map r_lum (ms_rays m))). Qed.
Lemma s_max : maxlum m' = maxlum m.
Proof.
  pose proof (split_max l l' S : np_max (map r_lum (ms_rays m')) = np_max (map r_lum (ms_rays m))) as N. unfold maxlum.
  destruct (map r_lum (ms_rays m)), (map r_lum (ms_rays m')); cbn [np_max] in N; try discriminate; [reflexivity|]. injection N as ->. reflexivity.
Qed.
Lemma s_task : tasklum m' = tasklum m.
Proof.
  unfold tasklum. pose proof (split_filter (fun v _ => Rltb (vm_degrees vm v) tr) (in_task m) l l' (fun _ => eq_refl) S) as T.
  change (in_task m') with (in_task m). change (ms_rays m') with l'. change (ms_rays m) with l. now rewrite (s_lum _ _ T), (s_omega _ _ T).
Qed.
Lemma s_thr : threshold m' = threshold m. Proof. unfold threshold. now rewrite s_task. Qed.
Lemma s_src r : is_source m' r = is_source m r. Proof. unfold is_source. now rewrite s_thr. Qed.
Lemma s_sources : subdivided (sources m) (sources m').
Proof. unfold sources. rewrite (filter_ext (is_source m') (is_source m)) by apply s_src. apply (split_filter (fun _ x => xgtb (Fin (x * sc)) (threshold m))); [reflexivity|exact S]. Qed.
Lemma s_back : subdivided (background m) (background m').
Proof.
  unfold background. rewrite (filter_ext (fun r => negb (is_source m' r)) (fun r => negb (is_source m r))) by (intros r; now rewrite s_src).
  apply (split_filter (fun _ x => negb (xgtb (Fin (x * sc)) (threshold m)))); [reflexivity|exact S].
Qed.
Lemma s_pwsl2 : pwsl2 m' = pwsl2 m.
Proof.
  unfold pwsl2. apply (split_sum (fun v x => square x * (sc * sc) * pw v)); [|exact s_sources].
  intros r. unfold Rdiv, pw, m_pidx. cbn [m m' ms_guth ms_vm ms_scale]. ring.
Qed.
Lemma s_srcillum : srcillum m' = srcillum m. Proof. unfold srcillum. change (m_ctheta m') with (m_ctheta m). now rewrite (s_light _ _ s_sources). Qed.
Lemma s_srcarea : srcarea m' = srcarea m. Proof. exact (s_omega _ _ s_sources). Qed.
Lemma s_backlum : backlum m' = backlum m. Proof. unfold backlum. now rewrite s_illum, s_srcillum. Qed.
Lemma s_backtrue : backlum_true m' = backlum_true m. Proof. unfold backlum_true. now rewrite (s_lum _ _ s_back), (s_omega _ _ s_back). Qed.
Lemma s_log : log_gc m' = log_gc m. Proof. unfold log_gc. now rewrite s_pwsl2, s_illum. Qed.
Lemma s_t1 : dgp_t1 m' = dgp_t1 m. Proof. unfold dgp_t1. now rewrite s_illum. Qed.
Lemma s_t2 : dgp_t2 m' = dgp_t2 m. Proof. unfold dgp_t2. now rewrite s_log. Qed.
Lemma s_dgp : dgp m' = dgp m. Proof. unfold dgp, lowlight_factor. rewrite s_t1, s_t2, s_illum. reflexivity. Qed.
Lemma s_ugr : ugr m' = ugr m. Proof. unfold ugr. now rewrite s_pwsl2, s_backlum. Qed.
Lemma s_prop kd p : named p -> p <> Pdensity -> p <> Pavgraylum -> prop_value kd m' p = prop_value kd m p.
Proof.
  intros N D A. unfold prop_value. destruct (negb (has_prop kd p)); [reflexivity|].
  destruct p; try contradiction.
  all: try (unfold loggcr, logpwgcr, ugp).
  all: rewrite ?s_pwarea, ?s_illum, ?s_avglum, ?s_pwavglum, ?s_gcr, ?s_pwgcr, ?s_maxbase, ?s_max, ?s_task, ?s_thr, ?s_pwsl2,
    ?s_srcillum, ?s_srcarea, ?s_backlum, ?s_backtrue, ?s_log, ?s_t1, ?s_t2, ?s_dgp, ?s_ugr; reflexivity.
Qed.
Lemma name_of (n k : string) p : prop_of_name n = Some p -> prop_of_name k = Some p -> (k = "density" \/ k = "avgraylum")%string -> n = k.
Proof.
  intros A B. unfold prop_of_name in A. destruct (List.find _ _) as [[x q]|] eqn:F; [|discriminate]. apply find_some in F as [F E].
  injection A as ->. apply String.eqb_eq in E. cbn [fst] in E. subst x.
  intros [-> | ->]; injection B as <-; cbn [In] in F; repeat (destruct F as [F|F]; [first [discriminate F|now injection F]|]); contradiction.
Qed.
Lemma s_call kd names : ~ In "density"%string names -> ~ In "avgraylum"%string names -> call kd m' names = call kd m names.
Proof.
  intros D A. unfold call. destruct (check_metrics kd names true); [|reflexivity]. cbn [bind].
  assert (E : call_values (prop_value kd m') names = call_values (prop_value kd m) names).
  { induction names as [|n names IH]; [reflexivity|]. cbn [call_values]. cbn [In] in D, A. rewrite IH by tauto.
    destruct (prop_of_name n) as [p|] eqn:E; [|reflexivity].
    rewrite (s_prop kd p (name_named n p E)); [reflexivity| |]; intros ->.
    - apply D. left. apply (name_of n "density" Pdensity); [exact E|reflexivity|tauto].
    - apply A. left. apply (name_of n "avgraylum" Pavgraylum); [exact E|reflexivity|tauto]. }
  rewrite E. reflexivity.
Qed.
End Split.
Lemma split_metrics fuel o vm args args' kd names : o_as_area o = true -> no_edge_rays vm args -> subdivided args args' ->
  ~ In "density"%string names -> ~ In "avgraylum"%string names ->
  exists m m', construct fuel o vm args = Some (m, map r_omega args) /\ construct fuel o vm args' = Some (m', map r_omega args') /\
    call kd m' names = call kd m names.
Proof.
  intros A E S D G. pose proof (split_seen vm _ _ S) as SS. eexists _, _.
  split; [now apply construct_plain|]. split; [apply construct_plain; [exact A|now apply (split_edge vm args)]|].
  unfold mset_of. rewrite (s_omega _ _ SS). now apply s_call.
Qed.
Lemma split_example : subdivided [ray1 3; ray1 5] [Ray up3 (1 / 3) 3; Ray up3 (2 / 3) 3; ray1 5].
Proof.
  apply (sub_ray (ray1 3) [Ray up3 (1 / 3) 3; Ray up3 (2 / 3) 3] [ray1 5] [ray1 5]).
  - discriminate.
  - repeat constructor.
  - rewrite Rsumf_2. cbn [r_omega ray1]. field.
  - apply (sub_ray (ray1 5) [ray1 5] [] []); [discriminate|repeat constructor|now rewrite Rsumf_1|constructor].
Qed.
Lemma split_counts : exists o args args' m m' om om', o_as_area o = true /\ no_edge_rays full args /\ subdivided args args' /\
  construct 0 o full args = Some (m, om) /\ construct 0 o full args' = Some (m', om') /\ avgraylum m' <> avgraylum m /\ density m' <> density m.
Proof.
  exists (opts1 2000), [ray1 3; ray1 5], [Ray up3 (1 / 3) 3; Ray up3 (2 / 3) 3; ray1 5]. eexists _, _, _, _.
  split; [reflexivity|]. split; [apply full_no_edge|]. split; [exact split_example|].
  split; [apply full_construct; reflexivity|]. split; [apply full_construct; reflexivity|].
  unfold avgraylum, density, mset_of, xmean, normed. cbn [ms_rays ms_scale ms_view_area map List.length r_lum r_vec r_omega ray1].
  unfold Rsumf. cbn [map Rsum fold_right r_omega opts1 o_scale]. cbn [INR].
  unfold xdiv. repeat (match goal with |- context [Reqb ?a 0] => replace (Reqb a 0) with false by (symmetry; apply Reqb_false; cbn; lra) end).
  split; cbn [xmul]; intros [= E]; cbn in E; lra.
Qed.
