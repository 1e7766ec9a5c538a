(** Rays at the edge that are not bright do not count. *)
From Coq Require Import Lra Lia String Sorting.Permutation.
From Verif Require Import Base L_Base BaseX M_Translate S_Translate M_Mapper S_Mapper M_Io M_Metric S_Metric L_Angles L_Mapper L_Metric L_Metric2 L_Metric3 L_Construct2 L_Uniform S_Unseen L_Unseen S_Order L_Order S_Units S_Turn L_Turn S_Split L_Split S_Dim L_Peak.
Import ListNotations.
Local Open Scope R_scope.

Lemma visible_inserted vm args : vm_aspect vm <> 2%Z -> inserted (unseen vm) (visible vm args) args.
Proof.
  intros A. induction args as [|r args IH]; [constructor|]. unfold visible in *. cbn [filter]. destruct (in_view vm 0 (norm (r_vec r))) eqn:E; constructor; auto. now split.
Qed.
Lemma visible_in vm args r : In r (visible vm args) -> In r args /\ in_view vm 0 (norm (r_vec r)) = true.
Proof. unfold visible. now rewrite filter_In. Qed.
Lemma visible_edge vm args : no_edge_rays vm (visible vm args).
Proof. right. intros r I. left. now apply visible_in in I. Qed.
Lemma visible_dim vm args : no_bright_edge vm (visible vm args).
Proof. intros r I [B _]. apply visible_in in I. destruct I as [_ I]. congruence. Qed.
Lemma visible_same fuel o vm args : vm_aspect vm <> 2%Z -> no_bright_edge vm args ->
  option_map fst (construct fuel o vm args) = option_map fst (construct fuel o vm (visible vm args)).
Proof. intros A H. symmetry. apply unseen_same; [now apply visible_inserted|apply visible_dim|exact H]. Qed.
Lemma visible_some fuel o vm args m om : no_bright_edge vm args -> construct fuel o vm args = Some (m, om) ->
  exists args' om', construct fuel o vm args' = Some (m, om') /\ no_edge_rays vm args' /\ forall r, In r args' -> In r args.
Proof.
  intros H C. destruct (Z.eq_dec (vm_aspect vm) 2) as [A|A].
  - exists args, om. split; [exact C|]. split; [now left|auto].
  - pose proof (visible_same fuel o vm args A H) as E. rewrite C in E. cbn [option_map fst] in E.
    destruct (construct fuel o vm (visible vm args)) as [[m' om']|] eqn:F; [|discriminate]. cbn [option_map fst] in E. injection E as <-.
    exists (visible vm args), om'. split; [exact F|]. split; [apply visible_edge|]. intros r I. now apply visible_in in I.
Qed.
(** scenes of one luminance have no bright rays *)
Lemma mean_same (x : R) (l : list ray) : (forall r, In r l -> r_lum r = x) -> Rsumf r_lum l = x * INR (length l).
Proof.
  induction l as [|r l IH]; intros H; [cbn; ring|]. rewrite Rsumf_cons, IH by (intros; apply H; now right). cbn [length]. rewrite S_INR, (H r) by now left. ring.
Qed.
Lemma uniform_dim vm args x : (forall r, In r args -> r_lum r = x) -> no_bright_edge vm args.
Proof.
  intros H r I [_ [_ [A B]]]. rewrite (mean_same x args H) in A, B. rewrite (H r I) in B.
  assert (N : 0 < INR (length args)) by (apply lt_0_INR; destruct args; [destruct I|cbn; lia]).
  replace (x * INR (length args) / INR (length args)) with x in * by (field; lra). lra.
Qed.
Lemma uniform_averages_all fuel o vm args x m om : o_as_area o = true -> (forall r, In r args -> r_lum r = x /\ 0 <= r_omega r) ->
  construct fuel o vm args = Some (m, om) -> 0 < ms_view_area m ->
  avglum m = Fin (x * o_scale o) /\ pwavglum m = Fin (x * o_scale o) /\ avgraylum m = Fin (x * o_scale o) /\ maxlum m = x * o_scale o /\
  (0 < x * o_scale o -> gcr m = Fin 1 /\ pwgcr m = Fin 1 /\ loggcr m = Fin 0 /\ logpwgcr m = Fin 0).
Proof.
  intros A U C. destruct (visible_some fuel o vm args m om (uniform_dim vm args x (fun r I => proj1 (U r I))) C) as (a & om' & C' & E & I).
  apply (uniform_averages fuel o vm a x m om' A E); auto.
Qed.
Lemma uniform_glare_all fuel o vm args x m om : o_as_area o = true -> (forall r, In r args -> r_lum r = x /\ 0 <= r_omega r) ->
  construct fuel o vm args = Some (m, om) -> 0 < x * o_scale o -> 0 < illum m -> 1 <= o_threshold o <= 100 ->
  0 < Rsumf r_omega (filter (in_task m) (ms_rays m)) ->
  sources m = [] /\ tasklum m = Fin (x * o_scale o) /\ ugr m = Fin 0 /\
  dgp m = Fin (Rmin 1 (lowlight_factor m * (5.87 / 10 ^ 5 * illum m + 0.16))).
Proof.
  intros A U C. destruct (visible_some fuel o vm args m om (uniform_dim vm args x (fun r I => proj1 (U r I))) C) as (a & om' & C' & E & I).
  apply (uniform_glare fuel o vm a x m om' A E); auto.
Qed.

(** in general *)
Lemma dim_construct fuel o vm args : edge_dim vm args ->
  construct fuel o vm args = match construct fuel o vm (if (vm_aspect vm =? 2)%Z then args else visible vm args) with
    Some (m, _) => Some (m, map r_omega args) | None => None end.
Proof.
  intros H. destruct (vm_aspect vm =? 2)%Z eqn:A.
  - unfold construct. assert (V : view_rays vm args = (seen vm args, map (fun _ => true) args, map r_omega args)).
    { unfold view_rays, seen. rewrite A. cbn [orb]. assert (F : forall l : list ray, filter (fun _ => true) l = l) by (induction l as [|a l IH]; cbn; f_equal; auto). rewrite F.
      rewrite !map_map. reflexivity. }
    rewrite V. destruct (set_omega _ _ _ _ _ _) as [[? ?]|]; reflexivity.
  - apply Z.eqb_neq in A. destruct H as [H|H]; [contradiction|]. pose proof (visible_same fuel o vm args A H) as E.
    assert (O : construct fuel o vm args = None \/ exists m, construct fuel o vm args = Some (m, map r_omega args)).
    { unfold construct. rewrite (dim_view vm args H). destruct (set_omega _ _ _ _ _ _) as [[? ?]|]; [right; eexists; reflexivity|now left]. }
    destruct O as [O|[m O]]; rewrite O in *; destruct (construct fuel o vm (visible vm args)) as [[? ?]|]; cbn [option_map fst] in E; congruence.
Qed.
Definition shown (vm : viewmapper) (args : list ray) : list ray := if (vm_aspect vm =? 2)%Z then args else visible vm args.
Lemma shown_edge vm args : no_edge_rays vm (shown vm args).
Proof. unfold shown. destruct (vm_aspect vm =? 2)%Z eqn:A; [left; now apply Z.eqb_eq|apply visible_edge]. Qed.
Lemma shown_some fuel o vm args m om : edge_dim vm args -> construct fuel o vm args = Some (m, om) ->
  om = map r_omega args /\ exists om', construct fuel o vm (shown vm args) = Some (m, om').
Proof.
  intros H C. rewrite (dim_construct fuel o vm args H) in C. fold (shown vm args) in C. destruct (construct fuel o vm (shown vm args)) as [[m' om']|]; [|discriminate].
  injection C as <- <-. split; [reflexivity|]. eexists. reflexivity.
Qed.
Lemma shown_app vm a b : shown vm (a ++ b) = shown vm a ++ shown vm b.
Proof. unfold shown, visible. destruct (vm_aspect vm =? 2)%Z; [reflexivity|apply filter_app]. Qed.
Lemma dim_sums P f : sums_over_rays P f -> sums_over_rays_dim P f.
Proof.
  intros S fuel o vm a b m ma mb oa ob om p A D Da Db C Ca Cb.
  destruct (shown_some _ _ _ _ _ _ D C) as (_ & x & X). destruct (shown_some _ _ _ _ _ _ Da Ca) as (_ & y & Y). destruct (shown_some _ _ _ _ _ _ Db Cb) as (_ & z & Z).
  rewrite shown_app in X. refine (S fuel o vm (shown vm a) (shown vm b) m ma mb y z x p A _ X Y Z). rewrite <- shown_app. apply shown_edge.
Qed.
Lemma shown_seen vm args : seen vm (shown vm args) = seen vm args.
Proof.
  unfold shown. destruct (vm_aspect vm =? 2)%Z eqn:A; [reflexivity|]. apply Z.eqb_neq in A. apply unseen_seen. now apply visible_inserted.
Qed.
Lemma dim_arguments fuel o vm args : o_as_area o = true -> edge_dim vm args -> exists m, construct fuel o vm args = Some (m, map r_omega args) /\ ms_rays m = seen vm args.
Proof.
  intros A D. rewrite (dim_construct fuel o vm args D). fold (shown vm args). rewrite (construct_plain fuel o vm (shown vm args) A (shown_edge vm args)).
  eexists. split; [reflexivity|]. cbn [mset_of ms_rays]. apply shown_seen.
Qed.
(** order *)
Lemma perm_sum a b : Permutation a b -> Rsumf r_lum a = Rsumf r_lum b.
Proof. apply Rsumf_perm. Qed.
Lemma perm_dim vm a b : Permutation a b -> edge_dim vm a -> edge_dim vm b.
Proof.
  intros P [H|H]; [now left|]. right. intros r I B. apply (H r); [now apply (Permutation_in r (Permutation_sym P))|].
  unfold bright_edge in *. rewrite (perm_sum a b P), (Permutation_length P). exact B.
Qed.
Lemma shown_perm vm a b : Permutation a b -> Permutation (shown vm a) (shown vm b).
Proof.
  intros P. unfold shown. destruct (vm_aspect vm =? 2)%Z; [exact P|]. unfold visible.
  induction P as [|x a b P IH|x y a|a b c P1 IH1 P2 IH2]; cbn [filter]; [constructor|destruct (in_view _ _ _); [now constructor|exact IH]| |now transitivity (filter (fun r => in_view vm 0 (norm (r_vec r))) b)].
  destruct (in_view vm 0 (norm (r_vec x))), (in_view vm 0 (norm (r_vec y))); try constructor; apply Permutation_refl.
Qed.
Lemma dim_order fuel o vm args args' : edge_dim vm args -> Permutation args args' -> same_metrics_of (construct fuel o vm args) (construct fuel o vm args').
Proof.
  intros D P. pose proof (order_any fuel o vm _ _ (shown_edge vm args) (shown_perm vm args args' P)) as S.
  rewrite (dim_construct fuel o vm args D), (dim_construct fuel o vm args' (perm_dim vm _ _ P D)). fold (shown vm args) (shown vm args').
  destruct (construct fuel o vm (shown vm args)) as [[? ?]|], (construct fuel o vm (shown vm args')) as [[? ?]|]; exact S.
Qed.
(** turning *)
Lemma turn_dim mirror c s d va args : c * c + s * s = 1 -> edge_dim (mk_view d va) args -> edge_dim (mk_view (about_vertical mirror c s d) va) (map (ray_about mirror c s) args).
Proof.
  intros U [H|H]; [left; exact H|]. right. intros r I B. apply in_map_iff in I as [q [<- I]]. apply (H q I). revert B. unfold bright_edge.
  cbn [ray_about r_vec r_lum]. rewrite (T_norm mirror c s U), (T_in_view mirror c s U), (T_degrees mirror c s U), map_length.
  replace (Rsumf r_lum (map (ray_about mirror c s) args)) with (Rsumf r_lum args); [auto|]. unfold Rsumf. now rewrite map_map.
Qed.
Lemma shown_turn mirror c s d va args : c * c + s * s = 1 ->
  shown (mk_view (about_vertical mirror c s d) va) (map (ray_about mirror c s) args) = map (ray_about mirror c s) (shown (mk_view d va) args).
Proof.
  intros U. unfold shown. change (vm_aspect (mk_view (about_vertical mirror c s d) va)) with (vm_aspect (mk_view d va)). destruct (_ =? 2)%Z; [reflexivity|].
  unfold visible. rewrite filter_map. f_equal. apply filter_ext. intros r. cbn [ray_about r_vec]. rewrite (T_norm mirror c s U). apply (T_in_view mirror c s U).
Qed.
Lemma dim_turn mirror c s fuel o d va args kd names : c * c + s * s = 1 -> off_vertical d -> off_vertical (about_vertical mirror c s d) ->
  edge_dim (mk_view d va) args ->
  outcome (construct fuel o (mk_view (about_vertical mirror c s d) va) (map (ray_about mirror c s) args)) kd names =
  outcome (construct fuel o (mk_view d va) args) kd names.
Proof.
  intros U O O' D. pose proof (turn_metrics mirror c s fuel o d va _ kd names U O O' (shown_edge _ args)) as S.
  rewrite (dim_construct fuel o _ args D), (dim_construct fuel o _ _ (turn_dim mirror c s d va args U D)).
  fold (shown (mk_view d va) args). fold (shown (mk_view (about_vertical mirror c s d) va) (map (ray_about mirror c s) args)). rewrite (shown_turn mirror c s d va args U).
  rewrite map_map. cbn [ray_about r_omega]. revert S. unfold outcome.
  destruct (construct _ _ _ _) as [[? ?]|]; destruct (construct _ _ _ _) as [[? ?]|]; intros S; try discriminate; [|reflexivity]. injection S as _ ->. reflexivity.
Qed.
(** subdividing *)
Lemma shown_split vm a b : subdivided a b -> subdivided (shown vm a) (shown vm b).
Proof.
  intros S. unfold shown. destruct (vm_aspect vm =? 2)%Z; [exact S|]. unfold visible. induction S as [|r parts l l' N F E S IH]; [constructor|]. rewrite filter_app. cbn [filter].
  assert (X : filter (fun p => in_view vm 0 (norm (r_vec p))) parts = if in_view vm 0 (norm (r_vec r)) then parts else []).
  { clear - F. induction F as [|p parts [Fp _] F IH]; cbn [filter]; [now destruct (in_view _ _ _)|]. rewrite Fp, IH. now destruct (in_view vm 0 (norm (r_vec r))). }
  rewrite X. destruct (in_view vm 0 (norm (r_vec r))); [now constructor|exact IH].
Qed.
Lemma dim_split fuel o vm args args' kd names : o_as_area o = true -> edge_dim vm args -> edge_dim vm args' -> subdivided args args' ->
  ~ In "density"%string names -> ~ In "avgraylum"%string names ->
  exists m m', construct fuel o vm args = Some (m, map r_omega args) /\ construct fuel o vm args' = Some (m', map r_omega args') /\ call kd m' names = call kd m names.
Proof.
  intros A D D' S N1 N2. destruct (split_metrics fuel o vm _ _ kd names A (shown_edge vm args) (shown_split vm _ _ S) N1 N2) as (m & m' & C & C' & E).
  exists m, m'. rewrite (dim_construct fuel o vm args D), (dim_construct fuel o vm args' D'). fold (shown vm args) (shown vm args'). rewrite C, C'. auto.
Qed.
Lemma dim_seen fuel o vm args : vm_aspect vm <> 2%Z -> no_bright_edge vm args ->
  option_map fst (construct fuel o vm args) = option_map fst (construct fuel o vm (visible vm args)) /\ no_edge_rays vm (visible vm args).
Proof. intros A H. split; [now apply visible_same|apply visible_edge]. Qed.
Lemma dim_example : exists vm args, vm_aspect vm <> 2%Z /\ ~ no_edge_rays vm args /\ no_bright_edge vm args /\ edge_dim vm args /\ (exists r, In r args /\ r_lum r <> 0).
Proof.
  exists tiny, few. pose proof few_dim as F. pose proof ta_pos as T. pose proof sqrt2_b as Q. assert (Q2 : sqrt 2 * sqrt 2 = 2) by (apply sqrt_sqrt; lra).
  assert (A : vm_aspect tiny <> 2%Z) by (unfold tiny; rewrite mk_view_hemi_aspect by apply hemi_2; discriminate).
  split; [exact A|]. split; [|split; [exact F|split; [now right|]]].
  - assert (I : In (stray_at (sqrt 2 * ta)) few) by (unfold few; apply in_or_app; right; now left).
    intros [H|H]; [contradiction|]. destruct (H _ I) as [X|X].
    + cbn [stray_at r_vec] in X. rewrite tiny_out in X by (pose proof PI2_1; nra). discriminate.
    + assert (S : sqrt 2 * ta <= 2 * ta) by nra.
      destruct (tiny_bright (sqrt 2 * ta) many) as (_ & Y & _); [nra|apply many_avg|]. lra.
  - exists (stray_at (sqrt 2 * ta)). split; [unfold few; apply in_or_app; right; now left|]. cbn [stray_at r_lum]. lra.
Qed.
