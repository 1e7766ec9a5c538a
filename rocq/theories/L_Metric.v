From Coq Require Import Lra Lia Psatz String.
From Verif Require Import Base BaseX L_Base M_Translate S_Translate M_Mapper S_Mapper M_Io M_Metric M_Cache S_Metric L_Angles L_Mapper L_Pidx.
Import ListNotations.
Local Open Scope R_scope.

(** ** construction without stray rays *)
Definition normed (args : list ray) : list ray := map (fun r => Ray (norm (r_vec r)) (r_omega r) (r_lum r)) args.
Lemma select_map_filter {A} (f : A -> bool) l : select (map f l) l = filter f l.
Proof. induction l as [|a l IH]; cbn [map select filter]; auto. destruct (f a); rewrite IH; auto. Qed.
Lemma select_false {A B} (l : list B) (k : list A) : select (map (fun _ => false) l) k = [].
Proof. revert k; induction l as [|a l IH]; intros k; cbn [map select]; auto. destruct k; auto. Qed.
Lemma mk_rays_id rays : mk_rays (map r_vec rays) (map r_omega rays) (map r_lum rays) = rays.
Proof. induction rays as [|[v o l] rays IH]; auto. cbn. f_equal. exact IH. Qed.
Lemma mk_rays_length v o l : length v = length o -> length v = length l -> length (mk_rays v o l) = length v.
Proof. intros A B. unfold mk_rays. rewrite map_length, !combine_length. lia. Qed.
Lemma isclose_false rt at_ a b : at_ + rt * Rabs b < Rabs (a - b) -> isclose rt at_ a b = false.
Proof. intros H. apply Rleb_false. auto. Qed.
Lemma stray_mask_plain vm args : vm_aspect vm <> 2%Z -> no_edge_rays vm args ->
  stray_mask vm (normed args) = map (fun _ => false) (normed args).
Proof.
  intros Ha [H|H]; [contradiction|]. unfold stray_mask. destruct (lum_average _) as [avg| | |]; auto.
  destruct (Rgtb avg 0); auto. apply map_ext_in. intros r Hin. unfold normed in Hin.
  apply in_map_iff in Hin as [r0 [<- Hin]]. unfold is_stray. cbn [r_vec r_lum].
  destruct (H r0 Hin) as [E|E]; [rewrite E; auto|].
  rewrite (isclose_false _ _ _ _ E). rewrite andb_false_r. auto.
Qed.
Lemma view_rays_plain vm args : no_edge_rays vm args ->
  exists mask, view_rays vm args = (seen vm args, mask, map r_omega args) /\ seen vm args = select mask (normed args)
   /\ length mask = length args.
Proof.
  intros H. unfold view_rays. destruct (vm_aspect vm =? 2)%Z eqn:E.
  - exists (map (fun _ => true) (normed args)). unfold seen. rewrite E. cbn [orb].
    assert (F : forall l : list ray, filter (fun _ => true) l = l) by (induction l as [|a l IH]; cbn; f_equal; auto).
    rewrite F. fold (normed args). split; [|split].
    + f_equal. unfold normed. rewrite map_map. auto.
    + rewrite select_map_filter. rewrite F. auto.
    + unfold normed. rewrite !map_length. auto.
  - apply Z.eqb_neq in E. fold (normed args). rewrite stray_mask_plain by auto.
    assert (St : strays vm (map (fun _ => false) (normed args)) (normed args) = []).
    { unfold strays. rewrite select_false. auto. }
    rewrite St. cbn [fold_left]. exists (map (fun r => in_view vm 0 (r_vec r)) (normed args)).
    rewrite mk_rays_id. rewrite select_map_filter. unfold seen. fold (normed args).
    apply Z.eqb_neq in E. rewrite E. cbn [orb]. split; [|split]; auto.
    + f_equal. unfold normed. rewrite map_map. auto.
    + unfold normed. rewrite !map_length. auto.
Qed.
Definition mset_of (o : options) (vm : viewmapper) (rays : list ray) : mset :=
  MS vm (o_guth o) (Rsumf r_omega rays) rays (o_scale o) (o_threshold o) (o_tradius o) (o_lowlight o) [] 0.
Lemma construct_plain fuel o vm args : o_as_area o = true -> no_edge_rays vm args ->
  construct fuel o vm args = Some (mset_of o vm (seen vm args), map r_omega args).
Proof.
  intros Ho H. unfold construct. destruct (view_rays_plain vm args H) as [mask [-> _]].
  unfold set_omega. rewrite Ho. cbn [negb andb]. rewrite mk_rays_id. auto.
Qed.
Lemma no_edge_app vm a b : no_edge_rays vm (a ++ b) -> no_edge_rays vm a /\ no_edge_rays vm b.
Proof.
  intros [H|H]; [split; left; auto|]. split; right; intros r Hr; apply H; apply in_or_app; auto.
Qed.
Lemma seen_app vm a b : seen vm (a ++ b) = seen vm a ++ seen vm b.
Proof. unfold seen. rewrite map_app, filter_app. auto. Qed.
Lemma seen_in_view vm args r : In r (seen vm args) -> vm_aspect vm <> 2%Z -> in_view vm 0 (r_vec r) = true.
Proof.
  intros H Ha. apply filter_In in H as [_ H]. apply Z.eqb_neq in Ha. rewrite Ha in H. auto.
Qed.

(** a sum over rays *)
Ltac plain_union H E := destruct (no_edge_app _ _ _ H) as [? ?]; rewrite (construct_plain _ _ _ _ E H);
  rewrite (construct_plain _ _ _ _ E) by auto; rewrite (construct_plain _ _ _ _ E) by auto;
  intros [= <- _] [= <- _] [= <- _].
Lemma illum_sum_rays : sums_over_rays any_options (fun m => Fin (illum m)).
Proof.
  intros fuel o vm a b m ma mb oa ob om _ Ho H. plain_union H Ho.
  cbn [xadd]. f_equal. unfold illum, mset_of, m_ctheta. cbn [ms_rays ms_scale ms_vm]. rewrite seen_app, Rsumf_app. ring.
Qed.
Lemma threshold_fixed m : 100 < ms_threshold m -> threshold m = Fin (ms_threshold m).
Proof. intros H. unfold threshold. replace (Rgtb _ _) with true; auto. symmetry. apply Rltb_true. auto. Qed.
Lemma is_source_fixed m r : 100 < ms_threshold m -> is_source m r = Rgtb (r_lum r * ms_scale m) (ms_threshold m).
Proof. intros H. unfold is_source. rewrite threshold_fixed by auto. auto. Qed.
Lemma sources_fixed m : 100 < ms_threshold m ->
  sources m = filter (fun r => Rgtb (r_lum r * ms_scale m) (ms_threshold m)) (ms_rays m).
Proof. intros H. apply filter_ext. intros r. apply is_source_fixed. auto. Qed.
Lemma pwsl2_sum_rays : sums_over_rays fixed_threshold (fun m => Fin (pwsl2 m)).
Proof.
  intros fuel o vm a b m ma mb oa ob om Ht Ho H. plain_union H Ho.
  cbn [xadd]. f_equal. unfold pwsl2. rewrite !sources_fixed by (cbn [mset_of ms_threshold]; auto).
  unfold mset_of, m_pidx. cbn [ms_rays ms_scale ms_vm ms_threshold ms_guth]. rewrite seen_app, filter_app, Rsumf_app. auto.
Qed.
Lemma srcillum_sum_rays : sums_over_rays fixed_threshold (fun m => Fin (srcillum m)).
Proof.
  intros fuel o vm a b m ma mb oa ob om Ht Ho H. plain_union H Ho.
  cbn [xadd]. f_equal. unfold srcillum. rewrite !sources_fixed by (cbn [mset_of ms_threshold]; auto).
  unfold mset_of, m_ctheta. cbn [ms_rays ms_scale ms_vm ms_threshold ms_guth]. rewrite seen_app, filter_app, Rsumf_app. ring.
Qed.

(** ** sums over luminance *)
Lemma split_no_edge vm l f g : no_edge_rays vm (split_rays l f) -> no_edge_rays vm (split_rays l g).
Proof.
  intros [H|H]; [left; auto|right]. intros r Hr. apply in_map_iff in Hr as [p [<- Hp]]. cbn [r_vec].
  apply (H (Ray (fst (fst p)) (snd (fst p)) (f (snd p)))). apply in_map_iff. eauto.
Qed.
Lemma seen_split vm l f : seen vm (split_rays l f) =
  split_rays (filter (fun p => (vm_aspect vm =? 2)%Z || in_view vm 0 (fst (fst p))) (map (fun p => (norm (fst (fst p)), snd (fst p), snd p)) l)) f.
Proof.
  unfold seen, split_rays. rewrite map_map. cbn [r_vec r_omega r_lum].
  induction l as [|p l IH]; auto. cbn [map filter r_vec fst snd].
  destruct (_ || _)%bool; cbn [map fst snd]; rewrite IH; auto.
Qed.
Ltac plain_split H E := rewrite (construct_plain _ _ _ _ E (split_no_edge _ _ _ _ H));
  rewrite (construct_plain _ _ _ _ E (split_no_edge _ _ _ _ H));
  rewrite (construct_plain _ _ _ _ E (split_no_edge _ _ _ _ H));
  intros [= <- _] [= <- _] [= <- _]; rewrite !seen_split.
Lemma Rsumf_split (F : vec3 -> R -> R -> R) l f : Rsumf (fun r => F (r_vec r) (r_omega r) (r_lum r)) (split_rays l f) =
  Rsumf (fun p => F (fst (fst p)) (snd (fst p)) (f (snd p))) l.
Proof. unfold split_rays, Rsumf. rewrite map_map. auto. Qed.
Lemma illum_sum_lum : sums_over_lum any_options (fun m => Fin (illum m)).
Proof.
  intros fuel o vm l m ma mb oa ob om _ Ho H. plain_split H Ho.
  cbn [xadd]. f_equal. unfold illum, mset_of, m_ctheta. cbn [ms_rays ms_scale ms_vm].
  set (k := filter _ _). rewrite !(Rsumf_split (fun v o l => vm_ctheta vm v * l * o)).
  rewrite <- Rmult_plus_distr_r, <- Rsumf_plus. f_equal. apply Rsumf_ext. intros p _. ring.
Qed.
Lemma xdiv_add a b c : c <> 0 -> xdiv (Fin (a + b)) (Fin c) = xadd (xdiv (Fin a) (Fin c)) (xdiv (Fin b) (Fin c)).
Proof.
  intros H. unfold xdiv. replace (Reqb c 0) with false by (symmetry; apply Reqb_false; auto).
  cbn [xadd]. f_equal. field. auto.
Qed.
Lemma avglum_sum_lum fuel o vm l m ma mb oa ob om : o_as_area o = true ->
  no_edge_rays vm (split_rays l fst) ->
  construct fuel o vm (split_rays l (fun p => fst p + snd p)) = Some (m, om) ->
  construct fuel o vm (split_rays l fst) = Some (ma, oa) ->
  construct fuel o vm (split_rays l snd) = Some (mb, ob) ->
  ms_view_area m <> 0 -> avglum m = xadd (avglum ma) (avglum mb).
Proof.
  intros Ho H. plain_split H Ho. unfold avglum, mset_of. cbn [ms_rays ms_scale ms_vm ms_view_area].
  set (k := filter _ _). rewrite !(Rsumf_split (fun v o l => o)), !(Rsumf_split (fun v o l => l * o)).
  intros Ha. rewrite <- xdiv_add by auto. f_equal. f_equal.
  rewrite <- Rmult_plus_distr_r, <- Rsumf_plus. f_equal. apply Rsumf_ext. intros p _. ring.
Qed.
