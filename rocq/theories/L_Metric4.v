From Coq Require Import Lra Lia Psatz String.
From Verif Require Import Base BaseX L_Base M_Translate S_Translate M_Mapper S_Mapper M_Io M_Metric M_Cache S_Metric L_Angles L_Mapper L_Pidx L_Metric L_Metric2 L_Metric3.
Import ListNotations.
Local Open Scope R_scope.

(** ** names *)
Lemma mem_in x l : mem x l = true <-> In x l.
Proof.
  unfold mem. rewrite existsb_exists. split.
  - intros [y [H E]]. apply String.eqb_eq in E. subst; auto.
  - intros H. exists x. split; auto. apply String.eqb_refl.
Qed.
Lemma check_metrics_exact k names :
  exists good bad, check_metrics k names false = Ok good /\ splits (fun n => In n (allmetrics k)) names good bad.
Proof.
  eexists _, _. split; [reflexivity|]. eapply splits_iff; [intros n; apply mem_in|]. apply filter_splits.
Qed.
Lemma filter_length_all {A} (p : A -> bool) l : length (filter p l) = length l <-> forall a, In a l -> p a = true.
Proof.
  induction l as [|a l IH]; cbn [filter length]; [split; [intros _ a []|auto]|].
  assert (L : (length (filter p l) <= length l)%nat) by (clear; induction l as [|b l IH]; cbn; auto; destruct (p b); cbn; lia).
  destruct (p a) eqn:E; cbn [length]; split; intros H.
  - intros b [<-|Hb]; auto. apply IH; auto; lia.
  - f_equal. apply IH. intros b Hb. apply H. right. auto.
  - lia.
  - rewrite (H a (or_introl eq_refl)) in E. discriminate.
Qed.
Lemma filter_all {A} (p : A -> bool) l : (forall a, In a l -> p a = true) -> filter p l = l.
Proof. induction l as [|a l IH]; intros H; cbn; auto. rewrite (H a (or_introl eq_refl)), IH; auto. intros b Hb. apply H. right; auto. Qed.
Lemma check_metrics_raise k names :
  ((forall n, In n names -> In n (allmetrics k)) -> check_metrics k names true = Ok names) /\
  ((exists n, In n names /\ ~ In n (allmetrics k)) -> check_metrics k names true = Raise AttributeError).
Proof.
  split; unfold check_metrics; cbn [andb].
  - intros H. rewrite filter_all by (intros n Hn; apply mem_in; auto). rewrite Nat.eqb_refl. auto.
  - intros [n [H1 H2]]. replace (_ =? _)%nat with false; auto. symmetry. apply Nat.eqb_neq. intros E.
    apply (proj1 (filter_length_all _ _)) with (a := n) in E; auto. apply mem_in in E. contradiction.
Qed.
(** every known name is an attribute with one value, or (irradiance) a list *)
Ltac each_name H := repeat (destruct H as [<-|H]; [|]); [..|destruct H].
Lemma names_base m n : ms_rays m <> [] -> In n (allmetrics KBase) -> exists x, one_value KBase m n x.
Proof.
  intros Hr H. cbn in H.
  each_name H; unfold one_value; try (eexists _, _; split; [reflexivity|reflexivity]).
  destruct (ms_rays m) as [|r l] eqn:E; [congruence|]. exists (Fin (list_max (r_lum r) (map r_lum l) * ms_scale m)).
  eexists. split; [reflexivity|]. cbn. unfold maxlum_base. rewrite E. reflexivity.
Qed.
Lemma names_metric k m n : k <> KBase -> In n (allmetrics KMetric) -> exists x, one_value k m n x.
Proof.
  intros Hk H. cbn in H. destruct k; [congruence| |];
  each_name H; unfold one_value; eexists _, _; (split; [reflexivity|reflexivity]).
Qed.
Lemma call_values_ok k m names : (forall n, In n names -> exists x, one_value k m n x) ->
  exists xs, call_values (prop_value k m) names = Ok (map VX xs) /\ Forall2 (one_value k m) names xs.
Proof.
  induction names as [|n ns IH]; intros H; [exists []; split; [reflexivity|constructor]|].
  destruct (H n (or_introl eq_refl)) as [x [p [E1 E2]]].
  destruct IH as [xs [E3 E4]]; [intros a Ha; apply H; right; auto|].
  exists (x :: xs). split; [cbn; rewrite E1, E2; cbn; rewrite E3; reflexivity|]. constructor; auto. exists p. auto.
Qed.
Lemma flatten_map xs : concat (map flatten_value (map VX xs)) = xs.
Proof. induction xs; cbn; f_equal; auto. Qed.
Lemma call_ok k m names : (forall n, In n names -> In n (allmetrics k)) ->
  (forall n, In n names -> exists x, one_value k m n x) ->
  exists xs, call k m names = Ok xs /\ Forall2 (one_value k m) names xs.
Proof.
  intros H1 H2. destruct (call_values_ok k m names H2) as [xs [E F]]. exists xs. split; auto. unfold call.
  rewrite (proj1 (check_metrics_raise k names) H1). cbn [bind]. rewrite E. cbn [bind]. rewrite flatten_map. auto.
Qed.
Lemma call_base m names : ms_rays m <> [] -> (forall n, In n names -> In n (allmetrics KBase)) ->
  exists xs, call KBase m names = Ok xs /\ Forall2 (one_value KBase m) names xs.
Proof. intros Hr H. apply call_ok; auto. intros n Hn. apply names_base; auto. Qed.
Lemma call_metric m names : (forall n, In n names -> In n (allmetrics KMetric)) ->
  exists xs, call KMetric m names = Ok xs /\ Forall2 (one_value KMetric m) names xs.
Proof. intros H. apply call_ok; auto. intros n Hn. apply names_metric; auto. congruence. Qed.
Lemma call_unknown k m names : (exists n, In n names /\ ~ In n (allmetrics k)) -> call k m names = Raise AttributeError.
Proof. intros H. unfold call. rewrite (proj2 (check_metrics_raise k names) H). reflexivity. Qed.
Lemma base_empty_maxlum m : ms_rays m = [] -> call KBase m ["maxlum"%string] = Raise ValueError.
Proof. intros H. unfold call. cbn. unfold maxlum_base. rewrite H. reflexivity. Qed.
(** colour: irradiance contributes one value per channel *)
Lemma all_color n : In n (allmetrics KColor) -> n = "irradiance"%string \/ (n <> "irradiance"%string /\ In n (allmetrics KMetric)).
Proof.
  intros H. destruct (String.eqb n "irradiance") eqn:E; [left; apply String.eqb_eq; auto|right]. apply String.eqb_neq in E.
  split; auto. unfold allmetrics in H. apply in_app_or in H as [H|H]; auto. destruct H as [<-|[<-|[]]]; [left; auto|congruence].
Qed.
Lemma call_color m names : (forall n, In n names -> In n (allmetrics KColor)) ->
  exists xss, call KColor m names = Ok (concat xss) /\ Forall2 (color_values m) names xss.
Proof.
  intros H. assert (G : exists vs, call_values (prop_value KColor m) names = Ok vs /\ Forall2 (color_values m) names (map flatten_value vs)).
  { clear -H. induction names as [|n ns IH]; [exists []; split; [reflexivity|constructor]|].
    destruct IH as [vs [E F]]; [intros a Ha; apply H; right; auto|].
    destruct (all_color n (H n (or_introl eq_refl))) as [->|[Hn Hi]].
    - exists (VR (irradiance m) :: vs). split; [cbn [call_values]; cbn; rewrite E; reflexivity|]. cbn [map]. constructor; auto.
      left. split; auto.
    - destruct (names_metric KColor m n) as [x Hx]; [congruence|auto|]. pose proof Hx as [p [E1 E2]].
      exists (VX x :: vs). split; [cbn [call_values]; rewrite E1, E2; cbn [bind]; rewrite E; reflexivity|]. cbn [map]. constructor; auto.
      right. split; auto. exists x. split; auto. }
  destruct G as [vs [E F]]. exists (map flatten_value vs). split; auto. unfold call.
  rewrite (proj1 (check_metrics_raise KColor names) H). cbn [bind]. rewrite E. reflexivity.
Qed.

(** ** colour rows *)
Lemma fill_mask_length {A} mask (x : A) l : length (fill_mask mask x l) = length l.
Proof. revert l; induction mask as [|b mask IH]; intros [|y l]; cbn; auto. Qed.
Lemma set_nth_length {A} i (x : A) l : length (set_nth i x l) = length l.
Proof. revert i; induction l as [|y l IH]; intros [|i]; cbn; auto. Qed.
Lemma stray_fold_length vm sm ss : forall st, let st' := fold_left (stray_round vm sm) ss st in
  length (fst (fst st')) = length (fst (fst st)) /\ length (snd (fst st')) = length (snd (fst st)) /\ length (snd st') = length (snd st).
Proof.
  induction ss as [|[[[i b2] vst] d] ss IH]; intros st; cbn [fold_left]; auto.
  destruct (IH (stray_round vm sm st (i, b2, vst, d))) as [A [B C]]. rewrite A, B, C. destruct st as [[om v] mask].
  unfold stray_round. destruct (_ && _)%bool; cbn [fst snd]; rewrite ?fill_mask_length, ?set_nth_length; auto.
Qed.
Lemma select_mk mask : forall v o l, length v = length o -> length v = length l ->
  map r_lum (select mask (mk_rays v o l)) = select mask l.
Proof.
  induction mask as [|b mask IH]; [reflexivity|]. intros [|v vs] [|o os] [|l ls] A B; cbn in A, B; try discriminate.
  - destruct b; reflexivity.
  - change (mk_rays (v :: vs) (o :: os) (l :: ls)) with (Ray v o l :: mk_rays vs os ls).
    destruct b; cbn [select map r_lum]; rewrite IH by lia; auto.
Qed.
Lemma view_rays_lum vm args rays mask om : view_rays vm args = (rays, mask, om) ->
  map r_lum rays = select mask (map r_lum args) /\ length mask = length args /\ length om = length args.
Proof.
  unfold view_rays. fold (normed args).
  assert (L : map r_lum (normed args) = map r_lum args) by (unfold normed; rewrite map_map; auto).
  assert (N : length (normed args) = length args) by (apply map_length).
  destruct (vm_aspect vm =? 2)%Z.
  - intros [= <- <- <-]. rewrite L, !map_length. split; auto. rewrite <- (map_length r_lum args) in N.
    clear L. revert N. generalize (map r_lum args) as l. induction (normed args) as [|r rs IH]; intros [|x l] H; cbn in *; try discriminate; auto. 
    rewrite <- IH; auto.
  - rewrite L. set (st := (map r_omega (normed args), map r_vec (normed args), map (fun r => in_view vm 0 (r_vec r)) (normed args))).
    pose proof (stray_fold_length vm (stray_mask vm (normed args)) (strays vm (stray_mask vm (normed args)) (normed args)) st) as H.
    cbv zeta in H. destruct (fold_left _ _ _) as [[o v] mk]. cbn [fst snd st] in H. destruct H as [H1 [H2 H3]].
    rewrite !map_length in *. intros [= <- <- <-]. split; [|split; lia]. apply select_mk; rewrite ?map_length; lia.
Qed.
Lemma omega_loop_length fuel a e rad og side os : length rad = length og -> length side = length og ->
  omega_loop fuel a e rad og side = Some os -> length os = length og.
Proof.
  revert side. induction fuel as [|fuel IH]; intros side A B; cbn; [discriminate|].
  match goal with |- (if ?b then _ else _) = _ -> _ => destruct b end.
  - apply IH; auto. rewrite map_length. auto.
  - intros [= <-]. unfold edge_mask. rewrite map_length, combine_length, map_length, combine_length. lia.
Qed.
Lemma map_lum_mk : forall v o l, length v = length o -> length v = length l -> map r_lum (mk_rays v o l) = l.
Proof.
  induction v as [|v vs IH]; intros [|o os] [|l ls] A B; cbn in A, B; try discriminate; auto.
  change (mk_rays (v :: vs) (o :: os) (l :: ls)) with (Ray v o l :: mk_rays vs os ls). cbn. f_equal. apply IH; lia.
Qed.
Lemma map_vec_mk : forall v o l, length v = length o -> length v = length l -> map r_vec (mk_rays v o l) = v.
Proof.
  induction v as [|v vs IH]; intros [|o os] [|l ls] A B; cbn in A, B; try discriminate; auto.
  change (mk_rays (v :: vs) (o :: os) (l :: ls)) with (Ray v o l :: mk_rays vs os ls). cbn. f_equal. apply IH; lia.
Qed.
Lemma map_omega_mk : forall v o l, length v = length o -> length v = length l -> map r_omega (mk_rays v o l) = o.
Proof.
  induction v as [|v vs IH]; intros [|o os] [|l ls] A B; cbn in A, B; try discriminate; auto.
  change (mk_rays (v :: vs) (o :: os) (l :: ls)) with (Ray v o l :: mk_rays vs os ls). cbn. f_equal. apply IH; lia.
Qed.
Lemma set_omega_lum fuel c vm area rays og rays' area' : length og = length rays ->
  set_omega fuel c vm area rays og = Some (rays', area') ->
  map r_lum rays' = map r_lum rays /\ map r_vec rays' = map r_vec rays /\ length rays' = length rays.
Proof.
  intros Hl. unfold set_omega.
  assert (U : forall os, length os = length rays -> map r_lum (mk_rays (map r_vec rays) os (map r_lum rays)) = map r_lum rays
    /\ map r_vec (mk_rays (map r_vec rays) os (map r_lum rays)) = map r_vec rays
    /\ length (mk_rays (map r_vec rays) os (map r_lum rays)) = length rays).
  { intros os H. rewrite map_lum_mk, map_vec_mk, mk_rays_length by (rewrite !map_length; lia). rewrite map_length. auto. }
  destruct (_ && _)%bool.
  - destruct (omega_loop _ _ _ _ _ _) eqn:E; [|discriminate]. intros [= <- _]. apply U.
    apply omega_loop_length in E; rewrite ?map_length in *; lia.
  - intros [= <- _]. apply U. auto.
Qed.
Lemma select_map {A B} (f : A -> B) mask l : select mask (map f l) = map f (select mask l).
Proof. revert l; induction mask as [|b mask IH]; intros [|a l]; destruct b || idtac; cbn; auto; rewrite IH; auto. Qed.
Lemma color_rows fuel o vm vl args m om : construct_color fuel o vm vl args = Some (m, om) ->
  map r_lum (ms_rays m) = map (rgb2rad vl) (ms_rgb m) /\ ms_channels m = length vl /\
  exists mask, length mask = length args /\ ms_rgb m = select mask (map snd args) /\
    map r_lum (ms_rays m) = select mask (map (fun a => rgb2rad vl (snd a)) args).
Proof.
  unfold construct_color, construct. set (rays := map _ args).
  destruct (view_rays vm rays) as [[rs mask] om0] eqn:E. apply view_rays_lum in E as [E1 [E2 E3]].
  destruct (set_omega _ _ _ _ _ _) as [[rs' area]|] eqn:F; [|discriminate].
  apply set_omega_lum in F as [F1 [_ F3]]; [|apply map_length]. intros [= <- _]. cbn [ms_rays ms_rgb ms_channels snd fst].
  assert (G : map r_lum rs' = select mask (map (fun a => rgb2rad vl (snd a)) args)).
  { rewrite F1, E1. unfold rays. rewrite map_map. reflexivity. }
  split; [|split; auto].
  - rewrite G, <- select_map, map_map. auto.
  - exists mask. split; auto. rewrite E2. apply map_length.
Qed.
Lemma rgb2rad_nth vl : forall row, rgb2rad vl row = Rsumf (fun j => nth j vl 0 * nth j row 0) (seq 0 (length vl)).
Proof.
  unfold rgb2rad, Rsumf. induction vl as [|v vl IH]; intros [|x row]; cbn [combine map length seq Rsum fold_right fst snd nth]; auto.
  - rewrite <- seq_shift, map_map. cbn [nth].
    assert (Z : forall l, Rsum (map (fun j => nth j vl 0 * 0) l) = 0) by (induction l as [|a l IHl]; cbn; [|unfold Rsum in IHl; rewrite IHl]; ring).
    unfold Rsum in Z. rewrite Z. ring.
  - specialize (IH row). unfold Rsum in IH. rewrite IH. rewrite <- seq_shift, map_map. cbn [nth]. ring.
Qed.
Lemma Rsumf_swap {A B} (f : A -> B -> R) la lb : Rsumf (fun a => Rsumf (f a) lb) la = Rsumf (fun b => Rsumf (fun a => f a b) la) lb.
Proof.
  induction la as [|a la IH]; [unfold Rsumf at 1; cbn; induction lb as [|b lb IHb]; auto; rewrite Rsumf_cons, <- IHb; unfold Rsumf; cbn; ring|].
  rewrite Rsumf_cons, IH, <- Rsumf_plus. apply Rsumf_ext. intros b _. rewrite Rsumf_cons. auto.
Qed.
Lemma Rsumf_combine {A} (f : ray -> R -> R) (g : A -> R) l k : map r_lum l = map g k ->
  Rsumf (fun r => f r (r_lum r)) l = Rsumf (fun p => f (fst p) (g (snd p))) (combine l k).
Proof.
  revert k. induction l as [|r l IH]; intros [|a k] H; cbn in H; try discriminate; auto.
  injection H as H1 H2. cbn [combine]. rewrite !Rsumf_cons, (IH k) by auto. cbn [fst snd]. rewrite H1. auto.
Qed.
Lemma irradiance_nth m j : (j < ms_channels m)%nat ->
  nth j (irradiance m) 0 = Rsumf (fun p => m_ctheta m (fst p) * nth j (snd p) 0 * r_omega (fst p)) (combine (ms_rays m) (ms_rgb m)) * ms_scale m.
Proof.
  intros H. unfold irradiance. set (f := fun j => _). rewrite (nth_indep _ 0 (f 0%nat)) by (rewrite map_length, seq_length; auto).
  rewrite map_nth, seq_nth by auto. reflexivity.
Qed.
Lemma color_illum fuel o vm vl args m om : construct_color fuel o vm vl args = Some (m, om) ->
  illum m = Rsumf (fun j => nth j vl 0 * nth j (irradiance m) 0) (seq 0 (length vl)).
Proof.
  intros H. apply color_rows in H as [H1 [H2 _]]. unfold illum.
  rewrite (Rsumf_combine (fun r l => m_ctheta m r * l * r_omega r) (rgb2rad vl) _ _ H1).
  rewrite (Rsumf_ext _ (fun p => Rsumf (fun j => nth j vl 0 * (m_ctheta m (fst p) * nth j (snd p) 0 * r_omega (fst p))) (seq 0 (length vl)))).
  2:{ intros p _. rewrite rgb2rad_nth. rewrite (Rmult_comm (m_ctheta m (fst p))), Rmult_assoc, Rmult_comm, <- Rsumf_scal.
      apply Rsumf_ext. intros j _. ring. }
  rewrite Rsumf_swap, Rmult_comm, <- Rsumf_scal. apply Rsumf_ext. intros j Hj. apply in_seq in Hj.
  rewrite irradiance_nth by lia. rewrite Rsumf_scal. ring.
Qed.
(** rows of a view without edge rays *)
Lemma color_plain fuel o vm vl args : o_as_area o = true -> no_edge_rays vm (color_args vl args) ->
  construct_color fuel o vm vl args = Some
   (MS vm (o_guth o) (Rsumf r_omega (map (color_ray vl) (color_seen vm vl args))) (map (color_ray vl) (color_seen vm vl args)) (o_scale o) (o_threshold o)
       (o_tradius o) (o_lowlight o) (map snd (color_seen vm vl args)) (length vl), map (fun a => snd (fst a)) args).
Proof.
  intros Ho H. unfold construct_color. fold (color_args vl args). rewrite construct_plain by auto.
  assert (S : seen vm (color_args vl args) = map (color_ray vl) (color_seen vm vl args)).
  { unfold seen, color_args, color_seen. rewrite map_map. cbn [r_vec r_omega r_lum]. clear H.
    induction args as [|a args IH]; auto. cbn [map filter r_vec]. destruct (_ || _)%bool; cbn [map]; rewrite IH; auto. }
  assert (M : select (snd (fst (view_rays vm (color_args vl args)))) (map snd args) = map snd (color_seen vm vl args)).
  { unfold view_rays. fold (normed (color_args vl args)). destruct (vm_aspect vm =? 2)%Z eqn:E.
    - cbn [fst snd]. unfold color_seen. rewrite E. cbn [orb]. unfold normed, color_args. rewrite !map_map.
      clear. induction args as [|a args IH]; auto. cbn. f_equal. auto.
    - apply Z.eqb_neq in E. rewrite stray_mask_plain by auto. unfold strays. rewrite select_false. cbn [map fold_left fst snd].
      unfold color_seen. apply Z.eqb_neq in E. rewrite E. cbn [orb]. unfold normed, color_args. rewrite !map_map. cbn [r_vec].
      clear. induction args as [|a args IH]; auto. cbn [map select filter]. destruct (in_view _ _ _); cbn [map]; f_equal; auto. }
  rewrite M. unfold mset_of. cbn [ms_vm ms_guth ms_view_area ms_rays ms_scale ms_threshold ms_tradius ms_lowlight]. rewrite S.
  repeat f_equal. unfold color_args. rewrite map_map. auto.
Qed.
Lemma irradiance_map vm g ar l sc th tr lo vl j : (j < length vl)%nat ->
  nth j (irradiance (MS vm g ar (map (color_ray vl) l) sc th tr lo (map snd l) (length vl))) 0 =
  Rsumf (fun a => vm_ctheta vm (norm (fst (fst a))) * nth j (snd a) 0 * snd (fst a)) l * sc.
Proof.
  intros H. rewrite irradiance_nth by auto. cbn [ms_rays ms_rgb ms_scale]. f_equal. unfold m_ctheta. cbn [ms_vm].
  induction l as [|a l IH]; auto. cbn [map combine]. rewrite !Rsumf_cons. cbn [fst snd]. rewrite IH. reflexivity.
Qed.
Lemma irradiance_sum fuel o vm vl a b m ma mb om oa ob j : o_as_area o = true -> no_edge_rays vm (color_args vl (a ++ b)) ->
  construct_color fuel o vm vl (a ++ b) = Some (m, om) -> construct_color fuel o vm vl a = Some (ma, oa) ->
  construct_color fuel o vm vl b = Some (mb, ob) ->
  (j < length vl)%nat -> nth j (irradiance m) 0 = nth j (irradiance ma) 0 + nth j (irradiance mb) 0.
Proof.
  intros Ho H. assert (Ha : no_edge_rays vm (color_args vl a) /\ no_edge_rays vm (color_args vl b)).
  { apply no_edge_app. unfold color_args in *. rewrite <- map_app. auto. }
  rewrite !color_plain by (auto; tauto). intros [= <- _] [= <- _] [= <- _] Hj. rewrite !irradiance_map by auto.
  unfold color_seen. rewrite filter_app, Rsumf_app. ring.
Qed.
