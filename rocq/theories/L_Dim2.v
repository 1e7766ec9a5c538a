(** Coloured rays at the edge that are not bright. *)
From Coq Require Import Lra Lia String Sorting.Permutation.
From Verif Require Import Base L_Base BaseX M_Translate M_Mapper M_Io M_Metric S_Metric L_Metric L_Metric2 L_Metric3 L_Metric4 S_Unseen L_Unseen S_Order L_Order S_Dim L_Dim S_Dim2.
Import ListNotations.
Local Open Scope R_scope.

Lemma rows_inserted vm vl args : vm_aspect vm <> 2%Z -> inserted (fun x => unseen vm (S_Unseen.color_ray vl x)) (visible_rows vm args) args.
Proof.
  intros A. induction args as [|r args IH]; [constructor|]. unfold visible_rows in *. cbn [filter]. destruct (in_view vm 0 (norm (fst (fst r)))) eqn:E; constructor; auto. now split.
Qed.
Lemma rows_map vm vl args : map (S_Unseen.color_ray vl) (visible_rows vm args) = visible vm (map (S_Unseen.color_ray vl) args).
Proof. unfold visible, visible_rows. rewrite filter_map. reflexivity. Qed.
Lemma rows_edge vm vl args : no_edge_rays vm (map (S_Unseen.color_ray vl) (visible_rows vm args)).
Proof. rewrite rows_map. apply visible_edge. Qed.
Lemma rows_same fuel o vm vl args : vm_aspect vm <> 2%Z -> no_bright_edge vm (map (S_Unseen.color_ray vl) args) ->
  option_map fst (construct_color fuel o vm vl args) = option_map fst (construct_color fuel o vm vl (visible_rows vm args)) /\
  no_edge_rays vm (map (S_Unseen.color_ray vl) (visible_rows vm args)).
Proof.
  intros A H. split; [|apply rows_edge]. symmetry. apply unseen_color; [now apply rows_inserted| |exact H]. rewrite rows_map. apply visible_dim.
Qed.
Lemma smo_fst a b a' b' : option_map fst a = option_map fst a' -> option_map fst b = option_map fst b' -> same_metrics_of a' b' -> same_metrics_of a b.
Proof.
  destruct a as [[? ?]|], a' as [[? ?]|], b as [[? ?]|], b' as [[? ?]|]; cbn [option_map fst same_metrics_of]; intros E F; try discriminate; try injection E as ->; try injection F as ->; auto.
Qed.
Lemma rows_perm vm a b : Permutation a b -> Permutation (visible_rows vm a) (visible_rows vm b).
Proof. apply perm_filter. Qed.
Lemma dim_order_color fuel o vm vl args args' : edge_dim vm (map (S_Unseen.color_ray vl) args) -> Permutation args args' ->
  same_metrics_of (construct_color fuel o vm vl args) (construct_color fuel o vm vl args').
Proof.
  intros D P. destruct (Z.eq_dec (vm_aspect vm) 2) as [A|A]; [apply order_color; [now left|exact P]|].
  pose proof (perm_dim vm _ _ (Permutation_map (S_Unseen.color_ray vl) P) D) as D'. destruct D as [D|D]; [contradiction|]. destruct D' as [D'|D']; [contradiction|].
  apply (smo_fst _ _ _ _ (proj1 (rows_same fuel o vm vl args A D)) (proj1 (rows_same fuel o vm vl args' A D'))).
  apply order_color; [apply rows_edge|now apply rows_perm].
Qed.
Lemma color_seen_rows vm vl args : vm_aspect vm <> 2%Z -> color_seen vm vl (visible_rows vm args) = color_seen vm vl args.
Proof.
  intros A. unfold color_seen, visible_rows. induction args as [|a args IH]; [reflexivity|]. cbn [filter]. apply Z.eqb_neq in A.
  destruct (in_view vm 0 (norm (fst (fst a)))) eqn:E; cbn [map filter]; rewrite A in *; cbn [orb] in *; rewrite ?E, IH; reflexivity.
Qed.
Lemma dim_color fuel o vm vl args : o_as_area o = true -> edge_dim vm (color_args vl args) ->
  construct_color fuel o vm vl args = Some
   (MS vm (o_guth o) (Rsumf r_omega (map (S_Metric.color_ray vl) (color_seen vm vl args))) (map (S_Metric.color_ray vl) (color_seen vm vl args)) (o_scale o) (o_threshold o)
       (o_tradius o) (o_lowlight o) (map snd (color_seen vm vl args)) (length vl), map (fun a => snd (fst a)) args).
Proof.
  intros Ho D. destruct (Z.eq_dec (vm_aspect vm) 2) as [A|A]; [apply color_plain; [exact Ho|now left]|]. pose proof D as D2. destruct D as [D|D]; [contradiction|].
  pose proof (proj1 (rows_same fuel o vm vl args A D)) as E. rewrite (color_plain fuel o vm vl (visible_rows vm args) Ho (rows_edge vm vl args)) in E.
  rewrite color_seen_rows in E by exact A. cbn [option_map fst] in E.
  assert (O : forall m om, construct_color fuel o vm vl args = Some (m, om) -> om = map (fun a => snd (fst a)) args).
  { unfold construct_color. fold (color_args vl args). rewrite (dim_construct fuel o vm (color_args vl args) D2). destruct (construct _ _ _ _) as [[m ?]|]; [|discriminate].
    intros m' om X. injection X as _ <-. unfold color_args. rewrite map_map. reflexivity. }
  destruct (construct_color fuel o vm vl args) as [[m om]|]; [|discriminate]. cbn [option_map fst] in E. injection E as ->. now rewrite (O _ om eq_refl).
Qed.
Lemma lum_one x : rgb2rad [1; 0; 0] [x; 0; 0] = x.
Proof. unfold rgb2rad. cbn. ring. Qed.
Lemma rows_example : exists vm vl args, vm_aspect vm <> 2%Z /\ ~ no_edge_rays vm (color_args vl args) /\ no_bright_edge vm (color_args vl args) /\ edge_dim vm (color_args vl args).
Proof.
  destruct dim_example as (vm & args & A & B & C & D & _).
  exists vm, [1; 0; 0], (map (fun r => (r_vec r, r_omega r, [r_lum r; 0; 0])) args).
  assert (E : color_args [1; 0; 0] (map (fun r => (r_vec r, r_omega r, [r_lum r; 0; 0])) args) = args).
  { unfold color_args. rewrite map_map. rewrite <- (map_id args) at 2. apply map_ext. intros [v w l]. cbn [fst snd r_vec r_omega r_lum]. now rewrite lum_one. }
  rewrite E. auto.
Qed.
