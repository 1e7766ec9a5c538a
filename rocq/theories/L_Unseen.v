(** Lemmas on rays that are out of view. *)
From Coq Require Import Lra Lia.
From Verif Require Import Base L_Base BaseX M_Translate S_Translate M_Mapper S_Mapper M_Io M_Metric S_Metric L_Angles L_Mapper L_Metric L_Metric2 L_Construct2 S_Unseen.
Import ListNotations.
Local Open Scope R_scope.

Lemma dim_mask vm args : no_bright_edge vm args -> stray_mask vm (normed args) = map (fun _ => false) (normed args).
Proof.
  intros H. destruct (stray_mask_bright vm args) as [f [-> F]]. unfold normed. rewrite map_map. apply map_ext_in. intros r I.
  apply Bool.not_true_is_false. intros X. apply (F r I) in X. exact (H r I X).
Qed.
Definition mask_of (vm : viewmapper) (r : ray) : bool := (vm_aspect vm =? 2)%Z || in_view vm 0 (norm (r_vec r)).
Lemma dim_view vm args : no_bright_edge vm args -> view_rays vm args = (seen vm args, map (mask_of vm) args, map r_omega args).
Proof.
  intros H. unfold view_rays, seen, mask_of. fold (normed args). destruct (vm_aspect vm =? 2)%Z eqn:E.
  - cbn [orb]. assert (F : forall l : list ray, filter (fun _ => true) l = l) by (induction l as [|a l IH]; cbn; f_equal; auto). rewrite F.
    unfold normed. rewrite !map_map. reflexivity.
  - rewrite (dim_mask vm args H). unfold strays. rewrite select_false. cbn [map fold_left orb]. rewrite mk_rays_id.
    rewrite <- select_map_filter. unfold normed. rewrite !map_map. reflexivity.
Qed.
Lemma unseen_filter {A} (P : A -> Prop) (p : A -> bool) a b : (forall x, P x -> p x = false) -> inserted P a b -> filter p a = filter p b.
Proof. intros H I. induction I as [|x a b I IH|x a b X I IH]; cbn [filter]; [reflexivity| |]; [now rewrite IH|now rewrite (H x X)]. Qed.
Lemma inserted_map {A B} (f : A -> B) (P : B -> Prop) a b : inserted (fun x => P (f x)) a b -> inserted P (map f a) (map f b).
Proof. intros I. induction I; cbn [map]; constructor; auto. Qed.
Lemma unseen_seen vm a b : inserted (unseen vm) a b -> seen vm a = seen vm b.
Proof.
  intros I. unfold seen. fold (normed a) (normed b). assert (J : inserted (fun r => vm_aspect vm <> 2%Z /\ in_view vm 0 (r_vec r) = false) (normed a) (normed b)).
  { apply inserted_map. cbn [r_vec]. exact I. }
  refine (unseen_filter _ _ _ _ _ J). intros r H. destruct H as [A ->]. apply Z.eqb_neq in A. now rewrite A.
Qed.
Lemma unseen_same fuel o vm a b : inserted (unseen vm) a b -> no_bright_edge vm a -> no_bright_edge vm b ->
  option_map fst (construct fuel o vm a) = option_map fst (construct fuel o vm b).
Proof.
  intros I A B. unfold construct. rewrite (dim_view vm a A), (dim_view vm b B), (unseen_seen vm a b I). destruct (set_omega _ _ _ _ _ _) as [[r v]|]; reflexivity.
Qed.
Lemma select_rows {A B} (f : A -> bool) (g : A -> B) l : select (map f l) (map g l) = map g (filter f l).
Proof. induction l as [|a l IH]; cbn [map select filter]; auto. destruct (f a); cbn [map]; rewrite IH; auto. Qed.
Lemma unseen_color fuel o vm vl a b : inserted (fun x => unseen vm (color_ray vl x)) a b -> no_bright_edge vm (map (color_ray vl) a) -> no_bright_edge vm (map (color_ray vl) b) ->
  option_map fst (construct_color fuel o vm vl a) = option_map fst (construct_color fuel o vm vl b).
Proof.
  intros I A B. pose proof (unseen_same fuel o vm _ _ (inserted_map (color_ray vl) (unseen vm) a b I) A B) as S. unfold construct_color.
  change (fun a : vec3 * R * list R => Ray (fst (fst a)) (snd (fst a)) (rgb2rad vl (snd a))) with (color_ray vl).
  rewrite (dim_view vm _ A), (dim_view vm _ B). cbn [fst snd]. rewrite !map_map, !select_rows.
  assert (F : filter (fun x => mask_of vm (color_ray vl x)) a = filter (fun x => mask_of vm (color_ray vl x)) b).
  { refine (unseen_filter _ _ _ _ _ I). intros r H. unfold mask_of. destruct H as [H ->]. apply Z.eqb_neq in H. now rewrite H. }
  rewrite F. destruct (construct fuel o vm (map (color_ray vl) a)) as [[m om]|], (construct fuel o vm (map (color_ray vl) b)) as [[m' om']|]; cbn [option_map fst] in *; congruence.
Qed.

(** dark rays behind the viewer make a ray at the edge count *)
Definition side : ray := Ray (tilt (PI / 2)) 1 0.
Lemma side_sum n : Rsumf r_lum (repeat side n) = 0.
Proof. induction n as [|n IH]; auto. cbn [repeat]. rewrite Rsumf_cons, IH. cbn. ring. Qed.
Lemma side_unseen : unseen tiny side.
Proof.
  split; [unfold tiny; rewrite mk_view_hemi_aspect by apply hemi_2; discriminate|]. cbn [side r_vec]. apply tiny_out. pose proof ta_pos. pose proof PI2_1. lra.
Qed.
Lemma side_off : off_edge tiny side.
Proof.
  unfold off_edge. cbn [side r_vec]. rewrite norm_tilt. pose proof PI_RGT_0. unfold vm_degrees, tiny. rewrite vm_radians_eq by (try apply up3_nonzero; apply tilt_unit). rewrite mk_view_dxyz by apply up3_nonzero.
  fold (angle (norm up3) (tilt (PI / 2))). rewrite tilt_angle by lra. rewrite mk_view_hemi_va by apply hemi_2.
  replace (PI / 2 * 180 / PI) with 90 by (field; lra). unfold rtol_default. rewrite !Rabs_right by lra. lra.
Qed.
Definition few : list ray := repeat dark 5 ++ [stray_at (sqrt 2 * ta)].
Definition many : list ray := few ++ repeat side 10.
Lemma few_dim : no_bright_edge tiny few.
Proof.
  intros r I. unfold few in I. apply in_app_iff in I as [I|[<-|[]]]; [apply repeat_spec in I as ->; apply dark_not|].
  intros [_ [_ [_ B]]]. revert B. unfold few. rewrite Rsumf_app, dark_sum, Rsumf_1. cbn [stray_at r_lum repeat length app INR]. lra.
Qed.
Lemma insert_tail {A} (P : A -> Prop) a b : (forall x, In x b -> P x) -> inserted P a (a ++ b).
Proof. intros H. induction a as [|x a IH]; cbn [app]; [|now constructor]. induction b as [|x b IH]; constructor; [apply H; now left|apply IH; intros; apply H; now right]. Qed.
Lemma many_avg : 0 < Rsumf r_lum many / INR (length many) < / 10.
Proof. unfold many, few. rewrite !Rsumf_app, dark_sum, side_sum, Rsumf_1. cbn [stray_at r_lum repeat length app INR]. lra. Qed.
Lemma unseen_matters : exists o vm a b m m' om om', inserted (fun r => unseen vm r /\ off_edge vm r /\ r_lum r = 0) a b /\
  construct 0 o vm a = Some (m, om) /\ construct 0 o vm b = Some (m', om') /\
  (forall r, In r (ms_rays m) -> r_lum r = 0) /\ (exists r, In r (ms_rays m') /\ r_lum r = 1 /\ 0 < r_omega r).
Proof.
  assert (Bs : bright_edge tiny many (stray_at (sqrt 2 * ta))) by (apply tiny_bright; [pose proof sqrt2_b; pose proof ta_pos; nra|apply many_avg]).
  destruct one_stray_ok as (_ & _ & C & D & E & F & G & H & _).
  assert (M : many = repeat dark 5 ++ stray_at (sqrt 2 * ta) :: repeat side 10) by reflexivity.
  destruct (clipped_stray 0 (opts1 2000) up3 2 (repeat dark 5) (stray_at (sqrt 2 * ta)) (repeat side 10) eq_refl up3_nonzero hemi_2 C) as (w & m & X & Y & _).
  - rewrite <- M. exact Bs.
  - intros r I. rewrite <- M. apply in_app_iff in I as [I|I]; apply repeat_spec in I as ->; [apply dark_not|]. intros [_ [_ [A B]]]. cbn [side r_lum] in B. lra.
  - fold ta. exact E.
  - rewrite D, F. fold ta. exact G.
  - rewrite D, F. fold ta. exact H.
  - rewrite D, F in Y. fold ta in Y. exists (opts1 2000), tiny, few, many. rewrite <- M in X. unfold construct at 1. rewrite (dim_view tiny few few_dim). unfold set_omega. cbn [o_as_area opts1 negb andb].
    do 4 eexists. split; [|split; [reflexivity|split; [exact X|split]]].
    + apply insert_tail. intros r I. apply repeat_spec in I as ->. split; [apply side_unseen|]. split; [apply side_off|reflexivity].
    + cbn [ms_rays]. rewrite mk_rays_id. intros r I. unfold few in I. rewrite seen_app in I. apply in_app_iff in I as [I|I].
      * unfold seen in I. apply filter_In in I as [I _]. apply in_map_iff in I as [q [<- I]]. apply repeat_spec in I as ->. reflexivity.
      * exfalso. unfold seen in I. apply filter_In in I as [I J]. destruct I as [<-|[]]. cbn [r_vec stray_at] in J. rewrite tiny_out in J by (pose proof sqrt2_b; pose proof ta_pos; pose proof PI2_1; nra).
        unfold tiny in J. rewrite mk_view_hemi_aspect in J by apply hemi_2. discriminate.
    + eexists. split; [rewrite Y; apply in_or_app; right; left; reflexivity|]. cbn [r_lum r_omega stray_at]. split; [reflexivity|].
      rewrite lens_quarter. pose proof ta_pos. pose proof PI2_1. apply Rmult_lt_0_compat; nra.
Qed.
Lemma unseen_example : inserted (unseen tiny) [dark] [side; dark; side] /\ no_bright_edge tiny [dark] /\ no_bright_edge tiny [side; dark; side].
Proof.
  split; [apply inserted_new; [exact side_unseen|]; apply inserted_keep, inserted_new; [exact side_unseen|apply inserted_nil]|].
  split; intros r I; [destruct I as [<-|[]]; apply dark_not|]. intros [_ [_ [A B]]]. destruct I as [<-|[<-|[<-|[]]]]; cbn [side dark r_lum] in B; lra.
Qed.
