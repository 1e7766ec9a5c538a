(** Sums of light with rays at the edge that are not bright. *)
From Coq Require Import Lra Lia String.
From Verif Require Import Base L_Base BaseX M_Translate M_Mapper S_Mapper M_Io M_Metric S_Metric S_Safe L_Metric L_Metric2 L_Metric3 L_Metric4 L_Safe S_Unseen L_Unseen L_Order S_Dim L_Dim S_Dim2 L_Dim2 S_Dim3.
Import ListNotations.
Local Open Scope R_scope.

Definition shown_split (vm : viewmapper) (l : list (vec3 * R * (R * R))) : list (vec3 * R * (R * R)) :=
  if (vm_aspect vm =? 2)%Z then l else filter (fun p => in_view vm 0 (norm (fst (fst p)))) l.
Lemma shown_split_eq vm l f : shown vm (split_rays l f) = split_rays (shown_split vm l) f.
Proof. unfold shown, shown_split, visible, split_rays. destruct (_ =? 2)%Z; [reflexivity|]. now rewrite filter_map. Qed.
Lemma dim_light f : sums_over_light f -> sums_over_light_dim f.
Proof.
  intros S fuel o vm l m ma mb oa ob om A D Da Db C Ca Cb V.
  destruct (shown_some _ _ _ _ _ _ D C) as (_ & x & X). destruct (shown_some _ _ _ _ _ _ Da Ca) as (_ & y & Y). destruct (shown_some _ _ _ _ _ _ Db Cb) as (_ & z & Z).
  rewrite shown_split_eq in X, Y, Z. refine (S fuel o vm (shown_split vm l) m ma mb y z x A _ X Y Z V). rewrite <- shown_split_eq. apply shown_edge.
Qed.
Lemma dim_light_illum : sums_over_light_dim (fun m => Fin (illum m)).
Proof. apply dim_light. intros fuel o vm l m ma mb oa ob om A E C Ca Cb _. now apply (illum_sum_lum fuel o vm l m ma mb oa ob om I A E C Ca Cb). Qed.
Lemma dim_light_avglum : sums_over_light_dim avglum.
Proof. apply dim_light. exact avglum_sum_lum. Qed.
Lemma dim_safe k l x : check_safe2sum k l = true -> In x l ->
  x = "density"%string \/ (k = KColor /\ x = "irradiance"%string) \/
  exists f, metric_of k x f /\ (sums_over_rays_dim fixed_threshold f \/ sums_over_light_dim f).
Proof.
  intros C H. destruct (safe_sums k l x C H) as [E|[E|(f & M & S)]]; [now left|right; now left|]. right. right. exists f. split; [exact M|].
  destruct S as [S|S]; [left; now apply dim_sums|right; now apply dim_light].
Qed.
Lemma dim_nonneg fuel o d va args m om : d <> vzero -> hemi_angle va -> o_as_area o = true -> 0 <= o_scale o -> edge_dim (mk_view d va) args ->
  (forall r, In r args -> r_vec r <> vzero /\ 0 <= r_omega r /\ 0 <= r_lum r) -> construct fuel o (mk_view d va) args = Some (m, om) -> 0 <= illum m.
Proof.
  intros Z H A S D P C. destruct (shown_some _ _ _ _ _ _ D C) as (_ & x & X).
  apply (illum_nonneg fuel o d va (shown (mk_view d va) args) m x Z H A S (shown_edge _ _)); [|exact X].
  intros r I. apply P. revert I. unfold shown. destruct (_ =? 2)%Z; [auto|]. intros I. now apply visible_in in I.
Qed.
Definition shown_rows (vm : viewmapper) (args : list (vec3 * R * list R)) := if (vm_aspect vm =? 2)%Z then args else visible_rows vm args.
Lemma shown_rows_some fuel o vm vl args m om : edge_dim vm (color_args vl args) -> construct_color fuel o vm vl args = Some (m, om) ->
  exists om', construct_color fuel o vm vl (shown_rows vm args) = Some (m, om').
Proof.
  intros D C. unfold shown_rows. destruct (vm_aspect vm =? 2)%Z eqn:A; [now exists om|]. apply Z.eqb_neq in A. destruct D as [D|D]; [contradiction|].
  pose proof (proj1 (rows_same fuel o vm vl args A D)) as E. rewrite C in E. destruct (construct_color fuel o vm vl (visible_rows vm args)) as [[m' om']|]; [|discriminate].
  cbn [option_map fst] in E. injection E as <-. eexists. reflexivity.
Qed.
Lemma shown_rows_edge vm vl args : no_edge_rays vm (color_args vl (shown_rows vm args)).
Proof. unfold shown_rows. destruct (_ =? 2)%Z eqn:A; [left; now apply Z.eqb_eq|apply rows_edge]. Qed.
Lemma dim_irradiance fuel o vm vl a b m ma mb om oa ob j : o_as_area o = true ->
  edge_dim vm (color_args vl (a ++ b)) -> edge_dim vm (color_args vl a) -> edge_dim vm (color_args vl b) ->
  construct_color fuel o vm vl (a ++ b) = Some (m, om) -> construct_color fuel o vm vl a = Some (ma, oa) ->
  construct_color fuel o vm vl b = Some (mb, ob) ->
  (j < length vl)%nat -> nth j (irradiance m) 0 = nth j (irradiance ma) 0 + nth j (irradiance mb) 0.
Proof.
  intros A D Da Db C Ca Cb J. destruct (shown_rows_some _ _ _ _ _ _ _ D C) as (x & X). destruct (shown_rows_some _ _ _ _ _ _ _ Da Ca) as (y & Y). destruct (shown_rows_some _ _ _ _ _ _ _ Db Cb) as (z & Z).
  assert (E : shown_rows vm (a ++ b) = shown_rows vm a ++ shown_rows vm b) by (unfold shown_rows, visible_rows; destruct (_ =? 2)%Z; [reflexivity|apply filter_app]).
  pose proof (shown_rows_edge vm vl (a ++ b)) as H. rewrite E in X, H.
  exact (irradiance_sum fuel o vm vl _ _ m ma mb x y z j A H X Y Z J).
Qed.
Lemma dim_double_lum vm args : no_bright_edge vm args -> no_bright_edge vm (map (fun r => Ray (r_vec r) (r_omega r) (r_lum r + r_lum r)) args).
Proof.
  intros H r I B. apply in_map_iff in I as [q [<- I]]. apply (H q I). revert B. unfold bright_edge. cbn [r_vec r_lum]. rewrite map_length.
  replace (Rsumf r_lum (map (fun r => Ray (r_vec r) (r_omega r) (r_lum r + r_lum r)) args)) with (2 * Rsumf r_lum args).
  2:{ clear. induction args as [|a l IH]; [unfold Rsumf; cbn; ring|]. cbn [map]. rewrite !Rsumf_cons, <- IH. cbn [r_lum]. ring. }
  unfold Rdiv. set (x := / INR (length args)). clearbody x. set (s := Rsumf r_lum args). clearbody s. intros (A & B & C & D). repeat split; auto; nra.
Qed.
Lemma dim_twice vm args : no_bright_edge vm args -> no_bright_edge vm (args ++ args).
Proof.
  intros H r I B. assert (J : In r args) by (apply in_app_or in I; tauto). apply (H r J). revert B. unfold bright_edge.
  replace (Rsumf r_lum (args ++ args) / INR (length (args ++ args))) with (Rsumf r_lum args / INR (length args)); [auto|].
  assert (N : 0 < INR (length args)) by (apply lt_0_INR; destruct args; [destruct J|cbn; lia]).
  rewrite Rsumf_app, app_length, plus_INR. field. lra.
Qed.
Lemma light_example : exists vm l, ~ no_edge_rays vm (split_rays l fst) /\ edge_dim vm (split_rays l (fun p => fst p + snd p)) /\
  edge_dim vm (split_rays l fst) /\ edge_dim vm (split_rays l snd) /\ exists p, In p l /\ snd p <> (0, 0).
Proof.
  destruct dim_example as (vm & args & A & B & C & _ & r & I & Z).
  exists vm, (map (fun r => (r_vec r, r_omega r, (r_lum r, r_lum r))) args).
  assert (F : forall g, split_rays (map (fun r => (r_vec r, r_omega r, (r_lum r, r_lum r))) args) g = map (fun r => Ray (r_vec r) (r_omega r) (g (r_lum r, r_lum r))) args)
    by (intros g; unfold split_rays; now rewrite map_map).
  assert (E : map (fun r => Ray (r_vec r) (r_omega r) (r_lum r)) args = args) by (rewrite <- (map_id args) at 2; apply map_ext; now intros []).
  rewrite !F. cbn [fst snd]. rewrite E. split; [exact B|]. split; [right; now apply dim_double_lum|]. split; [now right|]. split; [now right|].
  exists (r_vec r, r_omega r, (r_lum r, r_lum r)). split; [now apply (in_map (fun r => (r_vec r, r_omega r, (r_lum r, r_lum r))))|]. cbn [snd]. intros X. injection X as X. contradiction.
Qed.
Lemma twice_example : exists vm a b, ~ no_edge_rays vm a /\ edge_dim vm (a ++ b) /\ edge_dim vm a /\ edge_dim vm b /\ exists r, In r a /\ r_lum r <> 0.
Proof.
  destruct dim_example as (vm & args & A & B & C & _ & r). exists vm, args, args. split; [exact B|]. split; [right; now apply dim_twice|]. split; [now right|]. split; [now right|]. exact r.
Qed.
