From Coq Require Import String Lra Lia.
From Verif Require Import Base BaseX L_Base M_Translate M_Mapper L_Mapper L_Draw M_Io L_Io M_Header M_Metric M_Peak M_Imgmetric S_Imgmetric.
From Verif Require L_Gss4.
Import ListNotations.
Local Open Scope R_scope.

Lemma floats_ok parse l w : all_floats parse l = Ok w <-> Forall2 (fun t x => parse t = Some x) l w.
Proof.
  revert w. induction l as [|t l IH]; intros w; cbn [all_floats].
  - split; intros H; [injection H as <-; constructor|inversion H; reflexivity].
  - destruct (parse t) as [x|] eqn:E.
    + destruct (all_floats parse l) as [r|e] eqn:F; cbn [bind].
      * split; intros H; [injection H as <-; constructor; [exact E|now apply IH]|].
        inversion H as [|? y ? r' H1 H2]; subst. rewrite H1 in E. injection E as <-. apply IH in H2. now injection H2 as <-.
      * split; intros H; [discriminate|]. inversion H as [|? y ? r' H1 H2]; subst. apply IH in H2. discriminate.
    + split; intros H; [discriminate|]. inversion H; subst. congruence.
Qed.
Lemma floats_exn parse l e : all_floats parse l = Raise e -> e = ValueError.
Proof.
  induction l as [|t l IH]; cbn [all_floats]; [discriminate|]. destruct (parse t); [|now intros [= ->]].
  destruct (all_floats parse l); cbn [bind]; [discriminate|]. intros [= <-]. now apply IH.
Qed.
Lemma floats_bad parse l t : In t l -> parse t = None -> all_floats parse l = Raise ValueError.
Proof.
  intros Hin Hp. induction l as [|u l IH]; [easy|]. cbn [all_floats]. destruct Hin as [->|Hin]; [now rewrite Hp|].
  destruct (parse u); [|reflexivity]. now rewrite IH.
Qed.

Lemma mem_in x l : mem x l = true <-> In x l.
Proof.
  unfold mem. rewrite existsb_exists. split; [intros (y & Hy & E); apply String.eqb_eq in E; now subst|intros H; exists x; split; [exact H|apply String.eqb_refl]].
Qed.
Lemma filter_all {A} (f : A -> bool) l : Forall (fun x => f x = true) l -> filter f l = l.
Proof. induction 1 as [|x l H _ IH]; cbn; [reflexivity|]. now rewrite H, IH. Qed.
Lemma filter_short {A} (f : A -> bool) l x : In x l -> f x = false -> (length (filter f l) < length l)%nat.
Proof.
  intros Hin H. induction l as [|y l IH]; [easy|]. cbn. destruct Hin as [->|Hin].
  - rewrite H. assert (length (filter f l) <= length l)%nat by (clear; induction l as [|y l IH]; cbn; [lia|destruct (f y); cbn; lia]). cbn. lia.
  - specialize (IH Hin). destruct (f y); cbn; lia.
Qed.
Lemma check_ok k metrics : Forall (fun m => In m (allmetrics k)) metrics -> check_metrics k metrics true = Ok metrics.
Proof.
  intros H. unfold check_metrics. rewrite filter_all; [now rewrite Nat.eqb_refl|]. eapply Forall_impl; [|exact H]. intros m Hm. now apply mem_in.
Qed.
Lemma check_bad k metrics m : In m metrics -> ~ In m (allmetrics k) -> check_metrics k metrics true = Raise AttributeError.
Proof.
  intros H N. unfold check_metrics. assert (mem m (allmetrics k) = false) as E.
  { destruct (mem m (allmetrics k)) eqn:E; [|reflexivity]. apply mem_in in E. easy. }
  pose proof (filter_short (fun m => mem m (allmetrics k)) metrics m H E) as L.
  destruct (Nat.eqb_spec (length (filter (fun m => mem m (allmetrics k)) metrics)) (length metrics)) as [E'|]; [lia|reflexivity].
Qed.
Lemma mono_needs metrics : mono_names metrics -> needs_color metrics = false.
Proof. intros H. unfold needs_color. now rewrite check_ok. Qed.
Lemma irradiance_unknown : ~ In "irradiance"%string (allmetrics KMetric).
Proof. intros H. apply mem_in in H. vm_compute in H. discriminate. Qed.
Lemma color_needs metrics : In "irradiance"%string metrics -> needs_color metrics = true.
Proof. intros H. unfold needs_color. now rewrite (check_bad KMetric metrics "irradiance" H irradiance_unknown). Qed.
Lemma needs_false metrics : needs_color metrics = false -> mono_names metrics.
Proof.
  unfold needs_color, mono_names. intros H. apply Forall_forall. intros m Hm. destruct (in_dec string_dec m (allmetrics KMetric)) as [|N]; [assumption|].
  rewrite (check_bad KMetric metrics m Hm N) in H. discriminate.
Qed.

(** the choice of weights *)
Lemma header_choice parse color item w : header_triple parse item w ->
  choose_lumrgb parse color None (Ok item) = Ok (if negb color && all_close pvalue_weights w then None else Some w).
Proof.
  intros [L F]. unfold choose_lumrgb. cbn [bind]. apply floats_ok in F. rewrite F. cbn [bind]. rewrite L. cbn [Nat.eqb negb].
  now destruct (negb color && all_close pvalue_weights w).
Qed.
Lemma none_choice parse color item : header_none parse item -> choose_lumrgb parse color None (Ok item) = Ok None.
Proof.
  intros (w & L & F). unfold choose_lumrgb. cbn [bind]. apply floats_ok in F. rewrite F. cbn [bind].
  apply Nat.eqb_neq in L. now rewrite L.
Qed.
Lemma close_near w : length w = 3%nat -> all_close pvalue_weights w = true -> nearly pvalue_weights w.
Proof.
  intros L H. destruct w as [|a [|b [|c [|]]]]; try discriminate. unfold all_close, pvalue_weights in H. cbn [combine forallb fst snd] in H.
  apply andb_prop in H as [H1 H]. apply andb_prop in H as [H2 H]. apply andb_prop in H as [H3 _].
  unfold isclose in *. apply Rleb_true in H1. apply Rleb_true in H2. apply Rleb_true in H3.
  unfold nearly, pvalue_weights. repeat apply Forall2_cons; try apply Forall2_nil; eapply Rle_trans; try eassumption; right; field.
Qed.

Lemma volume_rows vm im f : vm_aspect vm = 1%Z -> square_image im ->
  volume vm im f = Ok (map (fun r => Pix (fst (fst r)) (snd (fst r)) (snd r)) (pixel_rows vm im f)).
Proof.
  intros A (Hp & Hs & _). unfold volume, hdr2vol. rewrite Hs.
  assert (length (pixelrays vm (im_ny im)) = length (zgrid (im_ny im) (im_ny im))) as E.
  { pose proof (L_Gss4.rays_length vm (im_ny im) A) as X. pose proof (L_Gss4.omegas_length vm (im_ny im)) as Y.
    unfold M_Gss.pixel_omegas in Y. rewrite map_length in Y. congruence. }
  rewrite !map_length, E, !Nat.eqb_refl. cbn [andb]. f_equal. unfold pixel_rows. rewrite map_map. apply map_ext. intros [[a b] c]. reflexivity.
Qed.

Definition ray_of (r : vec3 * R * R) : ray := Ray (fst (fst r)) (snd (fst r)) (snd r).
Lemma unpix (rows : list (vec3 * R * list R)) :
  map (fun r => (p_v r, p_o r, p_l r)) (map (fun r => Pix (fst (fst r)) (snd (fst r)) (snd r)) rows) = rows.
Proof. rewrite map_map. erewrite map_ext; [apply map_id|]. intros [[a b] c]. reflexivity. Qed.

(** colour metrics with weights *)
Lemma color_weights parse order blur fuel o file metrics v w : if_vm file = Ok v -> vm_aspect (view_of v) = 1%Z ->
  square_image (if_im file) -> color_names metrics -> length w = 3%nat ->
  choose_lumrgb parse true (mo_lumrgb o) (if_item file) = Ok (Some w) ->
  imgmetric parse order blur fuel o file metrics =
  match normalized order blur radiance_weights o (pixel_rows (view_of v) (if_im file) (fun px => px)) with
  | Raise e => Some (Raise e)
  | Ok rays => option_map (fun m => call KColor (fst m) metrics)
                 (construct_color fuel (opts_of o) (view_of v) w (map (fun r => (p_v r, p_o r, p_l r)) rays))
  end.
Proof.
  intros Hv A Hs [Hk Hi] L Hc. unfold imgmetric. rewrite Hv. fold (view_of v). rewrite (color_needs _ Hi), Hc, L. cbn [Nat.eqb negb].
  rewrite (volume_rows _ _ _ A Hs). unfold normalized.
  destruct (if mo_peakn o then _ else _) as [rays|e]; [|reflexivity]. rewrite (check_ok KColor metrics Hk).
  destruct (construct_color fuel (opts_of o) (view_of v) w _) as [[m l]|]; reflexivity.
Qed.
(** no weights *)
Lemma color_none parse order blur fuel o file metrics v rays : if_vm file = Ok v -> vm_aspect (view_of v) = 1%Z ->
  square_image (if_im file) -> needs_color metrics = true ->
  choose_lumrgb parse true (mo_lumrgb o) (if_item file) = Ok None ->
  normalized order blur radiance_weights o (pixel_rows (view_of v) (if_im file) (fun px => px)) = Ok rays ->
  imgmetric parse order blur fuel o file metrics = Some (Raise TypeError).
Proof.
  intros Hv A Hs Hi Hc Hn. unfold imgmetric. rewrite Hv. fold (view_of v). rewrite Hi, Hc. cbn [Nat.eqb negb].
  rewrite (volume_rows _ _ _ A Hs). unfold normalized in Hn. now rewrite Hn.
Qed.
(** metrics of the luminance *)
Lemma mono_weights parse order blur fuel o file metrics v c : if_vm file = Ok v -> vm_aspect (view_of v) = 1%Z ->
  square_image (if_im file) -> mono_names metrics ->
  choose_lumrgb parse false (mo_lumrgb o) (if_item file) = Ok c ->
  (forall w, c = Some w -> length w = 3%nat) ->
  let w := match c with Some w => w | None => pvalue_weights end in
  imgmetric parse order blur fuel o file metrics =
  match normalized order blur [1] o (pixel_rows (view_of v) (if_im file) (fun px => [rgb2rad w px])) with
  | Raise e => Some (Raise e)
  | Ok rays => option_map (fun m => call KMetric (fst m) metrics)
                 (construct fuel (opts_of o) (view_of v) (map (fun r => Ray (p_v r) (p_o r) (nth 0 (p_l r) 0)) rays))
  end.
Proof.
  intros Hv A Hs Hi Hc L w. unfold imgmetric. rewrite Hv. fold (view_of v). rewrite (mono_needs _ Hi), Hc.
  assert (match c with Some w => negb (length w =? 3)%nat | None => false end = false) as ->.
  { destruct c as [u|]; [now rewrite (L u eq_refl)|reflexivity]. }
  fold w. rewrite (volume_rows _ _ _ A Hs). unfold normalized.
  destruct (if mo_peakn o then _ else _) as [rays|e]; [|reflexivity].
  destruct (construct fuel (opts_of o) (view_of v) _) as [[m l]|]; reflexivity.
Qed.
(** the weights used for the metrics of the luminance are those expected, or pvalue's when these are close *)
Lemma mono_choice parse arg item w : expected_weights parse arg item w -> (forall u, arg = Some u -> length u = 3%nat) ->
  exists c, choose_lumrgb parse false arg (Ok item) = Ok c /\ (forall w, c = Some w -> length w = 3%nat) /\
    let u := match c with Some w => w | None => pvalue_weights end in u = w \/ (arg = None /\ u = pvalue_weights /\ nearly u w).
Proof.
  intros E L. destruct E as [w item|item w H|item H].
  - exists (Some w). repeat split; [|now left]. intros u [= ->]. now apply L.
  - rewrite (header_choice parse false item w H). destruct H as [Hl _]. cbn [negb andb]. eexists. split; [reflexivity|].
    destruct (all_close pvalue_weights w) eqn:Ec; (split; [try (intros u [= <-]); try easy|]); cbv zeta; [right|now left].
    repeat split. now apply close_near.
  - rewrite (none_choice parse false item H). exists None. repeat split; [easy|]. now left.
Qed.

(** * C102: asking for irradiance too *)
Definition same_data (a b : mset) : Prop :=
  ms_vm a = ms_vm b /\ ms_guth a = ms_guth b /\ ms_view_area a = ms_view_area b /\ ms_rays a = ms_rays b /\
  ms_scale a = ms_scale b /\ ms_threshold a = ms_threshold b /\ ms_tradius a = ms_tradius b /\ ms_lowlight a = ms_lowlight b.
Lemma same_value a b p : same_data a b -> p <> Pirradiance -> prop_value KColor b p = prop_value KMetric a p.
Proof.
  destruct a as [a1 a2 a3 a4 a5 a6 a7 a8 a9 a10], b as [b1 b2 b3 b4 b5 b6 b7 b8 b9 b10].
  intros (E1 & E2 & E3 & E4 & E5 & E6 & E7 & E8) N. cbn in E1, E2, E3, E4, E5, E6, E7, E8. subst.
  destruct p; try (exfalso; now apply N); reflexivity.
Qed.
Lemma construct_same fuel o vm w args m om : construct_color fuel o vm w args = Some (m, om) ->
  exists m', construct fuel o vm (map (fun a => Ray (fst (fst a)) (snd (fst a)) (rgb2rad w (snd a))) args) = Some (m', om) /\
    same_data m' m /\ ms_channels m = length w.
Proof.
  unfold construct_color. set (rays := map _ _). destruct (construct fuel o vm rays) as [[m' om']|] eqn:E; [|discriminate].
  intros [= <- <-]. exists m'. repeat split.
Qed.
