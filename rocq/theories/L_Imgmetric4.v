From Coq Require Import String Lra Lia.
From Verif Require Import Base BaseX L_Base M_Translate M_Mapper S_Mapper L_Mapper L_Draw M_Io L_Io M_Header M_Metric M_Peak M_Imgmetric S_Imgmetric L_Imgmetric L_Imgmetric2 L_Imgmetric3.
Import ListNotations.
Local Open Scope R_scope.

(** weights given by the argument or by the header reach the colour metrics *)
Lemma color_choice parse arg item w : expected_weights parse arg item w -> arg <> None \/ header_triple parse item w ->
  choose_lumrgb parse true arg (Ok item) = Ok (Some w).
Proof.
  intros E H. destruct E as [w item|item w Hh|item Hn].
  - reflexivity.
  - now rewrite (header_choice parse true item w Hh).
  - destruct H as [H|[L F]]; [now elim H|]. destruct Hn as (u & Lu & Fu). exfalso. apply Lu.
    apply forall2_length in F. apply forall2_length in Fu. congruence.
Qed.
Lemma color_only m : In m (allmetrics KColor) -> m <> "irradiance"%string -> In m (allmetrics KMetric).
Proof.
  intros H N. change (In m (all_metric ++ ["illum"%string; "irradiance"%string])%list) in H. apply in_app_or in H as [H|[<-|[<-|[]]]]; [exact H| |now elim N].
  apply mem_in. vm_compute. reflexivity.
Qed.
(** an unknown name fails *)
Lemma unknown_raises parse order blur fuel o file metrics v w m rays : if_vm file = Ok v -> vm_aspect (view_of v) = 1%Z ->
  square_image (if_im file) -> In m metrics -> ~ In m (allmetrics KColor) -> length w = 3%nat ->
  choose_lumrgb parse true (mo_lumrgb o) (if_item file) = Ok (Some w) ->
  normalized order blur radiance_weights o (pixel_rows (view_of v) (if_im file) (fun px => px)) = Ok rays ->
  imgmetric parse order blur fuel o file metrics = Some (Raise AttributeError).
Proof.
  intros Hv A Hs Hm Hn L Hc Hr. unfold imgmetric. rewrite Hv. fold (view_of v).
  assert (needs_color metrics = true) as ->.
  { unfold needs_color. rewrite (check_bad KMetric metrics m Hm); [reflexivity|]. intros X. apply Hn. now apply metric_color. }
  rewrite Hc, L. cbn [Nat.eqb negb]. rewrite (volume_rows _ _ _ A Hs). unfold normalized in Hr. rewrite Hr.
  now rewrite (check_bad KColor metrics m Hm Hn).
Qed.
(** colour metrics without weights *)
Lemma color_default parse order blur fuel o file metrics v item : if_vm file = Ok v -> vm_aspect (view_of v) = 1%Z ->
  square_image (if_im file) -> In "irradiance"%string metrics -> mo_lumrgb o = None -> if_item file = Ok item -> header_none parse item ->
  mo_peakn o = false -> imgmetric parse order blur fuel o file metrics = Some (Raise TypeError).
Proof.
  intros Hv A Hs Hi Ha Hit Hh Hp. eapply color_none; try eassumption; [now apply color_needs|rewrite Ha, Hit; now apply none_choice|].
  unfold normalized. rewrite Hp. reflexivity.
Qed.
(** a word of the header item that is not a number *)
Lemma bad_header parse order blur fuel o file metrics v item t : if_vm file = Ok v -> mo_lumrgb o = None -> if_item file = Ok item ->
  In t (split_words item) -> parse t = None -> imgmetric parse order blur fuel o file metrics = Some (Raise ValueError).
Proof.
  intros Hv Ha Hit Hin Hp. unfold imgmetric. rewrite Hv, Ha, Hit. unfold choose_lumrgb. cbn [bind]. now rewrite (floats_bad parse _ t Hin Hp).
Qed.

(** peaks are looked for with the default weights *)
Lemma no_bright vlambda p rays : Forall (fun r => lum vlambda r <= a_peakt p / a_scale p) rays -> bright vlambda p rays = [].
Proof.
  intros H. unfold bright. assert (forall l, Forall (fun i => (i < length rays)%nat) l -> filter (fun i => Rgtb (lum vlambda (get rays i)) (a_peakt p / a_scale p)) l = []) as X.
  { induction 1 as [|i l Hi _ IH]; [reflexivity|]. cbn [filter]. rewrite IH.
    assert (Rgtb (lum vlambda (get rays i)) (a_peakt p / a_scale p) = false) as ->; [|reflexivity].
    rewrite Forall_forall in H. pose proof (H (get rays i) (nth_In rays dummy_pix Hi)) as Y. unfold Rgtb. unfold Rltb. destruct (Rlt_dec (a_peakt p / a_scale p) (lum vlambda (get rays i))); [lra|reflexivity]. }
  apply X. apply Forall_forall. intros i Hi. apply in_seq in Hi. lia.
Qed.
Lemma normalize_none order blur vlambda p k rays : Forall (fun r => lum vlambda r <= a_peakt p / a_scale p) rays ->
  normalize_peak order blur vlambda p k rays = Ok rays.
Proof. intros H. unfold normalize_peak, find_peak. rewrite (no_bright _ _ _ H). reflexivity. Qed.

Lemma peak_default parse order blur fuel o file metrics v w : if_vm file = Ok v -> vm_aspect (view_of v) = 1%Z ->
  square_image (if_im file) -> color_names metrics -> length w = 3%nat -> mo_lumrgb o = Some w ->
  (forall i j, rgb2rad radiance_weights (im_px (if_im file) i j) <= mo_peakt o / mo_scale o) ->
  imgmetric parse order blur fuel o file metrics = imgmetric parse order blur fuel (no_peakn o) file metrics.
Proof.
  intros Hv A Hs Hm L Hw Hd.
  rewrite (color_weights parse order blur fuel o file metrics v w Hv A Hs Hm L) by (rewrite Hw; reflexivity).
  rewrite (color_weights parse order blur fuel (no_peakn o) file metrics v w Hv A Hs Hm L) by (cbn [no_peakn mo_lumrgb]; rewrite Hw; reflexivity).
  assert (normalized order blur radiance_weights o (pixel_rows (view_of v) (if_im file) (fun px => px)) =
          normalized order blur radiance_weights (no_peakn o) (pixel_rows (view_of v) (if_im file) (fun px => px))) as ->; [|reflexivity].
  unfold normalized. cbn [mo_peakn no_peakn]. destruct (mo_peakn o); [|reflexivity]. apply normalize_none.
  apply Forall_forall. intros r Hr. apply in_map_iff in Hr as (x & <- & Hx). unfold pixel_rows in Hx. apply in_map_iff in Hx as ([[a b] c] & <- & Hx).
  apply in_combine_r in Hx. apply in_map_iff in Hx as (q & <- & _). unfold lum. cbn [p_l fst snd peak_of a_peakt a_scale]. apply Hd.
Qed.

(** * C102 *)
Lemma rows_same vm im w : map (fun r => Ray (p_v r) (p_o r) (nth 0 (p_l r) 0))
    (map (fun r => Pix (fst (fst r)) (snd (fst r)) (snd r)) (pixel_rows vm im (fun px => [rgb2rad w px]))) =
  map (fun a => Ray (fst (fst a)) (snd (fst a)) (rgb2rad w (snd a))) (pixel_rows vm im (fun px => px)).
Proof. unfold pixel_rows. rewrite !map_map. apply map_ext. intros [[a b] c]. reflexivity. Qed.

Lemma call_pieces k m ns vals : call k m ns = Ok vals ->
  exists vs, vals = concat (map flatten_value vs) /\ Forall (fun n => In n (allmetrics k)) ns /\
    Forall2 (fun n v => exists p, prop_of_name n = Some p /\ prop_value k m p = Ok v) ns vs.
Proof.
  unfold call. destruct (check_metrics k ns true) as [r|] eqn:Ek; cbn [bind]; [|discriminate].
  destruct (call_values (prop_value k m) ns) as [vs|] eqn:Ev; cbn [bind]; [|discriminate]. intros [= <-].
  exists vs. split; [reflexivity|]. split; [now apply check_inv in Ek|now apply call_forall2].
Qed.
Lemma call_one m n p v : In n (allmetrics KMetric) -> prop_of_name n = Some p -> prop_value KMetric m p = Ok v ->
  call KMetric m [n] = Ok (flatten_value v).
Proof.
  intros Hn Hp Hv. unfold call. rewrite check_ok by (constructor; [exact Hn|constructor]). cbn [bind call_values]. rewrite Hp, Hv. cbn [bind map concat]. now rewrite app_nil_r.
Qed.

Theorem irradiance_added parse order blur fuel o file metrics v item w vals : if_vm file = Ok v -> vm_aspect (view_of v) = 1%Z ->
  square_image (if_im file) -> color_names metrics -> length w = 3%nat -> mo_peakn o = false -> if_item file = Ok item ->
  mo_lumrgb o = Some w \/ (mo_lumrgb o = None /\ header_triple parse item w /\ ~ nearly pvalue_weights w) ->
  imgmetric parse order blur fuel o file metrics = Some (Ok vals) ->
  exists pieces, vals = concat pieces /\
    Forall2 (fun n p => if string_dec n "irradiance" then length p = 3%nat
                        else exists x, p = [x] /\ imgmetric parse order blur fuel o file [n] = Some (Ok [x])) metrics pieces.
Proof.
  intros Hv A Hs Hm L Hp Hit Hw H.
  assert (choose_lumrgb parse true (mo_lumrgb o) (if_item file) = Ok (Some w) /\
          choose_lumrgb parse false (mo_lumrgb o) (if_item file) = Ok (Some w)) as [Ct Cf].
  { rewrite Hit. destruct Hw as [->|(-> & Hh & Hc)]; [split; reflexivity|]. rewrite !(header_choice parse _ item w Hh). cbn [negb andb].
    destruct (all_close pvalue_weights w) eqn:E; [|split; reflexivity]. exfalso. apply Hc. now apply close_near. }
  rewrite (color_weights parse order blur fuel o file metrics v w Hv A Hs Hm L Ct) in H.
  unfold normalized in H. rewrite Hp in H. rewrite unpix in H.
  destruct (construct_color fuel (opts_of o) (view_of v) w _) as [[m om]|] eqn:Ec; [|discriminate]. cbn [option_map fst] in H. injection H as H.
  apply construct_same in Ec as (m' & Ec & Sd & Hch). rewrite L in Hch.
  apply call_pieces in H as (vs & -> & Hk & Hf). exists (map flatten_value vs). split; [reflexivity|].
  clear Hk. destruct Hm as [Hk _]. induction Hf as [|n x ns vs (p & Ep & Ex) _ IH]; [constructor|]. inversion Hk as [|? ? Hn Hns]; subst.
  cbn [map]. constructor; [|now apply IH]. destruct (string_dec n "irradiance") as [En|Nn].
  - rewrite (value_width KColor m n x) ; [|discriminate|exact Hn|now intros _|eauto]. subst n. reflexivity.
  - destruct (name_prop n Hn) as (q & Eq & _ & Hq). destruct (Hq Nn) as [Np Hx]. rewrite Ep in Eq. injection Eq as <-.
    destruct (Hx KColor m x) as [y ->]; [discriminate|exact Ex|]. exists y. split; [reflexivity|].
    rewrite (mono_weights parse order blur fuel o file [n] v (Some w) Hv A Hs); [|constructor; [now apply color_only|constructor]|exact Cf|now intros u [= <-]].
    unfold normalized. rewrite Hp, rows_same, Ec. cbn [option_map fst]. f_equal.
    rewrite (call_one m' n p (VX y)); [reflexivity|now apply color_only|exact Ep|]. rewrite <- Ex. symmetry. now apply same_value.
Qed.
