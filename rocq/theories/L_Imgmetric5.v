From Coq Require Import Ascii String Lra Lia.
From Verif Require Import Base BaseX L_Base M_Translate M_Mapper S_Mapper L_Mapper L_Draw M_Io L_Io M_Header M_Metric M_Peak M_Imgmetric S_Imgmetric S_Imgmetric2 L_Imgmetric L_Imgmetric2 L_Imgmetric3 L_Imgmetric4.
Import ListNotations.
Local Open Scope R_scope.

Lemma blue_square : square_image blue_image.
Proof. split; [cbn; lia|]. split; [reflexivity|]. intros i j. cbn. destruct ((i =? 0)%Z && (j =? 0)%Z); reflexivity. Qed.
Lemma view180 : vm_aspect (view_of None) = 1%Z.
Proof. cbn [view_of]. apply mk_view_hemi_aspect. unfold hemi_angle. lra. Qed.
Lemma bits001 : header_triple bit_parse (list_ascii_of_string "0 0 1") [0; 0; 1].
Proof. split; [reflexivity|]. vm_compute split_words. repeat apply Forall2_cons; try apply Forall2_nil; reflexivity. Qed.
Lemma bits_none : header_none bit_parse (list_ascii_of_string "").
Proof. exists []. split; [discriminate|]. vm_compute split_words. constructor. Qed.
Lemma far001 : ~ nearly pvalue_weights [0; 0; 1].
Proof. intros H. inversion H as [|? ? ? ? H1 _]; subst. revert H1. rewrite Rabs_R0. unfold Rabs. destruct (Rcase_abs _); lra. Qed.
Lemma blue_dark i j : rgb2rad radiance_weights (im_px blue_image i j) <= 100000 / 179.
Proof. unfold radiance_weights, rgb2rad. cbn. destruct ((i =? 0)%Z && (j =? 0)%Z); cbn; lra. Qed.
Lemma blue_bright : rgb2rad [0; 0; 1] (im_px blue_image 0 0) > 100000 / 179.
Proof. cbn. lra. Qed.

Lemma select_le {A} mask (l : list A) : (length (select mask l) <= length l)%nat.
Proof. revert l. induction mask as [|b mask IH]; intros [|x l]; cbn; try lia; [destruct b; cbn; lia|]. specialize (IH l). destruct b; cbn; lia. Qed.
Lemma small_construct fuel o vm args : (length args <= 100)%nat -> exists m om, construct fuel o vm args = Some (m, om).
Proof.
  intros H. unfold construct. destruct (view_rays vm args) as [[rays mask] om] eqn:E. unfold set_omega.
  assert (length rays <= 100)%nat as L.
  { unfold view_rays in E. destruct (vm_aspect vm =? 2)%Z; [injection E as <- _ _; now rewrite map_length|].
    destruct (fold_left _ _ _) as [[o1 v1] m1]. injection E as <- _ _. eapply Nat.le_trans; [apply select_le|]. unfold mk_rays.
    rewrite map_length, combine_length, !map_length. lia. }
  destruct (100 <? length rays)%nat eqn:E1; [apply Nat.ltb_lt in E1; lia|]. rewrite andb_false_r. eauto.
Qed.
Lemma blue_length f : (length (@pixel_rows (list R) (view_of None) blue_image f) <= 100)%nat.
Proof. unfold pixel_rows. rewrite map_length, combine_length. eapply Nat.le_trans; [apply Nat.le_min_r|]. rewrite map_length. change (im_ny blue_image) with 2%Z. change (length (zgrid 2 2)) with 4%nat. lia. Qed.
(** a colour metric list with weights gives values *)
Lemma blue_color parse order blur fuel item w : choose_lumrgb parse true w (Ok (list_ascii_of_string item)) = Ok (Some [0; 0; 1]) ->
  exists vals, imgmetric parse order blur fuel (opts1 false w) (blue_file item) ["illum"; "irradiance"; "avglum"]%string = Some (Ok vals).
Proof.
  intros Hc. rewrite (color_weights _ _ _ _ (opts1 false w) (blue_file item) _ None [0; 0; 1] eq_refl view180 blue_square);
    [|split; [repeat (apply Forall_cons; [apply mem_in; vm_compute; reflexivity|]); apply Forall_nil|right; left; reflexivity]|reflexivity|exact Hc].
  cbn [normalized opts1 mo_peakn]. rewrite unpix. unfold construct_color.
  destruct (small_construct fuel (opts_of (opts1 false w)) (view_of None)
     (map (fun a => Ray (fst (fst a)) (snd (fst a)) (rgb2rad [0; 0; 1] (snd a))) (pixel_rows (view_of None) blue_image (fun px => px)))) as (m & om & E).
  { rewrite map_length. apply blue_length. }
  change (if_im (blue_file item)) with blue_image. rewrite E. cbn [option_map fst]. eexists. reflexivity.
Qed.

(** * the table, computed by imgmetric *)
Lemma computed_width {P} parse order blur fuel o (file : P -> imgfile) calc : computed_by parse order blur fuel o file calc ->
  forall img ms vals, calc img ms = Ok vals -> length vals = (length ms + 2 * count "irradiance" ms)%nat.
Proof. intros H img ms vals E. apply (imgmetric_width parse order blur fuel o (file img) ms). now rewrite H, E. Qed.
Lemma count_none x l : ~ In x l -> count x l = 0%nat.
Proof. apply count_occ_not_In. Qed.
Lemma count_some x l : In x l -> (0 < count x l)%nat.
Proof. apply count_occ_In. Qed.
Lemma without_in x y l : In y (without_first x l) -> In y l.
Proof. induction l as [|z l IH]; [easy|]. cbn [without_first]. destruct (string_dec x z); [now right|]. intros [->|H]; [now left|right; auto]. Qed.
Lemma calc_mono {P} parse order blur fuel o (file : P -> imgfile) calc img ms vals : computed_by parse order blur fuel o file calc ->
  calc img ms = Ok vals -> ~ In "irradiance"%string ms -> mono_names ms.
Proof.
  intros H E N. pose proof (H img ms) as X. rewrite E in X. unfold imgmetric in X. destruct (if_vm (file img)); [|discriminate].
  destruct (choose_lumrgb _ _ _ _) as [c|]; [|discriminate]. destruct (match c with Some w => negb (length w =? 3)%nat | None => false end); [discriminate|].
  destruct (needs_color ms) eqn:En; [|now apply needs_false]. 
  destruct (volume _ _ _); [|discriminate]. destruct (if mo_peakn o then _ else _) as [rays|]; [|discriminate]. destruct c as [w|]; [|discriminate].
  destruct (check_metrics KColor ms true) as [r|] eqn:Ek; [|discriminate]. apply check_inv in Ek. apply Forall_forall. intros m Hm.
  rewrite Forall_forall in Ek. apply color_only; [now apply Ek|]. intros ->. now apply N.
Qed.
Theorem table_columns {P} parse order blur fuel o (file : P -> imgfile) calc gss imgs metrics names :
  computed_by parse order blur fuel o file calc -> scores_each gss imgs -> ~ In "irradiance"%string metrics ->
  let t := metric_cmd calc gss imgs metrics in t_exn t = None -> t_names t = Some names ->
  forall img row, In (img, row) (t_rows t) -> length row = length names /\
    Forall2 (fun n x => imgmetric parse order blur fuel o (file img) [n] = Some (Ok [x]))
      (other_metrics metrics) (firstn (length (other_metrics metrics)) row).
Proof.
  intros Hc Hg Hi. cbv zeta. intros Ht Hn img row Hin. split.
  - pose proof (table_width calc gss imgs metrics names Hg (computed_width parse order blur fuel o file calc Hc) Ht Hn) as W.
    rewrite Forall_forall in W. specialize (W _ Hin). cbn [snd] in W. rewrite (count_none _ _ Hi) in W. lia.
  - destruct (table_rows calc gss imgs metrics Hg Ht) as (_ & _ & Hr). apply In_nth_error in Hin as [k Hk].
    destruct (Hr k img row Hk) as (_ & vals & g1 & g2 & -> & Hv & _ & _).
    destruct (other_metrics metrics) as [|a ms] eqn:E; [constructor|]. rewrite <- E in *.
    assert (~ In "irradiance"%string (other_metrics metrics)) as Hi'.
    { intros X. apply Hi. unfold other_metrics in X. now apply without_in, without_in in X. }
    pose proof (computed_width parse order blur fuel o file calc Hc img _ _ Hv) as L. rewrite (count_none _ _ Hi'), Nat.add_0_r in L.
    rewrite <- L, firstn_app, firstn_all, Nat.sub_diag, app_nil_r. apply imgmetric_each; [now apply (calc_mono parse order blur fuel o file calc img _ vals)|].
    now rewrite Hc, Hv.
Qed.
Theorem table_irradiance {P} parse order blur fuel o (file : P -> imgfile) calc gss imgs metrics names :
  computed_by parse order blur fuel o file calc -> scores_each gss imgs -> In "irradiance"%string metrics ->
  let t := metric_cmd calc gss imgs metrics in t_exn t = None -> t_names t = Some names ->
  Forall (fun r => (length names < length (snd r))%nat) (t_rows t).
Proof.
  intros Hc Hg Hi. cbv zeta. intros Ht Hn.
  pose proof (table_width calc gss imgs metrics names Hg (computed_width parse order blur fuel o file calc Hc) Ht Hn) as W.
  eapply Forall_impl; [|exact W]. intros r ->. apply count_some in Hi. lia.
Qed.
Lemma blue_some parse order blur fuel w ms item : exists r, imgmetric parse order blur fuel (opts1 false w) (blue_file item) ms = Some r.
Proof.
  unfold imgmetric. change (if_vm (blue_file item)) with (@Ok (option viewmapper) None). cbv beta iota.
  destruct (choose_lumrgb _ _ _ _) as [c|]; [|eauto]. destruct (match c with Some w => negb (length w =? 3)%nat | None => false end); [eauto|].
  fold (view_of None). change (if_im (blue_file item)) with blue_image.
  destruct (needs_color ms); rewrite (volume_rows _ _ _ view180 blue_square); cbn [mo_peakn opts1].
  - destruct c as [u|]; [|eauto]. destruct (check_metrics KColor ms true); [|eauto]. rewrite unpix. unfold construct_color.
    destruct (small_construct fuel (opts_of (opts1 false w)) (view_of None)
     (map (fun a => Ray (fst (fst a)) (snd (fst a)) (rgb2rad u (snd a))) (pixel_rows (view_of None) blue_image (fun px => px)))) as (m & om & E).
    { rewrite map_length. apply blue_length. }
    rewrite E. eauto.
  - match goal with |- context [construct fuel ?o ?v ?l] => destruct (small_construct fuel o v l) as (m & om & E) end.
    { rewrite !map_length. apply blue_length. }
    rewrite E. eauto.
Qed.
Lemma blue_computed parse order blur fuel w : computed_by parse order blur fuel (opts1 false w) blue_file (blue_calc parse order blur fuel w).
Proof. intros item ms. unfold blue_calc. destruct (blue_some parse order blur fuel w ms item) as [r ->]. reflexivity. Qed.
Lemma zero_each imgs : scores_each zero_scores imgs.
Proof. intros nb l [= <-]. apply map_length. Qed.
Lemma blue_table parse order blur fuel metrics vals imgs : 
  (forall item, blue_calc parse order blur fuel (Some [0; 0; 1]) item (other_metrics metrics) = Ok (vals item)) -> metrics <> [] ->
  t_exn (metric_cmd (blue_calc parse order blur fuel (Some [0; 0; 1])) zero_scores imgs metrics) = None.
Proof.
  intros H N. unfold metric_cmd. unfold other_metrics in H. rewrite <- !pop_without in H. destruct (pop "gss" metrics) as [g m1] eqn:E1. cbn [snd] in H. destruct (pop "gssnb" m1) as [gnb m2] eqn:E2. cbn [snd] in H.
  assert (each (fun i => blue_calc parse order blur fuel (Some [0; 0; 1]) i m2) imgs = Ok (map vals imgs)) as ->.
  { clear - H. induction imgs as [|x l IH]; [reflexivity|]. cbn [each]. now rewrite H, IH. }
  destruct m2 as [|a m2]; cbn [bind]; [|destruct g, gnb; reflexivity]. destruct g, gnb; try reflexivity.
  exfalso. destruct metrics as [|x l]; [easy|]. cbn [pop] in E1. destruct (String.eqb_spec "gss" x); [discriminate|]. destruct (pop "gss" l) as [b r]. injection E1 as -> <-.
  cbn [pop] in E2. destruct (String.eqb_spec "gssnb" x); [discriminate|]. destruct (pop "gssnb" r). discriminate.
Qed.

Theorem mono_expected parse order blur fuel o file metrics v item w : if_vm file = Ok v -> vm_aspect (view_of v) = 1%Z ->
  square_image (if_im file) -> mono_names metrics -> if_item file = Ok item -> expected_weights parse (mo_lumrgb o) item w -> length w = 3%nat ->
  exists u, (u = w \/ (mo_lumrgb o = None /\ u = pvalue_weights /\ nearly u w)) /\
  imgmetric parse order blur fuel o file metrics =
  match normalized order blur [1] o (pixel_rows (view_of v) (if_im file) (fun px => [rgb2rad u px])) with
  | Raise e => Some (Raise e)
  | Ok rays => option_map (fun m => call KMetric (fst m) metrics)
                 (construct fuel (opts_of o) (view_of v) (map (fun r => Ray (p_v r) (p_o r) (nth 0 (p_l r) 0)) rays))
  end.
Proof.
  intros Hv A Hs Hm Hi He L. destruct (mono_choice parse (mo_lumrgb o) item w He) as (c & Ec & Lc & Hu).
  { intros u E. rewrite E in He. inversion He; now subst. }
  exists (match c with Some w => w | None => pvalue_weights end). split; [exact Hu|]. apply mono_weights; auto. now rewrite Hi.
Qed.
Theorem color_expected parse order blur fuel o file metrics v item w : if_vm file = Ok v -> vm_aspect (view_of v) = 1%Z ->
  square_image (if_im file) -> color_names metrics -> if_item file = Ok item -> expected_weights parse (mo_lumrgb o) item w ->
  mo_lumrgb o <> None \/ header_triple parse item w -> length w = 3%nat ->
  imgmetric parse order blur fuel o file metrics =
  match normalized order blur radiance_weights o (pixel_rows (view_of v) (if_im file) (fun px => px)) with
  | Raise e => Some (Raise e)
  | Ok rays => option_map (fun m => call KColor (fst m) metrics)
                 (construct_color fuel (opts_of o) (view_of v) w (map (fun r => (p_v r, p_o r, p_l r)) rays))
  end.
Proof.
  intros Hv A Hs Hm Hi He Hn L. apply color_weights; auto. rewrite Hi. now apply color_choice.
Qed.
Lemma blue_names : color_names ["illum"; "irradiance"; "avglum"]%string.
Proof. split; [repeat (apply Forall_cons; [apply mem_in; vm_compute; reflexivity|]); apply Forall_nil|right; left; reflexivity]. Qed.
Lemma blue_mono : mono_names ["illum"; "avglum"]%string.
Proof. repeat (apply Forall_cons; [apply mem_in; vm_compute; reflexivity|]); apply Forall_nil. Qed.
Lemma blue_default_fails parse order blur fuel : exists item, header_none bit_parse (list_ascii_of_string item) /\
  imgmetric bit_parse order blur fuel (opts1 false None) (blue_file item) ["illum"; "irradiance"]%string = Some (Raise TypeError) /\
  (exists vals, imgmetric parse order blur fuel (opts1 false (Some [0; 0; 1])) (blue_file item) ["illum"; "irradiance"; "avglum"]%string = Some (Ok vals)).
Proof.
  exists ""%string. split; [exact bits_none|]. split; [|apply blue_color; reflexivity].
  apply (color_default bit_parse order blur fuel (opts1 false None) (blue_file "") _ None (list_ascii_of_string "") eq_refl view180 blue_square);
    try reflexivity; [right; now left|exact bits_none].
Qed.
Lemma blue_vals parse order blur fuel : exists vals, forall item : string,
  blue_calc parse order blur fuel (Some [0; 0; 1]) item ["illum"; "irradiance"; "avglum"]%string = Ok (vals item).
Proof.
  unfold blue_calc. exists (fun item => match imgmetric parse order blur fuel (opts1 false (Some [0; 0; 1])) (blue_file item) ["illum"; "irradiance"; "avglum"]%string with Some (Ok v) => v | _ => [] end).
  intros item. destruct (blue_color parse order blur fuel item (Some [0; 0; 1]) eq_refl) as [v ->]. reflexivity.
Qed.
Lemma blue_color_table parse order blur fuel imgs :
  t_exn (metric_cmd (blue_calc parse order blur fuel (Some [0; 0; 1])) zero_scores imgs ["illum"; "gss"; "irradiance"; "avglum"]%string) = None.
Proof. destruct (blue_vals parse order blur fuel) as [vals H]. apply (blue_table parse order blur fuel _ vals); [exact H|discriminate]. Qed.
Lemma blue_mono_calc parse order blur fuel : exists vals, forall item : string,
  blue_calc parse order blur fuel (Some [0; 0; 1]) item ["illum"; "avglum"]%string = Ok (vals item).
Proof.
  assert (forall item, exists v, blue_calc parse order blur fuel (Some [0; 0; 1]) item ["illum"; "avglum"]%string = Ok v) as H.
  { intros item. unfold blue_calc. rewrite (mono_weights _ _ _ _ (opts1 false (Some [0; 0; 1])) (blue_file item) _ None (Some [0; 0; 1]) eq_refl view180 blue_square blue_mono eq_refl).
    2: now intros w [= <-].
    cbn [normalized opts1 mo_peakn]. match goal with |- context [construct fuel ?o ?v ?l] => destruct (small_construct fuel o v l) as (m & om & E) end.
    { rewrite !map_length. apply blue_length. }
    rewrite E. cbn [option_map fst]. eexists. reflexivity. }
  exists (fun item => match blue_calc parse order blur fuel (Some [0; 0; 1]) item ["illum"; "avglum"]%string with Ok v => v | _ => [] end).
  intros item. destruct (H item) as [v ->]. reflexivity.
Qed.
Lemma blue_mono_table parse order blur fuel imgs :
  t_exn (metric_cmd (blue_calc parse order blur fuel (Some [0; 0; 1])) zero_scores imgs ["gssnb"; "illum"; "gss"; "avglum"]%string) = None.
Proof. destruct (blue_mono_calc parse order blur fuel) as [vals H]. apply (blue_table parse order blur fuel _ vals); [exact H|discriminate]. Qed.
(** names asked for twice *)
Lemma gss_unknown parse order blur fuel o (file : string -> imgfile) calc : computed_by parse order blur fuel o file calc ->
  forall n, n = "gss"%string \/ n = "gssnb"%string -> forall img ms, In n ms -> exists e, calc img ms = Raise e.
Proof.
  intros H n Hn img ms Hin. destruct (calc img ms) as [vals|e] eqn:E; [|eauto]. exfalso.
  pose proof (H img ms) as X. rewrite E in X. unfold imgmetric in X. destruct (if_vm (file img)); [|discriminate].
  destruct (choose_lumrgb _ _ _ _) as [c|]; [|discriminate]. destruct (match c with Some w => negb (length w =? 3)%nat | None => false end); [discriminate|].
  assert (~ In n (allmetrics KColor)) as N by (destruct Hn as [->| ->]; intros Y; apply mem_in in Y; vm_compute in Y; discriminate).
  destruct (needs_color ms) eqn:En.
  - destruct (volume _ _ _); [|discriminate]. destruct (if mo_peakn o then _ else _) as [rays|]; [|discriminate]. destruct c as [w|]; [|discriminate].
    rewrite (check_bad KColor ms n Hin N) in X. discriminate.
  - apply needs_false in En. unfold mono_names in En. rewrite Forall_forall in En. apply N. apply metric_color. now apply En.
Qed.
Theorem table_repeated parse order blur fuel o (file : string -> imgfile) calc gss img imgs metrics n : computed_by parse order blur fuel o file calc ->
  n = "gss"%string \/ n = "gssnb"%string -> (1 < count n metrics)%nat ->
  exists e, metric_cmd calc gss (img :: imgs) metrics = Table None [] (Some e).
Proof. intros H Hn Hc. apply (table_twice calc gss img imgs metrics n Hn Hc). now apply (gss_unknown parse order blur fuel o file calc H). Qed.
