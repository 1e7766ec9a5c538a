(** Lemmas about the direction and luminance of the consolidated ray, and the secondary groups. *)
From Coq Require Import Sorting.Permutation Sorting.Sorted Lra Lia.
From Verif Require Import Base M_Translate M_Mapper M_Io M_Peak S_Peak L_Base L_Angles L_Metric4 L_Data L_Peak.
Local Open Scope R_scope.

(** * Direction *)
Lemma dot_vadd a b c : dot a (vadd b c) = dot a b + dot a c.
Proof. unfold dot, vadd. cbn. ring. Qed.
Lemma dot_vscale_r k a b : dot a (vscale k b) = k * dot a b.
Proof. unfold dot, vscale. cbn. ring. Qed.
Lemma dot_vzero_r a : dot a vzero = 0.
Proof. unfold dot, vzero. cbn. ring. Qed.

Lemma dot_wsum (f : pix -> R) a g :
  dot a (fold_right (fun r x => vadd (vscale (f r) (p_v r)) x) vzero g) = Rsumf (fun r => f r * dot a (p_v r)) g.
Proof.
  induction g as [|r g IH]; cbn [fold_right]; [rewrite dot_vzero_r; reflexivity|].
  now rewrite dot_vadd, dot_vscale_r, IH, Rsumf_cons.
Qed.

Lemma wsum_gt (f h : pix -> R) c g : (0 < length g)%nat -> Forall (fun r => 0 < f r /\ c < h r) g ->
  c * Rsumf f g < Rsumf (fun r => f r * h r) g.
Proof.
  intros Hl H. induction H as [|r g [Hf Hh] Hg IH]; cbn [length] in Hl; [lia|]. rewrite !Rsumf_cons.
  assert (c * f r < f r * h r) by nra.
  destruct g as [|r' g']; [unfold Rsumf; cbn; lra|].
  assert (c * Rsumf f (r' :: g') < Rsumf (fun r => f r * h r) (r' :: g')) by (apply IH; cbn; lia). lra.
Qed.

Lemma direction_spec w g v a c : (0 < length g)%nat -> 0 <= c ->
  Forall (fun r => 0 < p_o r * lum w r /\ dot (p_v r) (p_v r) = 1 /\ c < dot a (p_v r)) g ->
  weighted_dir w g = Ok v -> dot v v = 1 /\ c < dot a v.
Proof.
  intros Hl Hc Hg Hw.
  assert (Forall (fun r => 0 < p_o r * lum w r) g) as Hpos by (eapply Forall_impl; [|exact Hg]; cbv beta; tauto).
  destruct (weighted_dir_ok w g Hpos Hl) as (v' & E & Ev). rewrite Hw in E. injection E as <-.
  set (f := fun r => p_o r * lum w r) in *. set (t := Rsumf f g) in *.
  assert (0 < t) as Ht by now apply pos_sum.
  set (s := fold_right _ _ _) in Ev. set (m := vscale (/ t) s) in Ev.
  assert (c < dot a m) as Ham.
  { unfold m. rewrite dot_vscale_r. unfold s. rewrite (dot_wsum f).
    apply (Rmult_lt_reg_l t); [exact Ht|]. rewrite <- Rmult_assoc, Rinv_r, Rmult_1_l by lra.
    rewrite (Rmult_comm t c). apply wsum_gt; [exact Hl|]. eapply Forall_impl; [|exact Hg]. cbv beta. tauto. }
  assert (m <> vzero) as Hm.
  { intros C. rewrite C, dot_vzero_r in Ham. lra. }
  subst v. split; [now apply norm_dot|].
  destruct (norm_direction m Hm) as [Hn En].
  assert (vnorm m <= 1) as Hn1.
  { assert (dot (norm m) m = vnorm m) as E1.
    { rewrite En at 2. rewrite dot_vscale_r, norm_dot by exact Hm. ring. }
    rewrite <- E1. unfold m at 2. rewrite dot_vscale_r. unfold s. rewrite (dot_wsum f).
    apply (Rmult_le_reg_l t); [exact Ht|]. rewrite <- Rmult_assoc, Rinv_r, Rmult_1_l, Rmult_1_r by lra.
    unfold t, f. apply Rsumf_le. intros r Hr. rewrite Forall_forall in Hg. destruct (Hg r Hr) as (H1 & H2 & _).
    pose proof (dot_unit_bound (norm m) (p_v r) (norm_dot m Hm) H2). nra. }
  assert (dot a m = vnorm m * dot a (norm m)) as E2 by (rewrite En at 1; apply dot_vscale_r).
  rewrite E2 in Ham. nra.
Qed.

Lemma normalize_direction order blur w p rays : sorts_down order -> (forall a l, 0 < blur a l) -> args_ok p ->
  rays_ok w p rays -> 0 <= cos (sqrt (a_peaka p / PI) * a_peakrad p) ->
  (exists i, (i < length rays)%nat /\ is_bright w p (get rays i)) ->
  exists kept peak top, normalize_peak order blur w p false rays = Ok (kept ++ [peak]) /\
    In top rays /\ (forall r, In r rays -> lum w r <= lum w top) /\
    dot (p_v peak) (p_v peak) = 1 /\ within_radius p top peak.
Proof.
  intros Hord Hblur Hargs Hrays Hc (i1 & Hi1 & Hb1). unfold normalize_peak.
  destruct (find_peak_spec order blur w p rays Hord Hblur Hargs Hrays)
    as [(E & _)|(peak & pc & top & rest & -> & Htop & Hnd & Hin & Hmax & Hpre & Hdir & _)].
  { exfalso. assert (In i1 (bright w p rays)) as C by now apply bright_in. rewrite E in C. contradiction. }
  cbn [bind]. destruct pc as [|i0 pc']; [contradiction|]. set (pc := i0 :: pc') in *.
  exists (delete_rows pc rays), peak, (get rays top).
  assert (In top (pc ++ rest)) as Ht by (apply in_or_app; now left). apply Hin in Ht. destruct Ht as (Htl & Htb & _).
  split; [reflexivity|]. split; [unfold get; now apply nth_In|]. split.
  - intros r Hr. destruct (In_nth rays r dummy_pix Hr) as (i & Hi & <-). fold (get rays i).
    destruct (Rlt_dec (a_peakt p / a_scale p) (rgb2rad w (p_l (get rays i)))) as [Hy|Hn].
    + now apply Hmax.
    + unfold is_bright in Htb. unfold lum. lra.
  - apply (direction_spec w (map (get rays) pc)); [rewrite map_length; cbn; lia|exact Hc| |exact Hdir].
    rewrite Forall_forall. intros r Hr. apply in_map_iff in Hr. destruct Hr as (i & <- & Hi).
    assert (In i (pc ++ rest)) as Hi' by (apply in_or_app; now left). apply Hin in Hi'. destruct Hi' as (Hil & Hib & Hiw).
    destruct (get_ok w p rays Hrays i Hil) as (Hu & _ & Hpo). destruct Hargs as (Hsc & Hpt & _).
    assert (0 <= a_peakt p / a_scale p) by (apply Rmult_le_pos; [lra|left; now apply Rinv_0_lt_compat]).
    split; [|split; [exact Hu|exact Hiw]]. apply Rmult_lt_0_compat; [now apply Hpo|]. unfold is_bright in Hib. unfold lum. lra.
Qed.

(** * Luminance *)
Lemma mean_bounds l a b : l <> [] -> Forall (fun x => a <= x <= b) l -> exists m, mean l = Some m /\ a <= m <= b.
Proof.
  intros Hl H. destruct l as [|x l]; [contradiction|]. exists (Rsum (x :: l) / INR (length (x :: l))). split; [reflexivity|].
  set (l' := x :: l) in *.
  assert (0 < INR (length l')) as Hn by (apply lt_0_INR; cbn; lia).
  assert (a * INR (length l') <= Rsum l' <= b * INR (length l')) as [H1 H2].
  { clear Hl Hn. clearbody l'. induction H as [|y k [Hy1 Hy2] Hk IH]; [unfold Rsum; cbn; lra|].
    cbn [length]. rewrite S_INR. change (Rsum (y :: k)) with (y + Rsum k). lra. }
  split; apply (Rmult_le_reg_r (INR (length l'))); trivial; unfold Rdiv; rewrite Rmult_assoc, Rinv_l; lra.
Qed.

Lemma merge_luminance blur w p first rest g peak stop :
  g = first :: rest ->
  a_peakc p = 1 -> a_blursun p = false -> 0 < a_blurtol p <= 1 -> 0 < a_peaka p ->
  p_o first <= a_blurtol p * a_peaka p -> 0 < lum w first -> length (p_l first) = length w ->
  Forall (fun r => lum w r <= lum w first) rest ->
  merge_peak blur w p first g = Ok (peak, stop) -> lum w peak <= lum w first.
Proof.
  intros Eg Hpc Hbs Hbt Hpa Ho Hl0 Hlen Hrest. unfold merge_peak. cbv zeta. rewrite Hbs, Hpc.
  set (near := map (lum w) (filter (fun r => Rleb (lum w first * a_blurtol p) (lum w r)) g)).
  destruct (mean_bounds near (lum w first * a_blurtol p) (lum w first)) as (m & Em & Hm1 & Hm2).
  { unfold near. rewrite Eg. cbn [filter]. replace (Rleb _ (lum w first)) with true; [discriminate|].
    symmetry. apply Rleb_true. nra. }
  { unfold near. rewrite Forall_forall. intros x Hx. apply in_map_iff in Hx. destruct Hx as (r & <- & Hr).
    apply filter_In in Hr. destruct Hr as [Hr Hr2]. rewrite Eg in Hr. apply Rleb_true in Hr2. split; [exact Hr2|].
    destruct Hr as [<-|Hr]; [lra|]. rewrite Forall_forall in Hrest. now apply Hrest. }
  rewrite Em. set (cume := running (lum w) 0 g). set (esun := m * a_peaka p * 1).
  assert (p_o first * lum w first <= esun) as He0.
  { unfold esun. assert (p_o first * lum w first <= a_blurtol p * a_peaka p * lum w first) by nra. nra. }
  destruct (above (last cume 0) (Some esun)) eqn:Eab.
  - set (k := argmax (fun x => above x (Some esun)) cume).
    assert (existsb (fun x => above x (Some esun)) cume = true) as Hex.
    { apply existsb_exists. exists (last cume 0). split; [|exact Eab]. rewrite last_nth. apply nth_In.
      unfold cume. rewrite running_length, Eg. cbn. lia. }
    destruct (find_first_true _ cume 0 0 Hex) as (_ & H2 & H3). fold (argmax (fun x => above x (Some esun)) cume) in H2, H3.
    fold k in H2, H3. rewrite Nat.sub_0_r in H2, H3.
    assert (k <> 0)%nat as Hk.
    { intros C. rewrite C in H2. unfold cume in H2. rewrite Eg in H2. cbn [running nth] in H2. unfold above in H2. apply Rltb_true in H2. lra. }
    replace (k =? 0)%nat with false by (symmetry; now apply Nat.eqb_neq).
    assert (nth (k - 1) cume 0 <= esun) as Hle.
    { specialize (H3 (k - 1)%nat ltac:(lia)). unfold above, Rgtb, Rltb in H3.
      destruct (Rlt_dec esun (nth (k - 1) cume 0)); [discriminate|lra]. }
    destruct (weighted_dir w (firstn k g)) as [v|]; [|discriminate]. cbn [bind]. intros E. injection E as <- _.
    rewrite lum_mk, rgb2rad_div, Hlen.
    assert (k < length g)%nat as Hkl.
    { unfold k. rewrite <- (running_length (lum w) 0 g). apply argmax_bound. rewrite running_length, Eg. cbn. lia. }
    rewrite (map_ext_in _ (fun c => Rsumf (fun r => p_o r * chan c r) (firstn k g) / a_peaka p)).
    + rewrite lum_of_totals. unfold cume in Hle. rewrite running_nth in Hle by lia.
      replace (S (k - 1)) with k in Hle by lia.
      apply (Rmult_le_reg_r (a_peaka p)); [exact Hpa|]. unfold esun in Hle.
      replace (Rsumf (fun r => p_o r * lum w r) (firstn k g) / a_peaka p / 1 * a_peaka p)
        with (Rsumf (fun r => p_o r * lum w r) (firstn k g)) by (field; lra). nra.
    + intros c _. cbv beta. rewrite running_nth by lia. replace (S (k - 1)) with k by lia. now rewrite Rplus_0_l.
  - replace (Rgtb 1 1) with false; [|unfold Rgtb, Rltb; destruct (Rlt_dec 1 1); [lra|reflexivity]].
    match goal with |- context [if (?k =? 0)%nat then ?n else ?k] => set (st := if (k =? 0)%nat then n else k) end.
    destruct (weighted_dir w (firstn st g)) as [v|]; [|discriminate]. cbn [bind]. intros E. injection E as <- _.
    rewrite lum_mk, rgb2rad_div. fold (lum w first). lra.
Qed.

Lemma normalize_luminance order blur w p rays : sorts_down order -> (forall a l, 0 < blur a l) -> args_ok p ->
  rays_ok w p rays -> a_peakc p = 1 -> a_blursun p = false -> 0 < a_blurtol p <= 1 ->
  (forall r, In r rays -> p_o r <= a_blurtol p * a_peaka p) ->
  exists res, normalize_peak order blur w p false rays = Ok res /\
    forall r, In r res -> exists r0, In r0 rays /\ lum w r <= lum w r0.
Proof.
  intros Hord Hblur Hargs Hrays Hpc Hbs Hbt Hsmall.
  destruct (normalize_energy order blur w p rays Hord Hblur Hargs Hrays false) as (res & Hres & _).
  exists res. split; [exact Hres|]. intros r Hr. unfold normalize_peak in Hres.
  unfold find_peak in Hres. destruct (bright w p rays) as [|b0 bs] eqn:Eb.
  { cbn [bind] in Hres. injection Hres as <-. exists r. split; [exact Hr|lra]. }
  rewrite <- Eb in Hres. set (key := fun i => lum w (get rays i)) in *.
  destruct (Hord key (bright w p rays)) as [Hperm Hss].
  set (pc0 := order key (bright w p rays)) in *.
  assert (forall i, In i pc0 -> (i < length rays)%nat /\ is_bright w p (get rays i)) as Hin0.
  { intros i Hi. apply bright_in. eapply Permutation_in; eauto. }
  destruct pc0 as [|top pc1] eqn:Epc0. { exfalso. apply Permutation_nil in Hperm. congruence. }
  cbn [hd] in Hres.
  destruct (Hin0 top (or_introl eq_refl)) as [Htop Htb]. destruct (get_ok w p rays Hrays top Htop) as (Htu & Htl & _).
  set (near := fun i => Rgtb (dot (p_v (get rays top)) (p_v (get rays i))) (cosrad p)) in *.
  assert (near top = true) as Hnt.
  { unfold near. apply Rltb_true. rewrite Htu. now apply cosrad_lt_1. }
  cbn [filter] in Hres. rewrite Hnt in Hres. cbn [map] in Hres.
  destruct (merge_peak blur w p (get rays top) (get rays top :: map (get rays) (filter near pc1))) as [[peak stop]|] eqn:Em;
    [|discriminate Hres].
  assert (lum w peak <= lum w (get rays top)) as Hpk.
  { destruct Hargs as (Hsc & Hpt & Hpa & _). eapply merge_luminance; try exact Em; try reflexivity; try assumption.
    - apply Hsmall. unfold get. now apply nth_In.
    - assert (0 <= a_peakt p / a_scale p) by (apply Rmult_le_pos; [lra|left; now apply Rinv_0_lt_compat]).
      unfold is_bright in Htb. unfold lum. lra.
    - rewrite Forall_forall. intros x Hx. apply in_map_iff in Hx. destruct Hx as (i & <- & Hi). apply filter_In in Hi.
      inversion Hss as [|? ? _ Hf]; subst. rewrite Forall_forall in Hf. now apply Hf. }
  cbn [bind fst snd] in Hres.
  assert (In r rays \/ r = peak) as [Hrr|Hrr].
  { destruct (firstn stop (top :: filter near pc1)) as [|i0 pc']; injection Hres as <-; [now left|].
    apply in_app_or in Hr. destruct Hr as [Hr|[<-|[]]]; [left|now right].
    unfold delete_rows in Hr. apply in_map_iff in Hr. destruct Hr as (i & <- & Hi). apply filter_In in Hi.
    destruct Hi as [Hi _]. apply in_seq in Hi. unfold get. apply nth_In. lia. }
  - exists r. split; [exact Hrr|lra].
  - subst r. exists (get rays top). split; [unfold get; now apply nth_In|exact Hpk].
Qed.

(** * Secondary groups *)
(** what the groups must satisfy *)
Lemma filter_partition_perm {A} (f : A -> bool) l : Permutation l (filter f l ++ filter (fun x => negb (f x)) l).
Proof.
  induction l as [|a l IH]; [constructor|]. cbn [filter]. destruct (f a); cbn [negb].
  - now apply perm_skip.
  - apply Permutation_cons_app. exact IH.
Qed.

Lemma filter_all {A} (f : A -> bool) l : Forall (fun x => f x = true) l -> filter f l = l.
Proof. induction 1 as [|a l Ha Hl IH]; [reflexivity|]. cbn [filter]. now rewrite Ha, IH. Qed.

Section Strays.
Variables (sortdesc : list pix -> list pix) (w : list R) (peakt cosr : R).
Hypothesis Hsort : sorts_rays_down w sortdesc.
Hypothesis Hcos : cosr < 1.

Lemma gather_spec fuel : forall pvol, (length pvol < fuel)%nat ->
  Forall (fun r => dot (p_v r) (p_v r) = 1 /\ length (p_l r) = length w /\ 0 < p_o r) pvol ->
  exists groups left strays, gather_strays fuel sortdesc w peakt cosr pvol = Ok strays /\
    Permutation (filter (fun r => Rgtb (lum w r) peakt) pvol) (concat groups ++ left) /\ (length left <= 3)%nat /\
    Forall2 (fun g s => describes w cosr g s) groups (map (fun s => Stray (s_v s) (s_o s) (tl (s_l s))) strays).
Proof.
  induction fuel as [|fuel IH]; intros pvol Hlen Hok; [lia|]. cbn [gather_strays]. cbv zeta.
  set (pc := filter (fun r => Rgtb (lum w r) peakt) pvol).
  destruct (3 <? length pc)%nat eqn:E3.
  2:{ exists [], pc, []. split; [reflexivity|]. split; [reflexivity|]. split; [apply Nat.ltb_ge in E3; lia|constructor]. }
  apply Nat.ltb_lt in E3. destruct (Hsort pc) as [Hperm Hss]. set (pvols := sortdesc pc) in *.
  assert (forall r, In r pvols -> In r pvol /\ Rgtb (lum w r) peakt = true) as Hsub.
  { intros r Hr. apply (Permutation_in _ Hperm) in Hr. unfold pc in Hr. apply filter_In in Hr. exact Hr. }
  assert (Forall (fun r => dot (p_v r) (p_v r) = 1 /\ length (p_l r) = length w /\ 0 < p_o r) pvols) as Hok2.
  { rewrite Forall_forall in *. intros r Hr. apply Hok. now apply Hsub. }
  pose proof (Permutation_length Hperm) as Hpl.
  assert (exists top more, pvols = top :: more) as (top & more & Epv).
  { destruct pvols as [|top more]; [cbn in Hpl; lia|]. now exists top, more. }
  replace (hd dummy_pix pvols) with top by (now rewrite Epv).
  set (dm := fun r => Rgtb (dot (p_v top) (p_v r)) cosr).
  assert (dm top = true) as Hdt.
  { unfold dm. apply Rltb_true. rewrite Epv in Hok2. inversion Hok2 as [|? ? [Hu _] _]; subst. rewrite Hu. exact Hcos. }
  assert (length pc <= length pvol)%nat as Hpcl by (apply filter_length_bound).
  set (g := filter dm pvols).
  assert (exists gm, g = top :: gm) as [gm Eg].
  { unfold g. rewrite Epv. cbn [filter]. rewrite Hdt. eexists; reflexivity. }
  assert (length (filter (fun r => negb (dm r)) pvols) < fuel)%nat as Hl2.
  { pose proof (Permutation_length (filter_partition_perm dm pvols)) as HP. rewrite app_length in HP. fold g in HP.
    rewrite Eg in HP. cbn [length] in HP. lia. }
  assert (forall r, In r g -> dot (p_v r) (p_v r) = 1 /\ length (p_l r) = length w /\ 0 < p_o r) as Hgok.
  { intros r Hr. unfold g in Hr. apply filter_In in Hr. rewrite Forall_forall in Hok2. now apply Hok2. }
  destruct (IH _ Hl2) as (groups & left & strays & Er & Hp & Hleft & HF).
  { rewrite Forall_forall in *. intros r Hr. apply filter_In in Hr. now apply Hok2. }
  assert (0 < Rsumf p_o g) as Hto.
  { apply pos_sum; [|rewrite Eg; cbn; lia]. rewrite Forall_forall. intros r Hr. now apply Hgok. }
  unfold group_of. fold (Rsumf p_o g). unfold Reqb. destruct (Req_EM_T (Rsumf p_o g) 0) as [C|_]; [lra|]. cbn [bind].
  change (fun r => negb (Rgtb (dot (p_v top) (p_v r)) cosr)) with (fun r => negb (dm r)).
  rewrite Er. cbn [bind]. eexists (g :: groups), left, _. split; [reflexivity|]. split; [|split; [exact Hleft|]].
  - transitivity pvols; [now apply Permutation_sym|].
    transitivity (g ++ filter (fun r => negb (dm r)) pvols); [apply filter_partition_perm|].
    cbn [concat]. rewrite <- app_assoc. apply Permutation_app_head. rewrite <- Hp.
    rewrite (filter_all (fun r => Rgtb (lum w r) peakt) (filter (fun r => negb (dm r)) pvols)); [reflexivity|]. rewrite Forall_forall. intros r Hr. apply filter_In in Hr. now apply Hsub.
  - cbn [map]. constructor; [|exact HF]. unfold describes. cbn [s_v s_o s_l tl].
    split; [reflexivity|]. split; [reflexivity|]. split; [|].
    + intros c Hc. assert (length (p_l (hd dummy_pix g)) = length w) as HL.
      { rewrite Eg. cbn [hd]. apply Hgok. rewrite Eg. now left. }
      rewrite HL, nth_map_seq by exact Hc. unfold channel_energy, chan. fold (Rsumf p_o g). field. lra.
    + exists top. split; [rewrite Eg; now left|]. intros r Hr. split.
      * unfold g in Hr. apply filter_In in Hr. destruct Hr as [Hr _]. rewrite Epv in Hr, Hss.
        destruct Hr as [<-|Hr]; [apply Rle_refl|]. inversion Hss as [|? ? _ Hf]; subst. rewrite Forall_forall in Hf. now apply Hf.
      * unfold g in Hr. apply filter_In in Hr. destruct Hr as [_ Hr]. now apply Rltb_true in Hr.
Qed.
End Strays.
