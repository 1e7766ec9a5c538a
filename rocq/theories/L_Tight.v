(** Lemmas on the box of a mapper, the ends of the density tables and a blur tolerance above one. *)
From Coq Require Import Sorting.Permutation Sorting.Sorted Lra Lia.
From Verif Require Import Base M_Translate M_Mapper M_Io M_Peak S_Peak L_Base L_Peak L_Peak2 M_Retina L_Retina L_Draw L_Mapper2.
Local Open Scope R_scope.

(** * the box of a mapper *)
Lemma box_frame d sf x0 y0 x1 y1 j z res : x0 < x1 -> y0 < y1 -> (0 <= res)%Z ->
  let (x, y) := m_framesize (mk_mapper d sf ((x0, y0), (x1, y1)) None j z) res in
  (x1 - x0 <= y1 - y0 -> y = res /\ Rabs (IZR x - (x1 - x0) / (y1 - y0) * IZR res) <= 1 / 2) /\
  (y1 - y0 <= x1 - x0 -> x = res /\ Rabs (IZR y - (y1 - y0) / (x1 - x0) * IZR res) <= 1 / 2).
Proof.
  intros Hx Hy Hr. pose proof (framesize_spec (mk_mapper d sf ((x0, y0), (x1, y1)) None j z) res) as H.
  destruct (m_framesize _ res) as [x y]. cbn [m_aspect mk_mapper fst snd] in H.
  assert (0 < (x1 - x0) / (y1 - y0)) as Hp by (apply Rdiv_lt_0_compat; lra).
  destruct (H Hp Hr) as (_ & _ & H1 & H2). clear H. split; intros C.
  - apply H1. apply (Rmult_le_reg_r (y1 - y0)); [lra|]. unfold Rdiv. rewrite Rmult_assoc, Rinv_l; lra.
  - destruct H2 as [E1 E2]. { apply (Rmult_le_reg_r (y1 - y0)); [lra|]. unfold Rdiv. rewrite Rmult_assoc, Rinv_l; lra. }
    split; [exact E1|]. replace ((y1 - y0) / (x1 - x0) * IZR res) with (IZR res / ((x1 - x0) / (y1 - y0))) by (field; lra). exact E2.
Qed.
Lemma box_area d sf x0 y0 x1 y1 a j z res :
  let m := mk_mapper d sf ((x0, y0), (x1, y1)) a j z in
  let '(xres, yres) := m_framesize m res in (0 < xres)%Z -> (0 < yres)%Z ->
  m_pixel2omega m res * (IZR xres * IZR yres) = (x1 - x0) * (y1 - y0).
Proof. exact (pixel_area (mk_mapper d sf ((x0, y0), (x1, y1)) a j z) res). Qed.

(** * the ends of the tables *)
Lemma from_end x l : forall x0 y0, Forall (fun p => fst p <= x) l ->
  np_interp_from x x0 y0 l = match l with [] => y0 | _ => snd (last l (0, 0)) end.
Proof.
  induction l as [|[x1 y1] l IH]; intros x0 y0 H; [reflexivity|]. inversion H as [|? ? H1 H2]; subst. cbn [fst] in H1.
  cbn [np_interp_from]. unfold Rltb. destruct (Rlt_dec x x1); [lra|]. rewrite IH by exact H2. destruct l; reflexivity.
Qed.
Lemma interp_end x l : Forall (fun p => fst p <= x) l -> l <> [] -> np_interp x l = snd (last l (0, 0)).
Proof.
  intros H N. destruct l as [|[x0 y0] l]; [contradiction|]. inversion H as [|? ? H1 H2]; subst. cbn [fst] in H1.
  cbn [np_interp]. unfold Rltb. destruct (Rlt_dec x x0); [lra|]. rewrite from_end by exact H2. destruct l; reflexivity.
Qed.
Lemma temporal_end deg : 88 <= deg -> np_interp deg curcio_temporal = 10.732960056617229.
Proof.
  intros H. rewrite interp_end; [reflexivity| |discriminate]. unfold curcio_temporal.
  repeat (apply Forall_cons; [cbn [fst]; lra|]). apply Forall_nil.
Qed.
Lemma superior_end deg : 88 <= deg -> np_interp deg curcio_superior = 5.3828977637443405.
Proof.
  intros H. rewrite interp_end; [reflexivity| |discriminate]. unfold curcio_superior.
  repeat (apply Forall_cons; [cbn [fst]; lra|]). apply Forall_nil.
Qed.
Lemma nasal_end deg : 88 <= deg -> np_interp deg curcio_nasal = 8.62649206015602.
Proof.
  intros H. rewrite interp_end; [reflexivity| |discriminate]. unfold curcio_nasal.
  repeat (apply Forall_cons; [cbn [fst]; lra|]). apply Forall_nil.
Qed.
Lemma inferior_end deg : 88 <= deg -> np_interp deg curcio_inferior = 0.6778900972815473.
Proof.
  intros H. rewrite interp_end; [reflexivity| |discriminate]. unfold curcio_inferior.
  repeat (apply Forall_cons; [cbn [fst]; lra|]). apply Forall_nil.
Qed.
Lemma far_density deg : 88 <= deg ->
  rgc_density_on_meridian deg 0 = 10.732960056617229 /\ rgc_density_on_meridian deg 1 = 5.3828977637443405 /\
  rgc_density_on_meridian deg 2 = 8.62649206015602 /\ rgc_density_on_meridian deg 3 = 1.
Proof.
  intros H. unfold rgc_density_on_meridian. cbn [curcio].
  rewrite temporal_end, superior_end, nasal_end, inferior_end by exact H. unfold Rmax. repeat split; destruct (Rle_dec _ _); lra.
Qed.

(** * a tolerance above one *)
Lemma map_div1 l : map (fun x => x / 1) l = l.
Proof. rewrite <- (map_id l) at 2. apply map_ext. intros x. field. Qed.
Lemma merge_intolerant blur w p first rest g peak stop :
  g = first :: rest -> a_peakc p <= 1 -> a_blursun p = false -> 1 < a_blurtol p -> 0 < lum w first ->
  Forall (fun r => lum w r <= lum w first) rest ->
  merge_peak blur w p first g = Ok (peak, stop) -> p_l peak = p_l first.
Proof.
  intros Eg Hpc Hbs Hbt Hl0 Hrest. unfold merge_peak. cbv zeta. rewrite Hbs.
  assert (filter (fun r => Rleb (lum w first * a_blurtol p) (lum w r)) g = []) as ->.
  { assert (Forall (fun r => lum w r <= lum w first) g) as Hg by (rewrite Eg; constructor; [lra|exact Hrest]).
    clear Eg. clear rest Hrest. induction Hg as [|r g Hr Hg IH]; [reflexivity|]. cbn [filter].
    replace (Rleb _ (lum w r)) with false; [exact IH|]. symmetry. unfold Rleb. destruct (Rle_dec _ _); [nra|reflexivity]. }
  cbn [map mean above].
  replace (Rgtb (a_peakc p) 1) with false; [|unfold Rgtb, Rltb; destruct (Rlt_dec 1 (a_peakc p)); [lra|reflexivity]].
  match goal with |- context [if (?k =? 0)%nat then ?n else ?k] => set (st := if (k =? 0)%nat then n else k) end.
  destruct (weighted_dir w (firstn st g)) as [v|]; [|discriminate]. cbn [bind]. intros E. injection E as <- _.
  cbn [p_l]. apply map_div1.
Qed.

Lemma normalize_intolerant order blur w p rays : sorts_down order -> (forall a l, 0 < blur a l) -> args_ok p ->
  rays_ok w p rays -> a_peakc p <= 1 -> a_blursun p = false -> 1 < a_blurtol p ->
  (exists i, (i < length rays)%nat /\ is_bright w p (get rays i)) ->
  exists kept peak top, normalize_peak order blur w p false rays = Ok (kept ++ [peak]) /\
    In top rays /\ (forall r, In r rays -> lum w r <= lum w top) /\ p_l peak = p_l top.
Proof.
  intros Hord Hblur Hargs Hrays Hpc Hbs Hbt (i1 & Hi1 & Hb1).
  destruct (find_peak_spec order blur w p rays Hord Hblur Hargs Hrays)
    as [(E & _)|(peak0 & pcs & top0 & rest & Hfp & Htop0 & _)].
  { exfalso. assert (In i1 (bright w p rays)) as C by now apply bright_in. rewrite E in C. contradiction. }
  unfold normalize_peak. pose proof Hfp as Hres. rewrite Hfp. cbn [bind].
  destruct pcs as [|i0 pc']; [contradiction|]. set (pc := i0 :: pc') in *.
  unfold find_peak in Hres. destruct (bright w p rays) as [|b0 bs] eqn:Eb; [discriminate Hres|].
  rewrite <- Eb in Hres. set (key := fun i => lum w (get rays i)) in *.
  destruct (Hord key (bright w p rays)) as [Hperm Hss].
  set (pc0 := order key (bright w p rays)) in *.
  assert (forall i, In i pc0 -> (i < length rays)%nat /\ is_bright w p (get rays i)) as Hin0.
  { intros i Hi. apply bright_in. eapply Permutation_in; eauto. }
  assert (forall i, (i < length rays)%nat -> is_bright w p (get rays i) -> In i pc0) as Hall.
  { intros i Hi Hb. apply Permutation_sym in Hperm. eapply Permutation_in; [exact Hperm|]. now apply bright_in. }
  destruct pc0 as [|top pc1] eqn:Epc0. { exfalso. apply Permutation_nil in Hperm. congruence. }
  cbn [hd] in Hres.
  destruct (Hin0 top (or_introl eq_refl)) as [Htop Htb]. destruct (get_ok w p rays Hrays top Htop) as (Htu & Htl & _).
  set (near := fun i => Rgtb (dot (p_v (get rays top)) (p_v (get rays i))) (cosrad p)) in *.
  assert (near top = true) as Hnt.
  { unfold near. apply Rltb_true. rewrite Htu. now apply cosrad_lt_1. }
  cbn [filter] in Hres. rewrite Hnt in Hres. cbn [map] in Hres.
  destruct (merge_peak blur w p (get rays top) (get rays top :: map (get rays) (filter near pc1))) as [[peak stop]|] eqn:Em;
    [|discriminate Hres].
  cbn [bind fst snd] in Hres. injection Hres as Hpk _. subst peak0.
  inversion Hss as [|? ? _ Hf]; subst. rewrite Forall_forall in Hf.
  destruct Hargs as (Hsc & Hpt & _).
  assert (0 <= a_peakt p / a_scale p) by (apply Rmult_le_pos; [lra|left; now apply Rinv_0_lt_compat]).
  exists (delete_rows pc rays), peak, (get rays top). split; [reflexivity|].
  split; [unfold get; now apply nth_In|]. split.
  - intros r Hr. destruct (In_nth rays r dummy_pix Hr) as (i & Hi & <-). fold (get rays i).
    destruct (Rlt_dec (a_peakt p / a_scale p) (rgb2rad w (p_l (get rays i)))) as [Hy|Hn].
    + destruct (Hall i Hi Hy) as [->|Hi']; [lra|]. now apply Hf.
    + unfold is_bright in Htb. unfold lum. lra.
  - eapply merge_intolerant; try exact Em; try reflexivity; try assumption.
    + unfold is_bright in Htb. unfold lum. lra.
    + rewrite Forall_forall. intros x Hx. apply in_map_iff in Hx. destruct Hx as (i & <- & Hi). apply filter_In in Hi. now apply Hf.
Qed.
