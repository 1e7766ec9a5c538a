(** Normalising the peak again. *)
From Coq Require Import Lra Lia Sorting.Permutation Sorting.Sorted.
From Verif Require Import Base L_Base BaseX M_Translate S_Translate M_Io M_Peak S_Peak L_Angles L_Trig L_Peak L_Peak2 L_Peak3.
Import ListNotations.
Local Open Scope R_scope.

Lemma merge_area blur w p first rest g peak stop : g = first :: rest ->
  a_peakc p = 1 -> a_blursun p = false -> a_blurtol p <= 1 -> 0 < a_peaka p -> 0 < lum w first ->
  Forall (fun r => lum w r <= lum w first) rest -> Forall (fun r => 0 < p_o r * lum w r) g ->
  merge_peak blur w p first g = Ok (peak, stop) -> 0 < p_o peak <= a_peaka p.
Proof.
  intros Eg Hpc Hbs Hbt Hpa Hl0 Hrest Hpos. unfold merge_peak. cbv zeta. rewrite Hbs, Hpc.
  set (near := map (lum w) (filter (fun r => Rleb (lum w first * a_blurtol p) (lum w r)) g)).
  destruct (mean_bounds near (lum w first * a_blurtol p) (lum w first)) as (m & Em & Hm1 & Hm2).
  { unfold near. rewrite Eg. cbn [filter]. replace (Rleb _ (lum w first)) with true; [discriminate|].
    symmetry. apply Rleb_true. nra. }
  { unfold near. rewrite Forall_forall. intros x Hx. apply in_map_iff in Hx. destruct Hx as (r & <- & Hr).
    apply filter_In in Hr. destruct Hr as [Hr Hr2]. rewrite Eg in Hr. apply Rleb_true in Hr2. split; [exact Hr2|].
    destruct Hr as [<-|Hr]; [lra|]. rewrite Forall_forall in Hrest. now apply Hrest. }
  rewrite Em. set (cume := running (lum w) 0 g). set (esun := m * a_peaka p * 1).
  destruct (above (last cume 0) (Some esun)) eqn:Eab.
  - set (st := if (_ =? 0)%nat then _ else _). destruct (weighted_dir w (firstn st g)) as [v|]; [|discriminate]. cbn [bind]. intros E. injection E as <- _. cbn [p_o]. lra.
  - replace (Rgtb 1 1) with false; [|unfold Rgtb, Rltb; destruct (Rlt_dec 1 1); [lra|reflexivity]].
    set (k := argmax _ g). set (st := if (k =? 0)%nat then length g else k).
    destruct (weighted_dir w (firstn st g)) as [v|]; [|discriminate]. cbn [bind]. intros E. injection E as <- _. cbn [p_o].
    assert (Hg : (0 < length g)%nat) by (rewrite Eg; cbn; lia).
    assert (Hst : (0 < st <= length g)%nat).
    { unfold st. pose proof (argmax_bound (fun r => Rltb (lum w r) (lum w first / a_peakr p)) g Hg) as A. fold k in A. destruct (k =? 0)%nat eqn:Z; [lia|]. apply Nat.eqb_neq in Z. lia. }
    assert (C : nth (st - 1) cume 0 = Rsumf (fun r => p_o r * lum w r) (firstn st g)) by (unfold cume; rewrite running_nth by lia; replace (S (st - 1)) with st by lia; ring).
    assert (T : last cume 0 = Rsumf (fun r => p_o r * lum w r) g).
    { rewrite last_nth. unfold cume. rewrite running_length, running_nth by lia. replace (S (length g - 1)) with (length g) by lia. rewrite firstn_all. ring. }
    assert (S : Rsumf (fun r => p_o r * lum w r) g = Rsumf (fun r => p_o r * lum w r) (firstn st g) + Rsumf (fun r => p_o r * lum w r) (skipn st g)) by (rewrite <- Rsumf_app, firstn_skipn; reflexivity).
    assert (N : 0 <= Rsumf (fun r => p_o r * lum w r) (skipn st g)).
    { apply Rsumf_nonneg. intros r I. rewrite Forall_forall in Hpos. left. apply Hpos. rewrite <- (firstn_skipn st g). apply in_or_app. now right. }
    assert (P : 0 < Rsumf (fun r => p_o r * lum w r) (firstn st g)) by (apply pos_sum; [now apply Forall_firstn|rewrite firstn_length; lia]).
    assert (U : last cume 0 <= esun) by (unfold above, Rgtb, Rltb in Eab; destruct (Rlt_dec esun (last cume 0)); [discriminate|lra]).
    rewrite C. unfold esun in U. set (e := Rsumf _ (firstn st g)) in *. clearbody e. rewrite T, S in U.
    assert (0 < e / lum w first) by (apply Rdiv_lt_0_compat; lra).
    assert (e / lum w first <= a_peaka p) by (apply Rmult_le_reg_r with (lum w first); [lra|]; unfold Rdiv; rewrite Rmult_assoc, Rinv_l by lra; nra). lra.
Qed.
Lemma normalize_area order blur w p rays r : sorts_down order -> args_ok p -> rays_ok w p rays -> a_peakc p = 1 -> a_blursun p = false -> a_blurtol p <= 1 ->
  normalize_peak order blur w p false rays = Ok r ->
  (forall i, (i < length rays)%nat -> ~ is_bright w p (get rays i)) \/ exists kept peak, r = kept ++ [peak] /\ 0 < p_o peak <= a_peaka p.
Proof.
  intros Hord Hargs Hrays Hpc Hbs Hbt Hres. unfold normalize_peak, find_peak in Hres. destruct (bright w p rays) as [|b0 bs] eqn:Eb.
  { left. intros i Hi B. assert (In i (bright w p rays)) as C by now apply bright_in. rewrite Eb in C. contradiction. }
  right. rewrite <- Eb in Hres. set (key := fun i => lum w (get rays i)) in *.
  destruct (Hord key (bright w p rays)) as [Hperm Hss].
  set (pc0 := order key (bright w p rays)) in *.
  assert (forall i, In i pc0 -> (i < length rays)%nat /\ is_bright w p (get rays i)) as Hin0.
  { intros i Hi. apply bright_in. eapply Permutation_in; eauto. }
  destruct pc0 as [|top pc1] eqn:Epc0. { exfalso. apply Permutation_nil in Hperm. congruence. }
  cbn [hd] in Hres.
  destruct (Hin0 top (or_introl eq_refl)) as [Htop Htb]. destruct (get_ok w p rays Hrays top Htop) as (Htu & Htl & _).
  set (near := fun i => Rgtb (dot (p_v (get rays top)) (p_v (get rays i))) (cosrad p)) in *.
  assert (near top = true) as Hnt.
  { unfold near. apply Rltb_true. rewrite Htu. now apply cosrad_lt_1. }
  cbn [filter] in Hres. rewrite Hnt in Hres. cbn [map] in Hres.
  destruct (merge_peak blur w p (get rays top) (get rays top :: map (get rays) (filter near pc1))) as [[peak stop]|] eqn:Em;
    [|discriminate Hres].
  assert (Hlpos : forall i, is_bright w p (get rays i) -> 0 < lum w (get rays i)).
  { destruct Hargs as (Hsc & Hpt & _). intros i Hi. assert (0 <= a_peakt p / a_scale p) by (apply Rmult_le_pos; [lra|left; now apply Rinv_0_lt_compat]).
    unfold is_bright in Hi. unfold lum. lra. }
  assert (A : 0 < p_o peak <= a_peaka p).
  { eapply merge_area; try exact Em; try reflexivity; try assumption; [apply Hargs|now apply Hlpos| |].
    - rewrite Forall_forall. intros x Hx. apply in_map_iff in Hx. destruct Hx as (i & <- & Hi). apply filter_In in Hi.
      inversion Hss as [|? ? _ Hf]; subst. rewrite Forall_forall in Hf. now apply Hf.
    - rewrite Forall_forall. change (get rays top :: map (get rays) (filter near pc1)) with (map (get rays) (top :: filter near pc1)). intros x Hx.
      apply in_map_iff in Hx. destruct Hx as (i & <- & Hi). assert (Hi' : In i (top :: pc1)) by (destruct Hi as [<-|Hi]; [now left|right; apply filter_In in Hi; tauto]).
      destruct (Hin0 i Hi') as [Hil Hib]. destruct (get_ok w p rays Hrays i Hil) as (_ & _ & Hpo). apply Rmult_lt_0_compat; auto. }
  cbn [bind fst snd] in Hres.
  assert (S : (0 < stop)%nat).
  { clear - Em. unfold merge_peak in Em. set (g := get rays top :: _) in *. assert (Hg : (0 < length g)%nat) by (unfold g; cbn; lia). clearbody g.
    assert (Z : forall k, (0 < (if (k =? 0)%nat then length g else k))%nat) by (intros k; destruct (k =? 0)%nat eqn:Z; [exact Hg|apply Nat.eqb_neq in Z; lia]).
    cbv zeta in Em. destruct (above _ _); [|destruct (Rgtb _ 1)]; cbv iota beta in Em; destruct (weighted_dir _ _); cbn [bind] in Em; try discriminate; injection Em as _ <-; apply Z. }
  destruct stop as [|n]; [lia|]. cbn [firstn] in Hres. injection Hres as <-. eexists _, peak. split; [reflexivity|exact A].
Qed.
Lemma get_last kept (q : pix) : get (kept ++ [q]) (length kept) = q.
Proof. unfold get. now rewrite nth_middle. Qed.
Lemma get_kept kept (q : pix) i : (i < length kept)%nat -> get (kept ++ [q]) i = get kept i.
Proof. intros H. unfold get. now apply app_nth1. Qed.
Lemma filter_none {A} (f : A -> bool) l : (forall x, In x l -> f x = false) -> filter f l = [].
Proof. intros H. induction l as [|x l IH]; [reflexivity|]. cbn [filter]. rewrite H by now left. apply IH. intros y I. apply H. now right. Qed.
Lemma bright_last w p kept q : (forall r, In r kept -> ~ is_bright w p r) -> is_bright w p q -> bright w p (kept ++ [q]) = [length kept].
Proof.
  intros H B. unfold bright. rewrite app_length. cbn [length]. rewrite Nat.add_1_r, seq_S, filter_app. cbn [filter Nat.add]. rewrite get_last.
  replace (Rgtb (lum w q) (a_peakt p / a_scale p)) with true by (symmetry; apply Rltb_true; exact B).
  rewrite filter_none; [reflexivity|]. intros i I. apply in_seq in I. rewrite get_kept by lia. unfold Rgtb, Rltb. destruct (Rlt_dec _ _) as [Y|]; [|reflexivity].
  exfalso. apply (H (get kept i)); [unfold get; apply nth_In; lia|exact Y].
Qed.
Lemma sorted_single order key n : sorts_down order -> order key [n] = [n].
Proof. intros S. destruct (S key [n]) as [P _]. apply Permutation_sym in P. now apply Permutation_length_1_inv in P. Qed.
Lemma merge_single blur w p q : args_ok p -> a_peakc p = 1 -> a_blursun p = false -> a_blurtol p <= 1 -> is_bright w p q -> dot (p_v q) (p_v q) = 1 -> 0 < p_o q <= a_peaka p ->
  merge_peak blur w p q [q] = Ok (q, 1%nat).
Proof.
  intros A Hpc Hbs Hbt B U O. assert (L : 0 < lum w q).
  { destruct A as (Hsc & Hpt & _). assert (0 <= a_peakt p / a_scale p) by (apply Rmult_le_pos; [lra|left; now apply Rinv_0_lt_compat]). unfold is_bright in B. unfold lum. lra. }
  unfold merge_peak. rewrite Hpc, Hbs. cbn [filter]. assert (Rleb (lum w q * a_blurtol p) (lum w q) = true) as -> by (apply Rleb_true; nra).
  cbn [map running last length]. unfold mean. cbn [length Rsum fold_right INR]. unfold above.
  assert (Rgtb (0 + p_o q * lum w q) ((lum w q + 0) / 1 * a_peaka p * 1) = false) as -> by (apply Rltb_false; unfold Rdiv; rewrite Rinv_1; nra).
  assert (Rgtb 1 1 = false) as -> by (apply Rltb_false; lra).
  replace (if (argmax (fun r => Rltb (lum w r) (lum w q / a_peakr p)) [q] =? 0)%nat then 1%nat else argmax (fun r => Rltb (lum w r) (lum w q / a_peakr p)) [q]) with 1%nat
    by (unfold argmax; cbn [find_first]; destruct (Rltb _ _); reflexivity).
  cbn [firstn Nat.sub nth]. unfold weighted_dir. cbn [map Rsum fold_right]. set (t := p_o q * lum w q + 0).
  assert (T : 0 < t) by (unfold t; nra). assert (Reqb t 0 = false) as -> by (apply Reqb_false; lra).
  assert (V : vscale (/ t) (vadd (vscale (p_o q * lum w q) (p_v q)) vzero) = p_v q).
  { destruct (p_v q) as [x y z]. unfold vscale, vadd, vzero. cbn [vx vy vz]. unfold t in *. rewrite Rplus_0_r in *. f_equal; rewrite Rplus_0_r, <- Rmult_assoc, Rinv_l by lra; ring. }
  rewrite V, (norm_unit_id _ U). cbn [bind]. do 2 f_equal. replace ((0 + p_o q * lum w q) / lum w q * 1) with (p_o q) by (field; lra).
  rewrite (map_ext (fun x => x / 1) (fun x => x)) by (intros; field). rewrite map_id. destruct q; reflexivity.
Qed.
Lemma classic_bright w p rays : (exists i, (i < length rays)%nat /\ is_bright w p (get rays i)) \/ ~ (exists i, (i < length rays)%nat /\ is_bright w p (get rays i)).
Proof.
  destruct (bright w p rays) as [|i l] eqn:E.
  - right. intros (i & I). apply bright_in in I. rewrite E in I. contradiction.
  - left. exists i. apply bright_in. rewrite E. now left.
Qed.
Lemma normalize_again order blur w p rays r : sorts_down order -> (forall a l, 0 < blur a l) -> args_ok p -> rays_ok w p rays ->
  0 <= cos (sqrt (a_peaka p / PI) * a_peakrad p) -> a_peakc p = 1 -> a_blursun p = false -> a_blurtol p <= 1 ->
  normalize_peak order blur w p false rays = Ok r -> (forall q, In q (removelast r) -> ~ is_bright w p q) ->
  normalize_peak order blur w p false r = Ok r.
Proof.
  intros O Hb A H C Hpc Hbs Hbt E N. destruct (normalize_area order blur w p rays r O A H Hpc Hbs Hbt E) as [D|(kept & q & -> & Q)].
  { rewrite (normalize_dark order blur w p rays false D) in E. injection E as <-. now apply normalize_dark. }
  rewrite removelast_last in N. destruct (Rlt_dec (a_peakt p / a_scale p) (rgb2rad w (p_l q))) as [B|B].
  2:{ apply normalize_dark. intros i Hi. rewrite app_length in Hi. cbn [length] in Hi. destruct (Nat.eq_dec i (length kept)) as [->|Z].
      - fold (get (kept ++ [q]) (length kept)). rewrite get_last. exact B.
      - fold (get (kept ++ [q]) i). rewrite get_kept by lia. apply N. unfold get. apply nth_In. lia. }
  assert (U : dot (p_v q) (p_v q) = 1).
  { destruct (classic_bright w p rays) as [X|X].
    - destruct (normalize_direction order blur w p rays O Hb A H C X) as (k' & q' & top & E' & _ & _ & U & _). rewrite E in E'. injection E' as E'. apply app_inj_tail in E'. now destruct E' as [_ ->].
    - exfalso. assert (D : forall i, (i < length rays)%nat -> ~ is_bright w p (get rays i)) by (intros i I J; apply X; now exists i).
      rewrite (normalize_dark order blur w p rays false D) in E. injection E as E. apply (D (length kept)); rewrite E; [rewrite app_length; cbn; lia|]. rewrite get_last. exact B. }
  unfold normalize_peak, find_peak. rewrite (bright_last w p kept q N B), (sorted_single order _ _ O). cbn [hd filter]. rewrite get_last, U.
  assert (Rgtb 1 (cosrad p) = true) as -> by (apply Rltb_true; now apply cosrad_lt_1). cbn [map]. rewrite get_last.
  rewrite (merge_single blur w p q A Hpc Hbs Hbt B U Q). cbn [bind fst snd firstn]. f_equal. f_equal.
  unfold delete_rows, in_pc. rewrite app_length. cbn [length]. rewrite Nat.add_1_r, seq_S, filter_app, map_app. cbn [filter Nat.add existsb]. rewrite Nat.eqb_refl. cbn [orb negb map]. rewrite app_nil_r.
  rewrite filter_all by (rewrite Forall_forall; intros i I; apply in_seq in I; rewrite orb_false_r; apply Bool.negb_true_iff, Nat.eqb_neq; lia).
  transitivity (map (get kept) (seq 0 (length kept))); [|apply rays_as_seq]. apply map_ext_in. intros i I. apply in_seq in I. apply get_kept. lia.
Qed.

(** normalising again can change the rays once more *)
Lemma lum_1 v o x : lum [1] (Pix v o [x]) = x.
Proof. unfold lum, rgb2rad, Rsum. cbn. lra. Qed.
Lemma two_result order blur o0 o1 a b e : sorts_down order -> 0 < b < a -> 0 < o0 -> 0 < o1 ->
  (a * 0.75 <= b /\ e = (a + b) / 2 * PI \/ b < a * 0.75 /\ e = a * PI) -> o0 * a <= e < o0 * a + o1 * b ->
  normalize_peak order blur [1] args1 false [Pix up o0 [a]; Pix up o1 [b]] = Ok [Pix up o1 [b]; Pix up PI [o0 * a / PI]].
Proof.
  intros Hord Hab H0 H1 He Hc. pose proof PI_RGT_0 as HP0. unfold normalize_peak, find_peak.
  assert (bright [1] args1 [Pix up o0 [a]; Pix up o1 [b]] = [0;1]%nat) as Eb.
  { unfold bright, get. cbn [length seq filter nth]. rewrite !lum_1. unfold args1. cbn [a_peakt a_scale]. cmp; reflexivity. }
  rewrite Eb. rewrite (order_two' order) by (try exact Hord; unfold get; cbn [nth]; rewrite !lum_1; lra).
  cbn [hd filter]. unfold get. cbn [nth p_v map]. rewrite dot_up.
  replace (Rgtb 1 (cosrad args1)) with true by (symmetry; apply Rltb_true, cosrad1).
  cbn [map nth]. unfold merge_peak. cbv zeta. cbn [filter map]. rewrite !lum_1.
  unfold args1. cbn [a_blurtol a_peaka a_peakc a_peakr a_blursun].
  replace (Rleb (a * 0.75) a) with true by (symmetry; apply Rleb_true; lra).
  assert (M : match mean (map (lum [1]) (Pix up o0 [a] :: (if Rleb (a * 0.75) b then [Pix up o1 [b]] else []))) with Some m => Some (m * PI * 1) | None => None end = Some e).
  { destruct He as [[A ->]|[A ->]].
    - replace (Rleb (a * 0.75) b) with true by (symmetry; apply Rleb_true; lra). cbn [map]. rewrite !lum_1. unfold mean. cbn [length]. f_equal. unfold Rsum. cbn. field.
    - replace (Rleb (a * 0.75) b) with false by (unfold Rleb; destruct (Rle_dec _ _); [lra|reflexivity]). cbn [map]. rewrite !lum_1. unfold mean. cbn [length]. f_equal. unfold Rsum. cbn. field. }
  rewrite M. cbn [running last p_o length]. rewrite !lum_1. unfold above at 1.
  replace (Rgtb (0 + o0 * a + o1 * b) e) with true by (symmetry; apply Rltb_true; lra).
  unfold argmax. cbn [find_first]. unfold above.
  replace (Rgtb (0 + o0 * a) e) with false by (symmetry; apply Rltb_false; lra).
  replace (Rgtb (0 + o0 * a + o1 * b) e) with true by (symmetry; apply Rltb_true; lra).
  cbn [Nat.eqb firstn Nat.sub nth]. unfold weighted_dir. cbn [map p_o]. rewrite !lum_1. unfold Rsum. cbn [fold_right p_o p_v]. rewrite !lum_1.
  assert (T : 0 < o0 * a) by nra. assert (Reqb (o0 * a + 0) 0 = false) as -> by (apply Reqb_false; lra).
  assert (norm (vscale (/ (o0 * a + 0)) (vadd (vscale (o0 * a) up) vzero)) = up) as ->.
  { rewrite <- (norm_unit_id up dot_up) at 2. f_equal. unfold vscale, vadd, vzero, up. cbn [vx vy vz]. f_equal; field; lra. }
  cbn [bind fst snd firstn]. unfold delete_rows, in_pc. cbn [length seq filter existsb Nat.eqb orb negb map app]. unfold get, chan. cbn [nth p_l map].
  cbn [length seq map]. replace (PI * 1) with PI by ring. replace ((0 + o0 * a) / PI / 1) with (o0 * a / PI) by (field; lra). reflexivity.
Qed.
Lemma again_differs order blur : sorts_down order -> exists p rays r r' q, args_ok p /\ rays_ok [1] p rays /\ a_peakc p = 1 /\ a_blursun p = false /\ a_blurtol p <= 1 /\
  normalize_peak order blur [1] p false rays = Ok r /\ normalize_peak order blur [1] p false r = Ok r' /\
  In q r /\ forall q', In q' r' -> rgb2rad [1] (p_l q') < rgb2rad [1] (p_l q).
Proof.
  intros O. pose proof L_Trig.PI_hi as P4. assert (P3 : 3.1 < PI) by (pose proof L_Trig.PI_lo; lra).
  assert (I : / PI < / 3.1) by (apply Rinv_lt_contravar; nra). assert (I0 : 0 < / PI) by (apply Rinv_0_lt_compat; lra).
  exists args1, [Pix up 1 [10]; Pix up 2.5 [8]], [Pix up 2.5 [8]; Pix up PI [1 * 10 / PI]], [Pix up PI [1 * 10 / PI]; Pix up PI [2.5 * 8 / PI]], (Pix up 2.5 [8]).
  split; [apply args1_ok|]. split; [repeat apply Forall_cons; try apply Forall_nil; cbn [p_v p_o p_l]; repeat split; try apply dot_up; lra|].
  split; [reflexivity|]. split; [reflexivity|]. split; [cbn; lra|]. 
  split; [apply (two_result order blur 1 2.5 10 8 ((10 + 8) / 2 * PI) O); try lra; left; split; lra|].
  split; [apply (two_result order blur 2.5 PI 8 (1 * 10 / PI) (8 * PI) O); unfold Rdiv; try lra; try (right; split; lra); replace (PI * (1 * 10 * / PI)) with 10 by (field; lra); lra|].
  split; [now left|]. intros q' [<-|[<-|[]]]; change (lum [1] (Pix up PI [1 * 10 / PI]) < lum [1] (Pix up 2.5 [8])) || change (lum [1] (Pix up PI [2.5 * 8 / PI]) < lum [1] (Pix up 2.5 [8])); rewrite !lum_1; unfold Rdiv; lra.
Qed.
Lemma again_example : args_ok args1 /\ rays_ok vl3 args1 red_green /\ 0 <= cos (sqrt (a_peaka args1 / PI) * a_peakrad args1) /\ a_peakc args1 = 1 /\ a_blursun args1 = false /\ a_blurtol args1 <= 1 /\
  forall order blur, sorts_down order -> exists q, normalize_peak order blur vl3 args1 false red_green = Ok [q].
Proof.
  split; [apply args1_ok|]. split; [apply red_green_ok|]. split.
  - unfold args1. cbn [a_peaka a_peakrad]. rewrite rad1. pose proof PI2_1. apply cos_ge_0; lra.
  - split; [reflexivity|]. split; [reflexivity|]. split; [cbn; lra|]. intros order blur O. destruct (red_green_result order blur O) as (q & Q & _). now exists q.
Qed.
