(** Lemmas about the receptive field bins. *)
From Coq Require Import Lra Lia Psatz Sorting.Sorted.
From Verif Require Import Base L_Base M_Mapper M_Io M_Gss S_Gss L_Gss.
Local Open Scope R_scope.

Fixpoint bins_from (lb : R) (l : list R) : list (R * (R * R)) :=
  match l with
  | [] => []
  | s :: l' => match l' with
               | [] => [(s, (lb, 1))]
               | s' :: _ => (s, (lb, (s' + s) / 2)) :: bins_from ((s' + s) / 2) l'
               end
  end.
Lemma bins_eq l : forall lb, combine l (combine (lb :: mids l) (mids l ++ [1])) = bins_from lb l.
Proof.
  induction l as [|s l IH]; intros lb; [reflexivity|]. destruct l as [|s' l]; [reflexivity|].
  change (mids (s :: s' :: l)) with ((s' + s) / 2 :: mids (s' :: l)). cbn [combine app].
  change (bins_from lb (s :: s' :: l)) with ((s, (lb, (s' + s) / 2)) :: bins_from ((s' + s) / 2) (s' :: l)). f_equal. apply IH.
Qed.

Definition inc (e : R) (b : R * (R * R)) : bool := included e (fst (snd b)) (snd (snd b)).
Lemma inc_true e b : inc e b = true <-> fst (snd b) <= e < snd (snd b).
Proof.
  unfold inc, included, Rleb, Rltb. destruct (Rle_dec _ _), (Rlt_dec _ _); cbn [andb]; split; intros; try discriminate; try lra; auto.
Qed.
Lemma inc_false e b : inc e b = false <-> ~ (fst (snd b) <= e < snd (snd b)).
Proof. rewrite <- inc_true. destruct (inc e b); split; intros; try discriminate; auto. now contradiction H. Qed.

Lemma bins_below e l : forall lb, StronglySorted Rlt l -> e < lb -> match l with s :: _ => lb <= s | [] => True end ->
  Forall (fun b => inc e b = false) (bins_from lb l).
Proof.
  induction l as [|s l IH]; intros lb Hs He Hl; [constructor|]. inversion Hs as [|? ? Hs' Hf]; subst.
  destruct l as [|s' l].
  - repeat constructor. apply inc_false. cbn [fst snd]. lra.
  - inversion Hf; subst.
    change (bins_from lb (s :: s' :: l)) with ((s, (lb, (s' + s) / 2)) :: bins_from ((s' + s) / 2) (s' :: l)).
    constructor; [apply inc_false; cbn [fst snd]; lra|]. apply IH; [exact Hs'|lra|lra].
Qed.

Lemma bins_find e l : forall lb, l <> [] -> StronglySorted Rlt l -> lb <= e < 1 -> match l with s :: _ => lb <= s | [] => True end ->
  exists pre b post, bins_from lb l = pre ++ b :: post /\ inc e b = true /\
    Forall (fun b => inc e b = false) pre /\ Forall (fun b => inc e b = false) post /\ nearest_in l e (fst b).
Proof.
  induction l as [|s l IH]; intros lb Hne Hs He Hl; [contradiction|]. inversion Hs as [|? ? Hs' Hf]; subst.
  destruct l as [|s' l].
  - exists [], (s, (lb, 1)), []. split; [reflexivity|]. split; [apply inc_true; cbn [fst snd]; lra|].
    split; [constructor|]. split; [constructor|]. split; [now left|].
    intros w' [<-|[]]. cbn [fst]. lra.
  - inversion Hf as [|? ? Hss' Hft]; subst.
    change (bins_from lb (s :: s' :: l)) with ((s, (lb, (s' + s) / 2)) :: bins_from ((s' + s) / 2) (s' :: l)).
    destruct (Rlt_dec e ((s' + s) / 2)) as [C|C].
    + exists [], (s, (lb, (s' + s) / 2)), (bins_from ((s' + s) / 2) (s' :: l)).
      split; [reflexivity|]. split; [apply inc_true; cbn [fst snd]; lra|]. split; [constructor|].
      split; [apply bins_below; [exact Hs'|lra|lra]|]. split; [now left|].
      intros w' [<-|Hw]; cbn [fst]; [lra|]. assert (s' <= w') as W.
        { destruct Hw as [<-|Hw]; [lra|]. inversion Hs' as [|? ? _ F']; subst. rewrite Forall_forall in F'. specialize (F' w' Hw). lra. }
        unfold Rabs. destruct (Rcase_abs (e - s)), (Rcase_abs (e - w')); lra.
    + destruct (IH ((s' + s) / 2) ltac:(discriminate) Hs' ltac:(lra) ltac:(lra)) as (pre & b & post & E & I & P1 & P2 & (N1 & N2)).
      exists ((s, (lb, (s' + s) / 2)) :: pre), b, post. rewrite E. split; [reflexivity|]. split; [exact I|].
      split; [constructor; [apply inc_false; cbn [fst snd]; lra|exact P1]|]. split; [exact P2|]. split; [now right|].
      intros w' [<-|Hw]; [|now apply N2]. apply Rle_trans with (Rabs (e - s')); [apply N2; now left|].
        unfold Rabs. destruct (Rcase_abs (e - s)), (Rcase_abs (e - s')); lra.
Qed.

(** the widths of the code *)
Lemma emin_lt_emax : ln emin < ln emax.
Proof. apply ln_increasing; unfold emin, emax; lra. Qed.
Lemma step_lt i j : (i < j)%nat -> exp (ln emin + INR i * ((ln emax - ln emin) / 30)) < exp (ln emin + INR j * ((ln emax - ln emin) / 30)).
Proof.
  intros H. apply exp_increasing. apply lt_INR in H. pose proof emin_lt_emax.
  assert (0 < (ln emax - ln emin) / 30) by lra. apply Rplus_lt_compat_l. now apply Rmult_lt_compat_r.
Qed.
Lemma sorted_map_seq (f : nat -> R) n : forall a, (forall i j, (i < j)%nat -> f i < f j) -> StronglySorted Rlt (map f (seq a n)).
Proof.
  induction n as [|n IH]; intros a Hf; cbn [seq map]; constructor; [now apply IH|].
  apply Forall_forall. intros x Hx. apply in_map_iff in Hx. destruct Hx as (j & <- & Hj). apply in_seq in Hj. apply Hf. lia.
Qed.
Lemma steps_sorted : StronglySorted Rlt steps.
Proof. apply sorted_map_seq, step_lt. Qed.
Lemma steps_range s : In s steps -> emin <= s <= emax.
Proof.
  unfold steps. intros H. apply in_map_iff in H. destruct H as (i & <- & Hi). apply in_seq in Hi.
  pose proof emin_lt_emax as L. assert (0 <= INR i <= 30) as B.
  { split; [apply pos_INR|]. replace 30 with (INR 30) by (rewrite INR_IZR_INZ; reflexivity). apply le_INR. lia. }
  assert (0 < emin) by (unfold emin; lra). assert (0 < emax) by (unfold emax; lra).
  rewrite <- (exp_ln emin) at 1 by assumption. rewrite <- (exp_ln emax) at 3 by assumption.
  set (u := ln emin) in *. set (v := ln emax) in *. clearbody u v.
  assert (forall a b, a <= b -> exp a <= exp b) as M by (intros a b [Q|Q]; [left; now apply exp_increasing|subst; lra]).
  split; apply M; nra.
Qed.
Lemma steps_cons : exists l, steps = emin :: l.
Proof.
  unfold steps. cbn [seq map]. eexists. f_equal. change (INR 0) with 0. rewrite Rmult_0_l, Rplus_0_r. apply exp_ln. unfold emin. lra.
Qed.
Lemma steps_last : last steps 0 = emax /\ length steps = 31%nat.
Proof.
  split; [|unfold steps; now rewrite map_length, seq_length].
  assert (steps = map (fun i => exp (ln emin + INR i * ((ln emax - ln emin) / 30))) (seq 0 30) ++ [emax]) as ->.
  { unfold steps. change (seq 0 31) with (seq 0 30 ++ [30%nat]). rewrite map_app. f_equal. cbn [map]. f_equal.
    replace (INR 30) with 30 by (rewrite INR_IZR_INZ; reflexivity).
    replace (ln emin + 30 * ((ln emax - ln emin) / 30)) with (ln emax) by field. apply exp_ln. unfold emax. lra. }
  apply last_last.
Qed.

Definition code_bins : list (R * (R * R)) := combine steps (combine lbounds ubounds).
Lemma code_bins_find e : 0 <= e < 1 ->
  exists pre b post, code_bins = pre ++ b :: post /\ inc e b = true /\
    Forall (fun b => inc e b = false) pre /\ Forall (fun b => inc e b = false) post /\ nearest_in steps e (fst b).
Proof.
  intros H. unfold code_bins, lbounds, ubounds. rewrite bins_eq. destruct steps_cons as [l E]. apply bins_find.
  - rewrite E. discriminate.
  - exact steps_sorted.
  - exact H.
  - rewrite E. unfold emin. lra.
Qed.

(** * the loop *)
Lemma masked_copy_length sel sigma src dst : length src = length sigma -> length dst = length sigma ->
  length (masked_copy sel sigma src dst) = length sigma.
Proof. intros H1 H2. unfold masked_copy. rewrite map_length, !combine_length. lia. Qed.
Lemma masked_copy_nth sel sigma src dst k : length src = length sigma -> length dst = length sigma -> (k < length sigma)%nat ->
  nth k (masked_copy sel sigma src dst) 0 = if sel (nth k sigma 0) then nth k src 0 else nth k dst 0.
Proof.
  intros H1 H2 Hk. unfold masked_copy.
  set (F := fun p : R * R * R => if sel (fst (fst p)) then snd (fst p) else snd p).
  rewrite (nth_indep _ 0 (F (0, 0, 0))) by (rewrite map_length, !combine_length; lia).
  rewrite map_nth, combine_nth by (rewrite combine_length; lia). rewrite combine_nth by lia. reflexivity.
Qed.

Lemma field_loop gauss ppa sigma vvm : (forall w, length (gauss w vvm) = length sigma) -> forall bins st,
  length (fst st) = length sigma -> length (snd st) = length sigma ->
  let st' := fold_left (field_step gauss ppa sigma vvm) bins st in
  length (fst st') = length sigma /\ length (snd st') = length sigma /\
  forall k, (k < length sigma)%nat ->
    (nth k (fst st') 0, nth k (snd st') 0) =
    fold_left (fun acc b => if inc (nth k sigma 0) b then (nth k (gauss (fst b * ppa * 60) vvm) 0, nth k (gauss (fst b * ppa * 60 * 3.5) vvm) 0) else acc)
      bins (nth k (fst st) 0, nth k (snd st) 0).
Proof.
  intros Hg. induction bins as [|b bins IH]; intros st H1 H2; cbn [fold_left]; [auto|].
  destruct b as [s [lb ub]]. cbn [field_step] in *.
  set (st1 := (masked_copy _ sigma _ (fst st), masked_copy _ sigma _ (snd st))).
  assert (length (fst st1) = length sigma) as L1 by (apply masked_copy_length; auto).
  assert (length (snd st1) = length sigma) as L2 by (apply masked_copy_length; auto).
  destruct (IH st1 L1 L2) as (A & B & C). split; [exact A|]. split; [exact B|]. intros k Hk. rewrite (C k Hk). f_equal.
  unfold st1. cbn [fst snd]. rewrite !masked_copy_nth by auto. unfold inc. cbn [fst snd]. destruct (included _ lb ub); reflexivity.
Qed.

Lemma fold_none {A} (f : R * (R * R) -> A) e l acc : Forall (fun b => inc e b = false) l ->
  fold_left (fun acc b => if inc e b then f b else acc) l acc = acc.
Proof. intros H. induction H as [|b l Hb Hl IH]; cbn [fold_left]; [reflexivity|]. rewrite Hb. exact IH. Qed.

Lemma field_response_spec gauss ppa sigma vvm : (forall w, length (gauss w vvm) = length vvm) -> length sigma = length vvm ->
  length (field_response gauss ppa sigma vvm) = length vvm /\
  forall k, (k < length vvm)%nat -> 0 <= nth k sigma 0 < 1 ->
    exists w, nearest_in steps (nth k sigma 0) w /\
      nth k (field_response gauss ppa sigma vvm) 0 =
      nth k (gauss (w * ppa * 60) vvm) 0 - fr_k * nth k (gauss (w * ppa * 60 * 3.5) vvm) 0.
Proof.
  intros Hg Hs. unfold field_response. fold code_bins.
  set (z := map (fun _ : R => 0) vvm). assert (length z = length sigma) as Lz by (unfold z; now rewrite map_length).
  pose proof (field_loop gauss ppa sigma vvm ltac:(intros; rewrite Hg; auto) code_bins (z, z) Lz Lz) as (A & B & C).
  destruct (fold_left (field_step gauss ppa sigma vvm) code_bins (z, z)) as [rc rs]. cbn [fst snd] in *.
  split; [rewrite map_length, combine_length; lia|]. intros k Hk He.
  specialize (C k ltac:(lia)).
  destruct (code_bins_find (nth k sigma 0) He) as (pre & b & post & E & I & P1 & P2 & N). rewrite E in C.
  rewrite fold_left_app in C. cbn [fold_left] in C. rewrite I in C.
  rewrite (fold_none (fun b => (nth k (gauss (fst b * ppa * 60) vvm) 0, nth k (gauss (fst b * ppa * 60 * 3.5) vvm) 0)) _ post _ P2) in C.
  injection C as C1 C2.
  exists (fst b). split; [exact N|].
  set (F := fun p : R * R => fst p - fr_k * snd p).
  rewrite (nth_indep _ 0 (F (0, 0))) by (rewrite map_length, combine_length; lia).
  rewrite map_nth, combine_nth by lia. unfold F. cbn [fst snd]. now rewrite C1, C2.
Qed.
