(** Lemmas about non_uniform_gaussian_filter and resample. *)
From Coq Require Import Sorting.Permutation Sorting.Sorted Lra Lia.
From Verif Require Import Base M_Translate M_Mapper M_Data S_Data L_Base L_Data L_Data2.
Local Open Scope R_scope.

(** * weighted averages *)
Lemma wsum_bounds lo hi (wy : list (R * R)) :
  (forall p, In p wy -> 0 <= fst p /\ lo <= snd p <= hi) ->
  lo * fold_right Rplus 0 (map fst wy) <= fold_right Rplus 0 (map (fun p => fst p * snd p) wy)
  <= hi * fold_right Rplus 0 (map fst wy).
Proof.
  induction wy as [|p wy IH]; intros H; cbn [map fold_right]; [lra|].
  destruct (H p (or_introl eq_refl)) as (Hw & Hy).
  assert (forall q, In q wy -> 0 <= fst q /\ lo <= snd q <= hi) as H' by (intros q Hq; apply H; now right).
  specialize (IH H'). assert (lo * fst p <= fst p * snd p <= hi * fst p) by (split; nra). nra.
Qed.

Lemma average_bounds lo hi wy :
  (forall p, In p wy -> 0 <= fst p /\ lo <= snd p <= hi) -> 0 < fold_right Rplus 0 (map fst wy) ->
  lo <= average wy <= hi.
Proof.
  intros H Hs. unfold average. pose proof (wsum_bounds lo hi wy H) as [A B].
  split; apply Rmult_le_reg_r with (fold_right Rplus 0 (map fst wy)); try exact Hs;
    unfold Rdiv; rewrite Rmult_assoc, Rinv_l by lra; lra.
Qed.

Lemma combine_fst {A B} (l : list A) (r : list B) : length l = length r -> map fst (combine l r) = l.
Proof.
  revert r. induction l as [|a l IH]; intros [|b r] H; cbn in *; try lia; [reflexivity|].
  f_equal. apply IH. lia.
Qed.

(** searchsorted side='left' *)
Lemma count_split_lt l m i :
  StronglySorted Rle l -> (i < length l)%nat ->
  (nth i l 0 < m <-> (i < length (filter (fun x => Rltb x m) l))%nat).
Proof.
  intros H. revert i. induction H as [|a l H IH Ha]; intros i Hi; cbn [length] in Hi; [lia|].
  cbn [filter]. destruct (Rltb a m) eqn:E.
  - apply Rltb_true in E. destruct i as [|i]; cbn [nth length]; [split; [lia|intros; exact E]|].
    rewrite (IH i ltac:(lia)). lia.
  - assert (m <= a). { unfold Rltb in E. destruct (Rlt_dec a m); [discriminate|lra]. }
    assert (filter (fun x => Rltb x m) l = []) as ->.
    { rewrite Forall_forall in Ha. clear IH H Hi. induction l as [|b l IHl]; [reflexivity|]. cbn [filter].
      assert (a <= b) by (apply Ha; now left).
      destruct (Rltb b m) eqn:Eb; [apply Rltb_true in Eb; lra|]. apply IHl. intros x Hx. apply Ha. now right. }
    cbn [length]. split; [|lia]. intros Hle. exfalso.
    destruct i as [|i]; cbn [nth] in Hle; [lra|].
    rewrite Forall_forall in Ha. assert (a <= nth i l 0) by (apply Ha, nth_In; lia). lra.
Qed.

Lemma py_get_last l : (0 < length l)%nat -> py_get l (-1) = Some (nth (length l - 1) l 0).
Proof.
  intros Hl. unfold py_get, np_index.
  assert ((0 <=? -1)%Z = false) as -> by reflexivity. cbn [andb].
  assert ((- Z.of_nat (length l) <=? -1)%Z = true) as -> by (apply Z.leb_le; lia).
  cbn [andb]. change ((-1 <? 0)%Z) with true. cbv iota.
  replace (Z.to_nat (-1 + Z.of_nat (length l))) with (length l - 1)%nat by lia.
  apply nth_error_nth'. lia.
Qed.

Definition key_sorted (xy : list (R * R)) : Prop := StronglySorted (fun a b => fst a <= fst b) xy.

Lemma nugf_x_range pdf x0 xy lo hi :
  (forall a b, 0 <= pdf a b) -> key_sorted xy -> (0 < length xy)%nat ->
  (forall p, In p xy -> lo <= snd p <= hi) ->
  exists v, nugf_x pdf x0 xy = Some v /\ lo <= v <= hi.
Proof.
  intros Hpdf Hs Hn Hy. unfold nugf_x.
  assert (forall i, (i < length xy)%nat -> lo <= nth i (map snd xy) 0 <= hi) as Hnth.
  { intros i Hi. rewrite (nth_indep _ 0 (snd (0, 0))) by (now rewrite map_length).
    rewrite map_nth. apply Hy, nth_In, Hi. }
  destruct (Rgtb _ 0) eqn:Eg.
  - apply Rltb_true in Eg. eexists. split; [reflexivity|]. apply average_bounds.
    + intros p Hp. destruct p as [w y]. cbn [fst snd]. split.
      * apply in_combine_l in Hp. apply in_map_iff in Hp. destruct Hp as (q & <- & _). apply Hpdf.
      * apply in_combine_r in Hp. apply in_map_iff in Hp. destruct Hp as (q & <- & Hq). now apply Hy.
    + rewrite combine_fst by (now rewrite !map_length). exact Eg.
  - set (c := length (filter (fun x => Rltb x x0) (map fst xy))).
    assert (searchsorted_left (map fst xy) x0 = Z.of_nat c) as -> by reflexivity.
    destruct (Z.of_nat c =? Z.of_nat (length xy))%Z eqn:E1.
    { rewrite py_get_last by (now rewrite map_length). rewrite map_length. eexists. split; [reflexivity|]. apply Hnth. lia. }
    apply Z.eqb_neq in E1. destruct (Z.of_nat c =? 0)%Z eqn:E2.
    { change 0%Z with (Z.of_nat 0). rewrite py_get_nat by (now rewrite map_length).
      eexists. split; [reflexivity|]. apply Hnth. lia. }
    apply Z.eqb_neq in E2.
    assert (c < length xy)%nat as Hc.
    { assert (c <= length xy)%nat; [|lia]. unfold c. rewrite <- (map_length fst xy). apply filter_length_bound. }
    replace (Z.of_nat c - 1)%Z with (Z.of_nat (c - 1)) by lia.
    rewrite !py_get_nat by (rewrite map_length; lia).
    eexists. split; [reflexivity|].
    assert (nth (c - 1) (map fst xy) 0 < x0) as La.
    { apply count_split_lt; [apply ss_map, Hs|rewrite map_length; lia|]. unfold c in *. lia. }
    assert (x0 <= nth c (map fst xy) 0) as Lb.
    { destruct (Rle_dec x0 (nth c (map fst xy) 0)) as [|C]; [assumption|]. apply Rnot_le_lt in C.
      apply count_split_lt in C; [|apply ss_map, Hs|rewrite map_length; lia]. unfold c in C. lia. }
    apply average_bounds.
    + intros p [<-|[<-|[]]]; cbn [fst snd]; (split; [lra|apply Hnth; lia]).
    + cbn [map fold_right fst]. lra.
Qed.

(** * windows *)
Lemma firstn_In {A} n (l : list A) x : In x (firstn n l) -> In x l.
Proof. intros H. rewrite <- (firstn_skipn n l). apply in_or_app. now left. Qed.
Lemma skipn_In {A} n (l : list A) x : In x (skipn n l) -> In x l.
Proof. intros H. rewrite <- (firstn_skipn n l). apply in_or_app. now right. Qed.

Lemma ss_app_l {A} (P : A -> A -> Prop) l r : StronglySorted P (l ++ r) -> StronglySorted P l.
Proof.
  induction l as [|a l IH]; cbn [app]; intros H; [constructor|].
  inversion H as [|? ? H1 H2]; subst. constructor; [auto|].
  rewrite Forall_forall in *. intros x Hx. apply H2, in_or_app. now left.
Qed.
Lemma ss_app_r {A} (P : A -> A -> Prop) l r : StronglySorted P (l ++ r) -> StronglySorted P r.
Proof.
  induction l as [|a l IH]; cbn [app]; intros H; [assumption|]. inversion H; subst; auto.
Qed.

Lemma window_spec (b i : Z) (xy : list (R * R)) :
  (1 <= b)%Z -> (0 <= i <= Z.of_nat (length xy))%Z -> (0 < length xy)%nat -> key_sorted xy ->
  (0 < length (bw_window b i xy))%nat /\ key_sorted (bw_window b i xy) /\
  (forall p, In p (bw_window b i xy) -> In p xy).
Proof.
  intros Hb Hi Hn Hs. unfold bw_window.
  set (a := Z.min (Z.max (i - b) 0) (Z.of_nat (length xy))).
  set (e := Z.min (Z.max (i + b) 0) (Z.of_nat (length xy))).
  split; [|split].
  - rewrite firstn_length, skipn_length. lia.
  - unfold key_sorted in *.
    assert (StronglySorted (fun p q : R * R => fst p <= fst q) (skipn (Z.to_nat a) xy)) as H.
    { rewrite <- (firstn_skipn (Z.to_nat a) xy) in Hs. now apply ss_app_r in Hs. }
    rewrite <- (firstn_skipn (Z.to_nat (e - a)) (skipn (Z.to_nat a) xy)) in H. now apply ss_app_l in H.
  - intros p Hp. eapply skipn_In, firstn_In, Hp.
Qed.

Lemma nugf_at_range pdf bw xy x0 lo hi :
  (forall a b, 0 <= pdf a b) -> bw_ok bw -> key_sorted xy -> (0 < length xy)%nat ->
  (forall p, In p xy -> lo <= snd p <= hi) ->
  exists v, nugf_at pdf bw xy x0 = Some v /\ lo <= v <= hi.
Proof.
  intros Hpdf Hb Hs Hn Hy. unfold nugf_at. destruct bw as [b|]; [|now apply nugf_x_range].
  destruct (window_spec b (searchsorted_left (map fst xy) x0) xy) as (H1 & H2 & H3); auto.
  { unfold searchsorted_left. pose proof (filter_length_bound (fun x => Rltb x x0) (map fst xy)).
    rewrite map_length in H. lia. }
  apply nugf_x_range; auto.
Qed.

Lemma self_weight pdf (xy : list (R * R)) i :
  (forall a b, 0 <= pdf a b) -> (forall x, In x (map fst xy) -> 0 < pdf x x) -> (i < length xy)%nat ->
  Rgtb (fold_right Rplus 0 (map (fun p => pdf (nth i (map fst xy) 0) (fst p)) xy)) 0 = true.
Proof.
  intros Hp Hx Hi. apply (proj2 (Rltb_true 0 _)). set (x0 := nth i (map fst xy) 0).
  assert (In x0 (map fst xy)) as Hin by (apply nth_In; now rewrite map_length).
  specialize (Hx x0 Hin). clearbody x0. clear i Hi.
  assert (forall l, 0 <= fold_right Rplus 0 (map (fun p : R * R => pdf x0 (fst p)) l)) as Hnn.
  { induction l as [|p l IH]; cbn [map fold_right]; [lra|]. specialize (Hp x0 (fst p)). lra. }
  induction xy as [|p l IH]; [destruct Hin|]. cbn [map fold_right]. destruct Hin as [E|Hin].
  - rewrite E. specialize (Hnn l). lra.
  - specialize (IH Hin). specialize (Hp x0 (fst p)). lra.
Qed.

Lemma nugf_self_range pdf bw xy i lo hi :
  (forall a b, 0 <= pdf a b) -> (bw = None -> forall x, In x (map fst xy) -> 0 < pdf x x) ->
  bw_ok bw -> key_sorted xy -> (i < length xy)%nat ->
  (forall p, In p xy -> lo <= snd p <= hi) ->
  exists v, nugf_self pdf bw xy i = Some v /\ lo <= v <= hi.
Proof.
  intros Hpdf Hw Hb Hs Hi Hy. unfold nugf_self.
  destruct bw as [b|]; [|rewrite self_weight by auto; apply nugf_x_range; auto; lia].
  destruct (window_spec b (Z.of_nat i) xy) as (H1 & H2 & H3); auto; try lia.
  apply nugf_x_range; auto.
Qed.

Lemma all_some_range {A} (f : A -> option R) l lo hi :
  (forall a, In a l -> exists v, f a = Some v /\ lo <= v <= hi) ->
  exists r, all_some (map f l) = Some r /\ length r = length l /\ Forall (fun v => lo <= v <= hi) r.
Proof.
  induction l as [|a l IH]; intros H; cbn [map all_some].
  - exists []. auto.
  - destruct (H a (or_introl eq_refl)) as (v & -> & Hv).
    destruct IH as (r & -> & Hl & Hr); [intros b Hb; apply H; now right|].
    exists (v :: r). cbn [length]. split; [reflexivity|]. split; [lia|]. now constructor.
Qed.

Lemma along_range {A} (f : A -> option R) l lo hi : l <> [] ->
  (forall a, In a l -> exists v, f a = Some v /\ lo <= v <= hi) ->
  exists r, along (map f l) = Some r /\ length r = length l /\ Forall (fun v => lo <= v <= hi) r.
Proof.
  intros Hl H. destruct (all_some_range f l lo hi H) as (r & Hr). exists r. destruct l; [congruence|exact Hr].
Qed.

Lemma ascending_sorted xy : ascending (map fst xy) = true -> key_sorted xy.
Proof.
  intros H. apply Sorted_StronglySorted.
  - intros a b c. cbn beta. lra.
  - induction xy as [|a xy IH]; [constructor|]. destruct xy as [|b xy]; [repeat constructor|].
    cbn [map ascending] in H. apply andb_true_iff in H. destruct H as [H1 H2]. apply Rleb_true in H1.
    constructor; [apply IH, H2|]. now constructor.
Qed.

Lemma sorted_ascending xy : key_sorted xy -> ascending (map fst xy) = true.
Proof.
  induction 1 as [|a l H IH Ha]; [reflexivity|]. destruct l as [|b l]; [reflexivity|].
  cbn [map ascending]. apply andb_true_iff. split; [|exact IH].
  inversion Ha; subst. now apply Rleb_true.
Qed.

Definition sorted_xy (argsort : list (R * R) -> list (R * R)) (xy : list (R * R)) : list (R * R) :=
  if ascending (map fst xy) then xy else argsort xy.

Lemma sorted_xy_spec argsort xy : sorts argsort ->
  key_sorted (sorted_xy argsort xy) /\ Permutation (sorted_xy argsort xy) xy.
Proof.
  intros Hs. unfold sorted_xy. destruct (ascending (map fst xy)) eqn:E.
  - split; [now apply ascending_sorted|auto].
  - destruct (Hs xy). now split.
Qed.

Lemma nugf_range argsort unsort pdf bw xy xr lo hi :
  sorts argsort -> (forall a b, 0 <= pdf a b) ->
  (bw = None -> xr = None -> forall x, In x (map fst xy) -> 0 < pdf x x) -> bw_ok bw -> xy <> [] -> xr <> Some [] ->
  (forall p, In p xy -> lo <= snd p <= hi) ->
  exists r, non_uniform_gaussian_filter argsort unsort pdf bw xy xr = Some r /\
    length r = length (match xr with Some l => l | None => map fst xy end) /\
    Forall (fun v => lo <= v <= hi) r.
Proof.
  intros Hs Hpdf Hw Hb Hne Hxr Hy. unfold non_uniform_gaussian_filter, nugf_rows. fold (sorted_xy argsort xy).
  rewrite andb_false_r. destruct (sorted_xy_spec argsort xy Hs) as [Hk Hp].
  assert (length (sorted_xy argsort xy) = length xy) as Hl by now apply Permutation_length.
  assert (0 < length xy)%nat as Hn by (destruct xy; [congruence|cbn [length]; lia]).
  assert (forall p, In p (sorted_xy argsort xy) -> lo <= snd p <= hi) as Hy'.
  { intros p Hin. apply Hy. now apply (Permutation_in p Hp). }
  destruct xr as [l|].
  - destruct (along_range (nugf_at pdf bw (sorted_xy argsort xy)) l lo hi) as (r & -> & H1 & H2); [congruence| |].
    { intros a _. apply nugf_at_range; auto. lia. }
    eauto.
  - destruct (along_range (nugf_self pdf bw (sorted_xy argsort xy)) (seq 0 (length (sorted_xy argsort xy))) lo hi)
      as (r & -> & H1 & H2).
    { intros E. apply (f_equal (@length nat)) in E. rewrite seq_length in E. cbn [length] in E. lia. }
    { intros i Hi. apply in_seq in Hi. apply nugf_self_range; auto; [|lia].
      intros Eb x Hx. apply Hw; auto. apply (Permutation_in x (Permutation_map fst Hp)), Hx. }
    exists r. rewrite H1, seq_length, map_length. auto.
Qed.

Lemma map_nth_seq_R {B} (f : R -> B) l : map (fun i => f (nth i l 0)) (seq 0 (length l)) = map f l.
Proof.
  induction l as [|a l IH]; [reflexivity|]. cbn [length seq map nth]. f_equal.
  rewrite <- seq_shift, map_map. exact IH.
Qed.

(** with no band width, the outputs are the values at the ascending x *)
Lemma nugf_order argsort unsort pdf xy :
  sorts argsort -> (forall a b, 0 <= pdf a b) -> (forall x, In x (map fst xy) -> 0 < pdf x x) ->
  non_uniform_gaussian_filter argsort unsort pdf None xy None =
  non_uniform_gaussian_filter argsort unsort pdf None xy (Some (map fst (sorted_xy argsort xy))).
Proof.
  intros Hs Hp Hw. destruct (sorted_xy_spec argsort xy Hs) as [_ Hperm].
  unfold non_uniform_gaussian_filter, nugf_rows. fold (sorted_xy argsort xy). rewrite !andb_false_r.
  rewrite <- (map_nth_seq_R (nugf_at pdf None (sorted_xy argsort xy)) (map fst (sorted_xy argsort xy))).
  rewrite map_length. erewrite map_ext_in; [reflexivity|]. intros i Hi. apply in_seq in Hi.
  unfold nugf_self, nugf_at. rewrite self_weight; auto; [|lia].
  intros x Hx. apply Hw, (Permutation_in x (Permutation_map fst Hperm)), Hx.
Qed.

Lemma nugf_order_sorted argsort unsort pdf xy :
  sorts argsort -> (forall a b, 0 <= pdf a b) -> (forall x, In x (map fst xy) -> 0 < pdf x x) -> key_sorted xy ->
  non_uniform_gaussian_filter argsort unsort pdf None xy None =
  non_uniform_gaussian_filter argsort unsort pdf None xy (Some (map fst xy)).
Proof.
  intros Hs Hp Hw H. rewrite nugf_order by assumption. unfold sorted_xy. now rewrite sorted_ascending.
Qed.

Lemma norm_pdf_pos sigma x0 x : 0 < sigma -> 0 < norm_pdf sigma x0 x.
Proof.
  intros Hs. unfold norm_pdf. apply Rdiv_lt_0_compat; [apply exp_pos|].
  apply Rmult_lt_0_compat; [exact Hs|]. apply sqrt_lt_R0. pose proof PI_RGT_0. lra.
Qed.

Lemma nugf_unsorted_swapped argsort unsort sigma :
  sorts argsort -> 0 < sigma ->
  exists a b, a < b /\
    non_uniform_gaussian_filter argsort unsort (norm_pdf sigma) None [(2, 20); (1, 10)] None = Some [a; b] /\
    non_uniform_gaussian_filter argsort unsort (norm_pdf sigma) None [(2, 20); (1, 10)] (Some [2; 1]) = Some [b; a].
Proof.
  intros Hs Hsg.
  assert (argsort [(2, 20); (1, 10)] = [(1, 10); (2, 20)]) as Ea.
  { destruct (Hs [(2, 20); (1, 10)]) as [Hp Hss].
    apply Permutation_sym, Permutation_length_2_inv in Hp. destruct Hp as [E|E]; [|exact E].
    rewrite E in Hss. inversion Hss as [|? ? _ Hf]; subst. inversion Hf; subst. cbn [fst] in *. lra. }
  assert (ascending (map fst [(2, 20); (1, 10)]) = false) as Eas.
  { cbn [map fst ascending]. unfold Rleb. destruct (Rle_dec 2 1); [lra|reflexivity]. }
  unfold non_uniform_gaussian_filter, nugf_rows. rewrite Eas, Ea. cbn [negb andb length seq map].
  unfold nugf_self, nugf_at, nugf_x. cbn [map fst snd nth fold_right combine].
  set (f := norm_pdf sigma).
  assert (forall a b, 0 < f a b) as Hf by (intros; now apply norm_pdf_pos).
  pose proof (Hf 1 1). pose proof (Hf 1 2). pose proof (Hf 2 1). pose proof (Hf 2 2).
  unfold Rgtb, Rltb. repeat (destruct (Rlt_dec 0 _); [|lra]). cbn [along all_some].
  do 2 eexists. split; [|split; reflexivity].
  unfold average. cbn [map fold_right fst snd].
  assert (f 1 2 < f 1 1).
  { unfold f, norm_pdf. apply Rmult_lt_compat_r.
    - apply Rinv_0_lt_compat, Rmult_lt_0_compat; [exact Hsg|]. apply sqrt_lt_R0. pose proof PI_RGT_0. lra.
    - apply exp_increasing.
      replace (- ((2 - 1) / sigma * ((2 - 1) / sigma)) / 2) with (- (/ sigma * / sigma) / 2) by (field; lra).
      replace (- ((1 - 1) / sigma * ((1 - 1) / sigma)) / 2) with 0 by (field; lra).
      pose proof (Rinv_0_lt_compat sigma Hsg). nra. }
  assert (f 2 1 = f 1 2) as -> by (unfold f, norm_pdf; do 2 f_equal; field; lra).
  assert (f 2 2 = f 1 1) as -> by (unfold f, norm_pdf; do 2 f_equal; field; lra).
  rewrite !Rplus_0_r. set (u := f 1 1) in *. set (v := f 1 2) in *.
  apply Rlt_trans with 15.
  - apply Rmult_lt_reg_r with (u + v); [lra|]. unfold Rdiv. rewrite Rmult_assoc, Rinv_l by lra. lra.
  - apply Rmult_lt_reg_r with (v + u); [lra|]. unfold Rdiv. rewrite Rmult_assoc, Rinv_l by lra. lra.
Qed.

(** * resample *)
Lemma Rtrunc_IZR k : (0 <= k)%Z -> Rtrunc (IZR k) = k.
Proof.
  intros Hk. unfold Rtrunc, Rltb. destruct (Rlt_dec (IZR k) 0) as [C|_]; [apply lt_IZR in C; lia|].
  unfold Rfloor. assert (up (IZR k) = k + 1)%Z; [|lia]. symmetry. apply tech_up; rewrite plus_IZR; lra.
Qed.

Lemma Rfloor_half k : Rfloor (IZR k / 2) = (k / 2)%Z.
Proof.
  unfold Rfloor. assert (up (IZR k / 2) = k / 2 + 1)%Z; [|lia]. symmetry.
  pose proof (Z.div_mod k 2 ltac:(lia)) as E. pose proof (Z.mod_pos_bound k 2 ltac:(lia)) as B.
  assert (IZR k = 2 * IZR (k / 2) + IZR (k mod 2)) as Ek.
  { rewrite E at 1. now rewrite plus_IZR, mult_IZR. }
  assert (0 <= IZR (k mod 2) <= 1) as Bm by (split; apply IZR_le; lia).
  apply tech_up; rewrite plus_IZR; lra.
Qed.

Lemma Rtrunc_neg_half k : (0 <= k)%Z -> Rtrunc (- IZR k / 2) = (- (k / 2))%Z.
Proof.
  intros Hk. unfold Rtrunc. destruct (Rltb (- IZR k / 2) 0) eqn:E.
  - replace (- (- IZR k / 2)) with (IZR k / 2) by field. now rewrite Rfloor_half.
  - assert (k = 0)%Z as ->.
    { unfold Rltb in E. destruct (Rlt_dec _ _) as [|C] in E; [discriminate|].
      destruct (Z.eq_dec k 0); [assumption|]. exfalso. apply C.
      assert (1 <= IZR k) by (apply IZR_le; lia). lra. }
    replace (- IZR 0 / 2) with (IZR 0 / 2) by field. rewrite Rfloor_half. reflexivity.
Qed.

Lemma IZR_pos k : (0 < k)%Z -> 0 < IZR k.
Proof. intros. apply IZR_lt. lia. Qed.

Lemma resample_up gaussian a kx ky radius :
  (0 < im_nx a)%Z -> (0 < im_ny a)%Z -> (1 <= kx)%Z -> (1 <= ky)%Z -> (1 < kx * ky)%Z ->
  same_image (resample gaussian a (Some (im_nx a * kx, im_ny a * ky)%Z) false radius)
             (Img (im_nx a * kx) (im_ny a * ky) (fun i j => im_px a (i / kx) (j / ky))).
Proof.
  intros Hx Hy Hkx Hky Hk. unfold resample. cbn [fst snd].
  pose proof (IZR_pos _ Hx). pose proof (IZR_pos _ Hy).
  replace (IZR (im_nx a * kx) / IZR (im_nx a)) with (IZR kx) by (rewrite mult_IZR; field; lra).
  replace (IZR (im_ny a * ky) / IZR (im_ny a)) with (IZR ky) by (rewrite mult_IZR; field; lra).
  assert (Rgtb (IZR kx * IZR ky) 1 = true) as ->.
  { apply Rltb_true. rewrite <- mult_IZR. apply IZR_lt. lia. }
  rewrite !Rtrunc_IZR by lia. unfold same_image. cbn [repeat0 repeat1 im_nx im_ny im_px]. auto.
Qed.

Lemma reflect_index_in n i : (0 <= i < n)%Z -> reflect_index n i = i.
Proof.
  intros Hi. unfold reflect_index. rewrite Z.mod_small by lia.
  assert ((i <? n)%Z = true) as -> by (apply Z.ltb_lt; lia). reflexivity.
Qed.

Lemma zsum_ext n f g : (forall k, (0 <= k < n)%Z -> f k = g k) -> zsum n f = zsum n g.
Proof.
  intros H. unfold zsum. f_equal. apply map_ext_in. intros k Hk. apply in_seq in Hk. apply H. lia.
Qed.

Lemma zsum_scal c n f : zsum n (fun k => f k * c) = zsum n f * c.
Proof.
  unfold zsum. induction (seq 0 (Z.to_nat n)) as [|k l IH]; cbn [map fold_right]; [ring|]. rewrite IH. ring.
Qed.

Lemma zsum_const c n : (0 <= n)%Z -> zsum n (fun _ => c) = IZR n * c.
Proof.
  intros Hn. unfold zsum. rewrite <- (Z2Nat.id n) at 2 by lia. rewrite <- INR_IZR_INZ.
  generalize (Z.to_nat n) as m. intros m. generalize 0%nat as s. induction m as [|m IH]; intros s.
  - cbn. ring.
  - cbn [seq map fold_right]. rewrite IH, S_INR. ring.
Qed.

Lemma resample_down gaussian a tx ty kx ky gauss radius :
  (0 < tx)%Z -> (0 < ty)%Z -> (1 <= kx)%Z -> (1 <= ky)%Z -> (1 < kx * ky)%Z ->
  im_nx a = (tx * kx)%Z -> im_ny a = (ty * ky)%Z ->
  same_image (resample gaussian a (Some (tx, ty)) gauss radius)
             (Img tx ty (block_mean kx ky (im_px a))).
Proof.
  intros Hx Hy Hkx Hky Hk Enx Eny. unfold resample. cbn [fst snd].
  pose proof (IZR_pos _ Hx). pose proof (IZR_pos _ Hy).
  pose proof (IZR_pos kx ltac:(lia)) as Pkx. pose proof (IZR_pos ky ltac:(lia)) as Pky.
  replace (IZR tx / IZR (im_nx a)) with (/ IZR kx) by (rewrite Enx, mult_IZR; field; lra).
  replace (IZR ty / IZR (im_ny a)) with (/ IZR ky) by (rewrite Eny, mult_IZR; field; lra).
  assert (1 < IZR kx * IZR ky) as Hk1 by (rewrite <- mult_IZR; apply IZR_lt; lia).
  assert (/ IZR kx * / IZR ky < 1) as Hlt.
  { rewrite <- Rinv_mult. rewrite <- Rinv_1. apply Rinv_lt_contravar; lra. }
  assert (Rgtb (/ IZR kx * / IZR ky) 1 = false) as ->.
  { unfold Rgtb, Rltb. destruct (Rlt_dec _ _); [lra|reflexivity]. }
  assert (Rltb (/ IZR kx * / IZR ky) 1 = true) as -> by now apply Rltb_true.
  replace (1 / / IZR kx) with (IZR kx) by (field; lra).
  replace (1 / / IZR ky) with (IZR ky) by (field; lra).
  rewrite !Rtrunc_IZR, !Rtrunc_neg_half by lia.
  unfold same_image, every0, every1. cbn [im_nx im_ny im_px uniform0 uniform1].
  rewrite Enx, Eny.
  replace (- (tx * kx))%Z with (- tx * kx)%Z by ring. replace (- (ty * ky))%Z with (- ty * ky)%Z by ring.
  rewrite !Z_div_mult_full, !Z.opp_involutive by lia.
  split; [reflexivity|]. split; [reflexivity|]. intros i j Hi Hj.
  unfold window_mean, block_mean, uniform0. cbn [im_nx im_ny im_px].
  rewrite ?Enx, ?Eny.
  replace (j * ky - ky / 2 - - (ky / 2))%Z with (j * ky)%Z by ring.
  change (zsum ky (fun b => window_mean kx (fun k => im_px a (reflect_index (tx * kx) k)
             (reflect_index (ty * ky) (j * ky + b))) (i * kx - kx / 2 - - (kx / 2))) / IZR ky =
          zsum ky (fun b => zsum kx (fun c => im_px a (i * kx + c) (j * ky + b))) / (IZR kx * IZR ky)).
  rewrite (zsum_ext ky _ (fun b => zsum kx (fun c => im_px a (i * kx + c) (j * ky + b)) * / IZR kx)).
  - rewrite zsum_scal. field. lra.
  - intros b Hb. unfold window_mean.
    replace (i * kx - kx / 2 - - (kx / 2))%Z with (i * kx)%Z by ring.
    change (zsum kx (fun c => im_px a (reflect_index (tx * kx) (i * kx + c))
              (reflect_index (ty * ky) (j * ky + b))) / IZR kx =
            zsum kx (fun c => im_px a (i * kx + c) (j * ky + b)) * / IZR kx).
    unfold Rdiv. f_equal. apply zsum_ext. intros c Hc. rewrite !reflect_index_in by nia. reflexivity.
Qed.

Lemma div_block i k c : (0 <= c < k)%Z -> ((i * k + c) / k)%Z = i.
Proof. intros H. rewrite Z.div_add_l by lia. rewrite Z.div_small by lia. lia. Qed.

Lemma resample_round gaussian a kx ky gauss radius :
  (0 < im_nx a)%Z -> (0 < im_ny a)%Z -> (1 <= kx)%Z -> (1 <= ky)%Z ->
  same_image (resample gaussian (resample gaussian a (Some (im_nx a * kx, im_ny a * ky)%Z) false None)
                       (Some (im_nx a, im_ny a)) gauss (if (kx * ky =? 1)%Z then None else radius)) a.
Proof.
  intros Hx Hy Hkx Hky. destruct (Z.eq_dec (kx * ky) 1) as [E|Hne].
  - assert (kx = 1 /\ ky = 1)%Z as [-> ->] by nia. cbn [Z.mul Z.eqb Pos.mul Pos.eqb].
    assert (forall g, resample gaussian a (Some (im_nx a * 1, im_ny a * 1)%Z) g None = a) as Ea.
    { intros g. rewrite !Z.mul_1_r. unfold resample. cbn [fst snd].
      pose proof (IZR_pos _ Hx). pose proof (IZR_pos _ Hy).
      replace (IZR (im_nx a) / IZR (im_nx a)) with 1 by (field; lra).
      replace (IZR (im_ny a) / IZR (im_ny a)) with 1 by (field; lra).
      unfold Rgtb, Rltb. destruct (Rlt_dec 1 (1 * 1)); [lra|]. destruct (Rlt_dec (1 * 1) 1); [lra|]. reflexivity. }
    rewrite Ea. specialize (Ea gauss). rewrite !Z.mul_1_r in Ea. rewrite Ea.
    split; [reflexivity|]. split; reflexivity.
  - assert (1 < kx * ky)%Z as Hk by nia.
    destruct (resample_up gaussian a kx ky None Hx Hy Hkx Hky Hk) as (E1 & E2 & E3).
    set (b := resample gaussian a (Some (im_nx a * kx, im_ny a * ky)%Z) false None) in *.
    cbn [im_nx im_ny im_px] in E1, E2, E3.
    destruct (resample_down gaussian b (im_nx a) (im_ny a) kx ky gauss
                (if (kx * ky =? 1)%Z then None else radius) Hx Hy Hkx Hky Hk E1 E2) as (D1 & D2 & D3).
    cbn [im_nx im_ny im_px] in D1, D2, D3.
    split; [exact D1|]. split; [exact D2|]. intros i j Hi Hj. rewrite D3 by assumption.
    rewrite D1 in Hi. rewrite D2 in Hj.
    unfold block_mean. rewrite (zsum_ext ky _ (fun _ => IZR kx * im_px a i j)).
    + rewrite zsum_const by lia. pose proof (IZR_pos kx ltac:(lia)). pose proof (IZR_pos ky ltac:(lia)). field. lra.
    + intros y Hy2. rewrite (zsum_ext kx _ (fun _ => im_px a i j)); [apply zsum_const; lia|].
      intros x Hx2. rewrite E3 by (rewrite ?E1, ?E2; nia). now rewrite !div_block by lia.
Qed.
