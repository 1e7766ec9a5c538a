(** Lemmas about weighted_quantile. *)
From Coq Require Import Sorting.Permutation Sorting.Sorted Lra Lia.
From Verif Require Import Base M_Translate M_Mapper M_Data S_Data L_Base.
Local Open Scope R_scope.

(** * lists *)
Lemma all_some_map {A B} (f : A -> option B) (g : A -> B) l :
  (forall a, In a l -> f a = Some (g a)) -> all_some (map f l) = Some (map g l).
Proof.
  induction l as [|a l IH]; intros H; cbn [map all_some]; [reflexivity|].
  rewrite (H a (or_introl eq_refl)), IH; [reflexivity|].
  intros b Hb. apply H. now right.
Qed.

Lemma all_some_none {A B} (f : A -> option B) l a :
  In a l -> f a = None -> all_some (map f l) = None.
Proof.
  induction l as [|b l IH]; intros Hin Ha; [contradiction|].
  cbn [map all_some]. destruct Hin as [->|Hin]; [now rewrite Ha|].
  destruct (f b); [|reflexivity]. now rewrite IH.
Qed.

Lemma py_get_nat l i : (i < length l)%nat -> py_get l (Z.of_nat i) = Some (nth i l 0).
Proof.
  intros Hi. unfold py_get, np_index.
  assert ((0 <=? Z.of_nat i)%Z = true) as -> by (apply Z.leb_le; lia).
  assert ((Z.of_nat i <? Z.of_nat (length l))%Z = true) as -> by (apply Z.ltb_lt; lia).
  cbn [andb]. rewrite Nat2Z.id. now apply nth_error_nth'.
Qed.

Lemma py_get_out l i : (Z.of_nat (length l) <= i)%Z -> py_get l i = None.
Proof.
  intros Hi. unfold py_get, np_index.
  assert ((i <? Z.of_nat (length l))%Z = false) as -> by (apply Z.ltb_ge; lia).
  rewrite andb_false_r.
  assert ((i <? 0)%Z = false) as -> by (apply Z.ltb_ge; lia).
  now rewrite andb_false_r.
Qed.

Lemma ss_nth (P : R -> R -> Prop) l i j :
  StronglySorted P l -> (i < j)%nat -> (j < length l)%nat -> P (nth i l 0) (nth j l 0).
Proof.
  intros H. revert i j. induction H as [|a l H IH Ha]; intros i j Hij Hj; cbn [length] in Hj; [lia|].
  destruct j as [|j]; [lia|]. destruct i as [|i]; cbn [nth].
  - rewrite Forall_forall in Ha. apply Ha, nth_In. lia.
  - apply IH; lia.
Qed.

Lemma ss_le_nth l i j :
  StronglySorted Rle l -> (i <= j)%nat -> (j < length l)%nat -> nth i l 0 <= nth j l 0.
Proof.
  intros H Hij Hj. destruct (Nat.eq_dec i j) as [->|]; [lra|]. apply (ss_nth Rle); auto. lia.
Qed.

Lemma ss_filter {A} (P : A -> A -> Prop) f l : StronglySorted P l -> StronglySorted P (filter f l).
Proof.
  induction 1 as [|a l H IH Ha]; cbn [filter]; [constructor|].
  destruct (f a); [|exact IH]. constructor; [exact IH|].
  rewrite Forall_forall in *. intros x Hx. apply filter_In in Hx. now apply Ha.
Qed.

Lemma ss_map {A} (f : A -> R) l :
  StronglySorted (fun a b => f a <= f b) l -> StronglySorted Rle (map f l).
Proof.
  induction 1 as [|a l H IH Ha]; cbn [map]; [constructor|]. constructor; [exact IH|].
  rewrite Forall_forall in *. intros x Hx. apply in_map_iff in Hx. destruct Hx as (y & <- & Hy). now apply Ha.
Qed.

(** the number of entries <= m of a sorted list splits it *)
Lemma count_split l m i :
  StronglySorted Rlt l -> (i < length l)%nat ->
  (nth i l 0 <= m <-> (i < length (filter (fun x => Rleb x m) l))%nat).
Proof.
  intros H. revert i. induction H as [|a l H IH Ha]; intros i Hi; cbn [length] in Hi; [lia|].
  cbn [filter]. destruct (Rleb a m) eqn:E.
  - apply Rleb_true in E. destruct i as [|i]; cbn [nth length]; [split; [lia|intros; exact E]|].
    rewrite (IH i ltac:(lia)). lia.
  - assert (m < a). { unfold Rleb in E. destruct (Rle_dec a m); [discriminate|lra]. }
    assert (filter (fun x => Rleb x m) l = []) as ->.
    { rewrite Forall_forall in Ha. clear IH H Hi. induction l as [|b l IHl]; [reflexivity|]. cbn [filter].
      assert (a < b) by (apply Ha; now left).
      destruct (Rleb b m) eqn:Eb; [apply Rleb_true in Eb; lra|]. apply IHl. intros x Hx. apply Ha. now right. }
    cbn [length]. split; [|lia]. intros Hle. exfalso.
    destruct i as [|i]; cbn [nth] in Hle; [lra|].
    rewrite Forall_forall in Ha. assert (a < nth i l 0) by (apply Ha, nth_In; lia). lra.
Qed.

Lemma combine_map_r {A B} (f : A -> B) l : combine l (map f l) = map (fun x => (x, f x)) l.
Proof. induction l as [|a l IH]; cbn [map combine]; [reflexivity|now rewrite IH]. Qed.

(** * cumulative weights *)
Lemma cumsum_from_length acc l : length (cumsum_from acc l) = length l.
Proof. revert acc. induction l as [|x l IH]; intros acc; cbn [cumsum_from length]; [reflexivity|now rewrite IH]. Qed.

Lemma cumsum_from_lower acc l x :
  (forall y, In y l -> 0 < y) -> In x (cumsum_from acc l) -> acc < x.
Proof.
  revert acc. induction l as [|y l IH]; intros acc H; cbn [cumsum_from In]; [tauto|].
  intros [<-|Hx].
  - specialize (H y (or_introl eq_refl)). lra.
  - assert (0 < y) by (apply H; now left).
    apply IH in Hx; [lra|]. intros z Hz. apply H. now right.
Qed.

Lemma cumsum_from_sorted acc l :
  (forall y, In y l -> 0 < y) -> StronglySorted Rlt (cumsum_from acc l).
Proof.
  revert acc. induction l as [|y l IH]; intros acc H; cbn [cumsum_from]; [constructor|].
  constructor.
  - apply IH. intros z Hz. apply H. now right.
  - rewrite Forall_forall. intros x Hx. apply cumsum_from_lower in Hx; [exact Hx|].
    intros z Hz. apply H. now right.
Qed.

Definition cw_of (w : list R) : list R := map (fun c => c - hd 0 w) (cumsum w).

Lemma cw_length w : length (cw_of w) = length w.
Proof. unfold cw_of, cumsum. now rewrite map_length, cumsum_from_length. Qed.

Lemma cw_sorted w : (forall y, In y w -> 0 < y) -> StronglySorted Rlt (cw_of w).
Proof.
  intros H. unfold cw_of. generalize (cumsum_from_sorted 0 w H). fold (cumsum w).
  generalize (cumsum w) as l. intros l Hs. induction Hs as [|a l Hs IH Ha]; cbn [map]; [constructor|].
  constructor; [exact IH|]. rewrite Forall_forall in *. intros x Hx. apply in_map_iff in Hx.
  destruct Hx as (y & <- & Hy). apply Ha in Hy. lra.
Qed.

Lemma cw_first w : (0 < length w)%nat -> nth 0 (cw_of w) 0 = 0.
Proof. destruct w as [|x w]; cbn [length]; [lia|]. intros _. unfold cw_of, cumsum. cbn [cumsum_from map nth hd]. lra. Qed.

Lemma last_nth (l : list R) : last l 0 = nth (length l - 1) l 0.
Proof.
  induction l as [|a l IH]; [reflexivity|]. destruct l as [|b l]; [reflexivity|].
  change (last (a :: b :: l) 0) with (last (b :: l) 0). rewrite IH.
  cbn [length]. replace (S (S (length l)) - 1)%nat with (S (S (length l) - 1)) by lia. reflexivity.
Qed.

(** * the value for one q *)
Definition wq (d cw : list R) (q : R) : R :=
  let li := (length (filter (fun x => Rleb x (q * last cw 0)%R) cw) - 1)%nat in
  if close_to_one q then nth li d 0
  else if (length d <=? li + 1)%nat then nth li d 0
  else nth li d 0 + (nth (li + 1) d 0 - nth li d 0) * (q * last cw 0 - nth li cw 0)
                    / (nth (li + 1) cw 0 - nth li cw 0).

Lemma filter_length_bound {A} (f : A -> bool) l : (length (filter f l) <= length l)%nat.
Proof. induction l as [|a l IH]; cbn [filter length]; [lia|]. destruct (f a); cbn [length]; lia. Qed.

Section Quantile.
Variables d cw : list R.
Hypothesis Hlen : length d = length cw.
Hypothesis Hpos : (0 < length d)%nat.
Hypothesis Hcw : StronglySorted Rlt cw.
Hypothesis H0 : nth 0 cw 0 = 0.
Hypothesis Hd : StronglySorted Rle d.

Lemma total_nonneg : 0 <= last cw 0.
Proof.
  rewrite last_nth. destruct (Nat.eq_dec (length cw) 1) as [E|].
  - rewrite E. cbn [Nat.sub]. lra.
  - assert (nth 0 cw 0 < nth (length cw - 1) cw 0) by (apply (ss_nth Rlt); auto; lia). lra.
Qed.

(** the index and its bounds *)
Definition wli (q : R) : nat := (length (filter (fun x => Rleb x (q * last cw 0)%R) cw) - 1)%nat.

Lemma count_pos q : 0 <= q -> (0 < length (filter (fun x => Rleb x (q * last cw 0)%R) cw))%nat.
Proof.
  intros Hq. apply (count_split cw _ 0 Hcw); [lia|]. rewrite H0.
  apply Rmult_le_pos; [lra|apply total_nonneg].
Qed.

Lemma wli_bound q : (wli q < length cw)%nat.
Proof.
  unfold wli. pose proof (filter_length_bound (fun x => Rleb x (q * last cw 0)%R) cw). lia.
Qed.

Lemma wli_low q : 0 <= q -> nth (wli q) cw 0 <= q * last cw 0.
Proof.
  intros Hq. apply (count_split cw _ (wli q) Hcw); [apply wli_bound|].
  pose proof (count_pos q Hq). unfold wli. lia.
Qed.

Lemma wli_high q : 0 <= q -> (wli q + 1 < length cw)%nat -> q * last cw 0 < nth (wli q + 1) cw 0.
Proof.
  intros Hq Hb. destruct (Rlt_dec (q * last cw 0) (nth (wli q + 1) cw 0)) as [|C]; [assumption|].
  exfalso. apply Rnot_lt_le in C.
  apply (count_split cw _ (wli q + 1) Hcw) in C; [|lia].
  pose proof (count_pos q Hq). unfold wli in C. lia.
Qed.

Lemma wli_mono q1 q2 : 0 <= q1 -> q1 <= q2 -> (wli q1 <= wli q2)%nat.
Proof.
  intros H1 H12. pose proof (wli_low q1 H1) as L1. pose proof total_nonneg as Ht.
  assert (nth (wli q1) cw 0 <= q2 * last cw 0) as L2.
  { eapply Rle_trans; [exact L1|]. apply Rmult_le_compat_r; lra. }
  apply (count_split cw _ (wli q1) Hcw) in L2; [|apply wli_bound]. unfold wli at 2. lia.
Qed.

(** the last index is reached only at the end *)
Lemma wli_last q : 0 <= q < 1 -> (wli q + 1 = length cw)%nat -> length cw = 1%nat.
Proof.
  intros Hq E. destruct (Nat.eq_dec (length cw) 1) as [|Hn]; [assumption|]. exfalso.
  pose proof (wli_low q (proj1 Hq)) as L.
  assert (nth 0 cw 0 < nth (length cw - 1) cw 0) by (apply (ss_nth Rlt); auto; lia).
  rewrite last_nth in L. replace (wli q) with (length cw - 1)%nat in L by lia. nra.
Qed.

Lemma close_lt q : 0 <= q <= 1 -> close_to_one q = false -> q < 1 - / 100000 - / 100000000.
Proof.
  intros Hq Hc. unfold close_to_one, isclose, Rleb in Hc.
  destruct (Rle_dec _ _) as [|C] in Hc; [discriminate|]. rewrite (Rabs_left1 (q - 1)), Rabs_R1 in C by lra. lra.
Qed.

Lemma close_lt' q : q < 1 - / 100000 - / 100000000 -> close_to_one q = false.
Proof.
  intros Hq. unfold close_to_one, isclose, Rleb. destruct (Rle_dec _ _) as [C|]; [|reflexivity].
  rewrite (Rabs_left1 (q - 1)), Rabs_R1 in C by lra. lra.
Qed.

Lemma close_one : close_to_one 1 = true.
Proof.
  unfold close_to_one, isclose, Rleb. destruct (Rle_dec _ _) as [|C]; [reflexivity|].
  exfalso. apply C. rewrite Rminus_diag_eq, Rabs_R0, Rabs_R1 by reflexivity. lra.
Qed.

Lemma wq_cases q : 0 <= q <= 1 ->
  (close_to_one q = true /\ wq d cw q = nth (wli q) d 0) \/
  (close_to_one q = false /\ length cw = 1%nat /\ wli q = 0%nat /\ wq d cw q = nth 0 d 0) \/
  (close_to_one q = false /\ (wli q + 1 < length cw)%nat /\
   exists s, 0 <= s < 1 /\ s = (q * last cw 0 - nth (wli q) cw 0) / (nth (wli q + 1) cw 0 - nth (wli q) cw 0) /\
             wq d cw q = nth (wli q) d 0 + (nth (wli q + 1) d 0 - nth (wli q) d 0) * s).
Proof.
  intros Hq. unfold wq. fold (wli q). destruct (close_to_one q) eqn:E; [left; auto|]. right.
  pose proof (close_lt q Hq E) as Hlt. rewrite Hlen.
  pose proof (wli_bound q) as Hb.
  destruct (length cw <=? wli q + 1)%nat eqn:El.
  - apply Nat.leb_le in El. left. assert (length cw = 1%nat) as H1 by (apply (wli_last q); lra || lia).
    assert (wli q = 0%nat) as -> by lia. auto.
  - apply Nat.leb_gt in El. right. split; [reflexivity|]. split; [lia|].
    pose proof (wli_low q (proj1 Hq)) as L. pose proof (wli_high q (proj1 Hq) El) as Hh.
    exists ((q * last cw 0 - nth (wli q) cw 0) / (nth (wli q + 1) cw 0 - nth (wli q) cw 0)).
    assert (0 < nth (wli q + 1) cw 0 - nth (wli q) cw 0) as Hdn by lra.
    split; [split|].
    + apply Rmult_le_pos; [lra|]. left. now apply Rinv_0_lt_compat.
    + apply Rmult_lt_reg_r with (nth (wli q + 1) cw 0 - nth (wli q) cw 0); [exact Hdn|].
      unfold Rdiv. rewrite Rmult_assoc, Rinv_l by lra. lra.
    + split; [reflexivity|]. unfold Rdiv. ring.
Qed.

Lemma wq_range q : 0 <= q <= 1 -> nth 0 d 0 <= wq d cw q <= nth (length d - 1) d 0.
Proof.
  intros Hq. pose proof (wli_bound q) as Hb.
  destruct (wq_cases q Hq) as [(_ & ->)|[(_ & H1 & _ & ->)|(_ & Hi & s & Hs & _ & ->)]].
  - split; apply ss_le_nth; auto; lia.
  - split; [lra|]. apply ss_le_nth; auto; lia.
  - assert (nth 0 d 0 <= nth (wli q) d 0) by (apply ss_le_nth; auto; lia).
    assert (nth (wli q) d 0 <= nth (wli q + 1) d 0) by (apply ss_le_nth; auto; lia).
    assert (nth (wli q + 1) d 0 <= nth (length d - 1) d 0) by (apply ss_le_nth; auto; lia).
    split; nra.
Qed.

Lemma wq_0 : wq d cw 0 = nth 0 d 0.
Proof.
  assert (wli 0 = 0%nat) as E.
  { pose proof (wli_low 0 (Rle_refl 0)) as L. rewrite Rmult_0_l in L.
    destruct (Nat.eq_dec (wli 0) 0) as [|Hn]; [assumption|]. exfalso.
    pose proof (wli_bound 0). assert (nth 0 cw 0 < nth (wli 0) cw 0) by (apply (ss_nth Rlt); auto; lia). lra. }
  destruct (wq_cases 0 ltac:(lra)) as [(_ & ->)|[(_ & _ & _ & ->)|(_ & _ & s & _ & Hs & ->)]].
  - now rewrite E.
  - reflexivity.
  - rewrite E in *. rewrite Hs, H0. unfold Rdiv. ring.
Qed.

Lemma wli_1 : wli 1 = (length cw - 1)%nat.
Proof.
  assert (nth (length cw - 1) cw 0 <= 1 * last cw 0) as L by (rewrite last_nth; lra).
  apply (count_split cw _ (length cw - 1) Hcw) in L; [|lia]. pose proof (wli_bound 1).
  unfold wli in *. lia.
Qed.

Lemma wq_1 : wq d cw 1 = nth (length d - 1) d 0.
Proof.
  destruct (wq_cases 1 ltac:(lra)) as [(_ & ->)|[(E & _)|(E & _)]].
  - rewrite wli_1. now rewrite Hlen.
  - rewrite close_one in E. discriminate.
  - rewrite close_one in E. discriminate.
Qed.

Lemma wq_mono q1 q2 :
  0 <= q1 -> q1 <= q2 -> q2 < 1 - / 100000 - / 100000000 \/ q2 = 1 -> wq d cw q1 <= wq d cw q2.
Proof.
  intros Ha H12 Hb.
  destruct Hb as [Hb| ->]; [|rewrite wq_1; apply wq_range; lra].
  assert (close_to_one q1 = false) as E1 by (apply close_lt'; lra).
  assert (close_to_one q2 = false) as E2 by (apply close_lt'; lra).
  pose proof (wli_mono q1 q2 Ha H12) as Hm.
  destruct (wq_cases q1 ltac:(lra)) as [(E & _)|[(_ & Hn & _ & R1)|(_ & I1 & s1 & S1 & D1 & R1)]]; [congruence| |].
  - destruct (wq_cases q2 ltac:(lra)) as [(E & _)|[(_ & _ & _ & R2)|(_ & I2 & _)]]; [congruence|lra|lia].
  - destruct (wq_cases q2 ltac:(lra)) as [(E & _)|[(_ & Hn & _)|(_ & I2 & s2 & S2 & D2 & R2)]]; [congruence|lia|].
    rewrite R1, R2. destruct (Nat.eq_dec (wli q1) (wli q2)) as [E|Hne].
    + assert (nth (wli q2) d 0 <= nth (wli q2 + 1) d 0) by (apply ss_le_nth; auto; lia).
      assert (s1 <= s2).
      { rewrite D1, D2, E. apply Rmult_le_compat_r.
        - left. apply Rinv_0_lt_compat.
          assert (nth (wli q2) cw 0 < nth (wli q2 + 1) cw 0) by (apply (ss_nth Rlt); auto; lia). lra.
        - pose proof total_nonneg. assert (q1 * last cw 0 <= q2 * last cw 0) by (apply Rmult_le_compat_r; lra). lra. }
      rewrite E. nra.
    + assert (nth (wli q1) d 0 <= nth (wli q1 + 1) d 0) by (apply ss_le_nth; auto; lia).
      assert (nth (wli q1 + 1) d 0 <= nth (wli q2) d 0) by (apply ss_le_nth; auto; lia).
      assert (nth (wli q2) d 0 <= nth (wli q2 + 1) d 0) by (apply ss_le_nth; auto; lia).
      nra.
Qed.

(** the pieces of the model compute [wq] *)
Lemma wq_li_eq q : 0 <= q -> wq_li cw q = Z.of_nat (wli q).
Proof. intros Hq. unfold wq_li, searchsorted_right, wli. pose proof (count_pos q Hq). lia. Qed.

Lemma wq_ri_eq q : 0 <= q -> wq_ri cw q = Z.of_nat (if close_to_one q then wli q else wli q + 1)%nat.
Proof. intros Hq. unfold wq_ri. rewrite (wq_li_eq q Hq). destruct (close_to_one q); lia. Qed.

Definition wdn (q : R) : R := if close_to_one q then 1 else nth (wli q + 1) cw 0 - nth (wli q) cw 0.

Lemma wq_dn_some q : 0 <= q -> close_to_one q = true \/ (wli q + 1 < length cw)%nat ->
  wq_dn cw q = Some (wdn q).
Proof.
  intros Hq Hc. unfold wq_dn, wdn. rewrite (wq_ri_eq q Hq), (wq_li_eq q Hq).
  pose proof (wli_bound q). destruct (close_to_one q) eqn:E.
  - now rewrite py_get_nat by lia.
  - destruct Hc as [|Hc]; [discriminate|]. now rewrite !py_get_nat by lia.
Qed.

Lemma wq_dn_none q : 0 <= q -> close_to_one q = false -> (wli q + 1 = length cw)%nat ->
  wq_dn cw q = None.
Proof.
  intros Hq E Hc. unfold wq_dn. rewrite (wq_ri_eq q Hq), E, py_get_out by lia. reflexivity.
Qed.

Lemma wq_at_some q : 0 <= q <= 1 -> close_to_one q = true \/ (wli q + 1 < length cw)%nat ->
  wq_at d cw q (wdn q) = Some (wq d cw q).
Proof.
  intros Hq Hc. unfold wq_at, wdn. rewrite (wq_ri_eq q), (wq_li_eq q) by lra.
  pose proof (wli_bound q). unfold wq. fold (wli q). destruct (close_to_one q) eqn:E.
  - rewrite !py_get_nat by lia. f_equal. unfold Rdiv. rewrite Rminus_diag_eq by reflexivity. ring.
  - destruct Hc as [|Hc]; [discriminate|]. rewrite !py_get_nat by lia.
    assert ((length d <=? wli q + 1)%nat = false) as -> by (apply Nat.leb_gt; lia). reflexivity.
Qed.

Lemma np_quantile_single qs : length d = 1%nat -> Forall (fun q => 0 <= q <= 1) qs ->
  np_quantile d qs = Ok (map (wq d cw) qs).
Proof.
  intros H1 Hq. unfold np_quantile.
  assert (forallb (fun q => Rleb 0 q && Rleb q 1) qs = true) as ->.
  { apply forallb_forall. rewrite Forall_forall in Hq. intros q Hin. apply Hq in Hin.
    apply andb_true_intro. split; apply Rleb_true; lra. }
  f_equal. apply map_ext_in. intros q Hin. rewrite Forall_forall in Hq. apply Hq in Hin.
  pose proof (wq_range q Hin) as Hr. rewrite H1 in Hr. cbn [Nat.sub] in Hr.
  unfold quantile_sorted. rewrite H1. cbn [Nat.sub INR]. rewrite Rmult_0_r.
  assert (Rfloor 0 = 0%Z) as ->.
  { unfold Rfloor. pose proof (archimed 0) as [A B]. assert (up 0 = 1%Z); [|lia].
    rewrite Rminus_0_r in B. apply lt_IZR in A. apply le_IZR in B. lia. }
  cbn [Z.to_nat Nat.add Nat.min]. lra.
Qed.
End Quantile.

(** * the whole function *)
Definition kept (argsort : list (R * R) -> list (R * R)) (dw : list (R * R)) (t : R) : list (R * R) :=
  filter (fun p => Rgtb (snd p) t) (argsort dw).

Section Whole.
Variables (argsort : list (R * R) -> list (R * R)) (dw : list (R * R)) (t : R).
Hypothesis Hsort : sorts argsort.
Hypothesis Ht : 0 <= t.
Hypothesis Hex : exists x, included dw t x.
Let s := kept argsort dw t.
Let d := map fst s.
Let cw := cw_of (map snd s).

Lemma kept_in p : In p s <-> In p dw /\ t < snd p.
Proof.
  unfold s, kept. rewrite filter_In. destruct (Hsort dw) as [Hp _].
  split; intros [A B]; split.
  - now apply (Permutation_in p Hp).
  - now apply Rltb_true in B.
  - now apply (Permutation_in p (Permutation_sym Hp)).
  - now apply Rltb_true.
Qed.

Lemma kept_included x : In x d <-> included dw t x.
Proof.
  unfold d. rewrite in_map_iff. split.
  - intros (p & <- & Hp). apply kept_in in Hp. exists (snd p). now rewrite <- surjective_pairing.
  - intros (w & Hw & Hlt). exists (x, w). split; [reflexivity|]. apply kept_in. auto.
Qed.

Lemma kept_pos : (0 < length s)%nat.
Proof.
  destruct Hex as (x & w & Hw & Hlt). assert (In (x, w) s) as Hin by (apply kept_in; auto).
  destruct s; [contradiction|cbn [length]; lia].
Qed.

Lemma kept_weights y : In y (map snd s) -> 0 < y.
Proof. rewrite in_map_iff. intros (p & <- & Hp). apply kept_in in Hp. lra. Qed.

Lemma d_sorted : StronglySorted Rle d.
Proof. apply ss_map, ss_filter, Hsort. Qed.
Lemma d_len : length d = length cw.
Proof. unfold d, cw. now rewrite cw_length, !map_length. Qed.
Lemma d_pos : (0 < length d)%nat.
Proof. unfold d. rewrite map_length. apply kept_pos. Qed.
Lemma cw_ss : StronglySorted Rlt cw.
Proof. apply cw_sorted, kept_weights. Qed.
Lemma cw_0 : nth 0 cw 0 = 0.
Proof. apply cw_first. rewrite map_length. apply kept_pos. Qed.

Lemma wq_whole qs : Forall (fun q => 0 <= q <= 1) qs ->
  weighted_quantile argsort dw qs t = Ok (map (wq d cw) qs).
Proof.
  intros Hq. unfold weighted_quantile. fold (kept argsort dw t). fold s. fold d.
  pose proof kept_pos as Hp. pose proof d_len as Hl. pose proof d_pos as Hdp.
  pose proof cw_ss as Hss. pose proof cw_0 as Hc0. pose proof d_sorted as Hds.
  assert (cw = cw_of (map snd s)) as Hcw by reflexivity. clearbody cw. destruct (map snd s) as [|w0 w] eqn:Ew.
  { apply (f_equal (@length R)) in Ew. rewrite map_length in Ew. cbn [length] in Ew. lia. }
  change (map (fun c => c - w0) (cumsum (w0 :: w))) with (cw_of (w0 :: w)). rewrite <- Hcw.
  rewrite Forall_forall in Hq.
  destruct (Nat.eq_dec (length cw) 1) as [E1|Hn].
  - (* one datum *)
    destruct (existsb (fun q => negb (close_to_one q)) qs) eqn:Ex.
    + apply existsb_exists in Ex. destruct Ex as (q & Hin & Hc). apply negb_true_iff in Hc.
      rewrite (all_some_none _ _ q Hin).
      * apply np_quantile_single; [exact Hl|exact Hdp|exact Hss|exact Hc0|exact Hds|lia|].
        now rewrite Forall_forall.
      * apply (wq_dn_none d); auto; [apply Hq in Hin; lra|].
        pose proof (wli_bound d cw Hl Hdp q). lia.
    + assert (forall q, In q qs -> close_to_one q = true) as Hc.
      { intros q Hin. destruct (close_to_one q) eqn:E; [reflexivity|]. exfalso.
        assert (existsb (fun q => negb (close_to_one q)) qs = true); [|congruence].
        apply existsb_exists. exists q. now rewrite E. }
      rewrite (all_some_map _ (wdn cw)).
      * rewrite combine_map_r, map_map. cbn [fst snd]. rewrite (all_some_map _ (wq d cw)); [reflexivity|].
        intros q Hin. apply wq_at_some; auto.
      * intros q Hin. apply (wq_dn_some d); auto. apply Hq in Hin. lra.
  - assert (forall q, In q qs -> close_to_one q = true \/ (wli cw q + 1 < length cw)%nat) as Hc.
    { intros q Hin. destruct (close_to_one q) eqn:E; [now left|]. right. apply Hq in Hin.
      pose proof (close_lt q Hin E). pose proof (wli_bound d cw Hl Hdp q).
      destruct (Nat.eq_dec (wli cw q + 1) (length cw)) as [Ee|]; [|lia].
      exfalso. apply Hn. apply (wli_last d cw Hl Hdp Hss Hc0 q); [lra|exact Ee]. }
    rewrite (all_some_map _ (wdn cw)).
    + rewrite combine_map_r, map_map. cbn [fst snd]. rewrite (all_some_map _ (wq d cw)); [reflexivity|].
      intros q Hin. apply wq_at_some; auto.
    + intros q Hin. apply (wq_dn_some d); auto. apply Hq in Hin. lra.
Qed.
End Whole.
