(** Lemmas about simple_take. *)
From Coq Require Import Sorting.Permutation Sorting.Sorted Lia.
From Verif Require Import Base M_Translate M_Mapper M_Data S_Data L_Data.
Local Open Scope Z_scope.

Lemma set_nth_length {A} k (v : A) l : length (set_nth k v l) = length l.
Proof.
  revert k. induction l as [|x l IH]; intros [|k]; cbn [set_nth length]; auto.
Qed.

Lemma nth_set_nth {A} k (v : A) l i d :
  (k < length l)%nat -> nth i (set_nth k v l) d = if (i =? k)%nat then v else nth i l d.
Proof.
  revert k i. induction l as [|x l IH]; intros [|k] [|i] H; cbn [length] in H; try lia; cbn [set_nth nth Nat.eqb];
    try reflexivity.
  rewrite IH by lia. reflexivity.
Qed.

(** * slices *)
Lemma progression_sorted_up a s (Hs : 0 < s) m k :
  StronglySorted Z.lt (map (fun k => a + Z.of_nat k * s) (seq k m)).
Proof.
  revert k. induction m as [|m IH]; intros k; cbn [seq map]; [constructor|]. constructor; [apply IH|].
  rewrite Forall_forall. intros x Hx. apply in_map_iff in Hx. destruct Hx as (y & <- & Hy).
  apply in_seq in Hy. nia.
Qed.

Lemma progression_sorted_down a s (Hs : s < 0) m k :
  StronglySorted Z.gt (map (fun k => a + Z.of_nat k * s) (seq k m)).
Proof.
  revert k. induction m as [|m IH]; intros k; cbn [seq map]; [constructor|]. constructor; [apply IH|].
  rewrite Forall_forall. intros x Hx. apply in_map_iff in Hx. destruct Hx as (y & <- & Hy).
  apply in_seq in Hy. nia.
Qed.

Lemma progression_in_up a b s i : 0 < s ->
  (In i (map (fun k => a + Z.of_nat k * s) (seq 0 (Z.to_nat ((b - a + s - 1) / s)))) <->
   a <= i < b /\ (i - a) mod s = 0).
Proof.
  intros Hs. rewrite in_map_iff. split.
  - intros (k & <- & Hk). apply in_seq in Hk.
    assert (Z.of_nat k < (b - a + s - 1) / s) as Hk2 by lia.
    pose proof (Z.mul_div_le (b - a + s - 1) s Hs) as M.
    split; [nia|]. replace (a + Z.of_nat k * s - a) with (Z.of_nat k * s) by ring. apply Z_mod_mult.
  - intros (Hi & Hm). apply Z.mod_divide in Hm; [|lia]. destruct Hm as (q & Hq).
    exists (Z.to_nat q). assert (0 <= q) by nia. split; [rewrite Z2Nat.id by lia; lia|].
    apply in_seq. split; [lia|]. cbn [Nat.add]. apply Z2Nat.inj_lt; try lia.
    + apply Z.div_pos; lia.
    + apply Z.lt_le_trans with (q + 1); [lia|]. apply Z.div_le_lower_bound; nia.
Qed.

Lemma progression_in_down a b s i : s < 0 ->
  (In i (map (fun k => a + Z.of_nat k * s) (seq 0 (Z.to_nat ((a - b - s - 1) / (- s))))) <->
   b < i <= a /\ (a - i) mod (- s) = 0).
Proof.
  intros Hs. rewrite in_map_iff. split.
  - intros (k & <- & Hk). apply in_seq in Hk.
    assert (Z.of_nat k < (a - b - s - 1) / (- s)) as Hk2 by lia.
    pose proof (Z.mul_div_le (a - b - s - 1) (- s) ltac:(lia)) as M.
    split; [nia|]. replace (a - (a + Z.of_nat k * s)) with (Z.of_nat k * (- s)) by ring. apply Z_mod_mult.
  - intros (Hi & Hm). apply Z.mod_divide in Hm; [|lia]. destruct Hm as (q & Hq).
    exists (Z.to_nat q). assert (0 <= q) by nia. split; [rewrite Z2Nat.id by lia; lia|].
    apply in_seq. split; [lia|]. cbn [Nat.add]. apply Z2Nat.inj_lt; try lia.
    + apply Z.div_pos; lia.
    + apply Z.lt_le_trans with (q + 1); [lia|]. apply Z.div_le_lower_bound; nia.
Qed.

Lemma slice_bound_up n v : 0 <= n -> slice_bound n false v = Z.min (Z.max (wrapped n v) 0) n.
Proof.
  intros Hn. unfold slice_bound, wrapped. cbv zeta iota. destruct (v <? 0) eqn:E.
  - apply Z.ltb_lt in E. lia.
  - apply Z.ltb_ge in E. lia.
Qed.
Lemma slice_bound_down n v : 0 <= n -> slice_bound n true v = Z.min (Z.max (wrapped n v) (-1)) (n - 1).
Proof.
  intros Hn. unfold slice_bound, wrapped. cbv zeta iota. destruct (v <? 0) eqn:E.
  - apply Z.ltb_lt in E. lia.
  - apply Z.ltb_ge in E. lia.
Qed.

Lemma slice_chosen n a b c l : 0 <= n -> slice_indices n a b c = Ok l -> chosen (TSlice a b c) n l.
Proof.
  intros Hn. unfold slice_indices, chosen.
  set (s := match c with Some s => s | None => 1 end).
  destruct (s =? 0) eqn:E0; [discriminate|]. apply Z.eqb_neq in E0.
  destruct (s <? 0) eqn:Es.
  - apply Z.ltb_lt in Es. assert (0 <? s = false) as -> by (apply Z.ltb_ge; lia).
    intros H. injection H as <-.
    set (a' := match a with Some v => slice_bound n true v | None => n - 1 end).
    set (b' := match b with Some v => slice_bound n true v | None => -1 end).
    set (A := match a with Some v => wrapped n v | None => n - 1 end).
    set (B := match b with Some v => wrapped n v | None => -1 end).
    assert (a' = Z.min (Z.max A (-1)) (n - 1)) as Ea.
    { unfold a', A. destruct a; [now apply slice_bound_down|lia]. }
    assert (b' = Z.min (Z.max B (-1)) (n - 1)) as Eb.
    { unfold b', B. destruct b; [now apply slice_bound_down|lia]. }
    clearbody a' b' A B. split; [apply progression_sorted_down; exact Es|].
    intros i. rewrite (progression_in_down a' b' s i Es). split.
    + intros (Hi & Hm). replace (Z.min A (n - 1)) with a' by lia. repeat split; try lia.
    + intros (Hi & Hin & Hm). replace a' with (Z.min A (n - 1)) by lia. split; [lia|exact Hm].
  - apply Z.ltb_ge in Es. assert (0 <? s = true) as -> by (apply Z.ltb_lt; lia).
    intros H. injection H as <-.
    set (a' := match a with Some v => slice_bound n false v | None => 0 end).
    set (b' := match b with Some v => slice_bound n false v | None => n end).
    set (A := match a with Some v => wrapped n v | None => 0 end).
    set (B := match b with Some v => wrapped n v | None => n end).
    assert (a' = Z.min (Z.max A 0) n) as Ea.
    { unfold a', A. destruct a; [now apply slice_bound_up|lia]. }
    assert (b' = Z.min (Z.max B 0) n) as Eb.
    { unfold b', B. destruct b; [now apply slice_bound_up|lia]. }
    clearbody a' b' A B. split; [apply progression_sorted_up; lia|].
    intros i. rewrite (progression_in_up a' b' s i ltac:(lia)). split.
    + intros (Hi & Hm). replace (Z.max A 0) with a' by lia. repeat split; try lia.
    + intros (Hi & Hin & Hm). replace a' with (Z.max A 0) by lia. split; [lia|exact Hm].
Qed.

Lemma slice_in_range n a b c l : 0 <= n -> slice_indices n a b c = Ok l -> Forall (fun i => 0 <= i < n) l.
Proof.
  intros Hn H. apply slice_chosen in H; [|exact Hn]. unfold chosen in H. rewrite Forall_forall. intros i Hi.
  destruct (0 <? _); destruct H as [_ H]; apply H in Hi; tauto.
Qed.

(** * np.take *)
Lemma np_index_range n i k : np_index n i = Some k -> 0 <= k < n /\ k = wrapped n i.
Proof.
  unfold np_index, wrapped. destruct ((0 <=? i) && (i <? n)) eqn:E.
  - apply andb_true_iff in E. destruct E as [E1 E2]. apply Z.leb_le in E1. apply Z.ltb_lt in E2.
    intros H. injection H as <-. split; [lia|]. destruct (i <? 0) eqn:E; [apply Z.ltb_lt in E; lia|reflexivity].
  - destruct ((- n <=? i) && (i <? 0)) eqn:E'; [|discriminate].
    apply andb_true_iff in E'. destruct E' as [E1 E2]. apply Z.leb_le in E1. apply Z.ltb_lt in E2.
    intros H. injection H as <-. split; [lia|]. destruct (i <? 0) eqn:E3; [reflexivity|apply Z.ltb_ge in E3; lia].
Qed.

Lemma all_some_index n ind sel : all_some (map (np_index n) ind) = Some sel ->
  sel = map (wrapped n) ind /\ Forall (fun i => 0 <= i < n) sel.
Proof.
  revert sel. induction ind as [|i ind IH]; cbn [map all_some]; intros sel H.
  - injection H as <-. auto.
  - destruct (np_index n i) as [k|] eqn:E; [|discriminate].
    destruct (all_some (map (np_index n) ind)) as [l|]; [|discriminate]. injection H as <-.
    destruct (IH l eq_refl) as [-> H2]. apply np_index_range in E. destruct E as [E1 ->].
    split; [reflexivity|]. constructor; assumption.
Qed.

Lemma wrapped_id n l : Forall (fun i => 0 <= i < n) l -> map (wrapped n) l = l.
Proof.
  induction 1 as [|i l Hi _ IH]; [reflexivity|]. cbn [map]. rewrite IH. f_equal.
  unfold wrapped. destruct (i <? 0) eqn:E; [apply Z.ltb_lt in E; lia|reflexivity].
Qed.

Definition pick (idx : list Z) (sels : list (list Z)) : list Z :=
  map (fun p => nth (Z.to_nat (fst p)) (snd p) 0) (combine idx sels).

Lemma nth_iota m i : 0 <= i < Z.of_nat m -> nth (Z.to_nat i) (map Z.of_nat (seq 0 m)) 0 = i.
Proof.
  intros H. rewrite (nth_indep _ 0 (Z.of_nat 0)) by (rewrite map_length, seq_length; lia).
  rewrite map_nth, seq_nth by lia. lia.
Qed.

Lemma nth_lengths k (sels : list (list Z)) :
  nth k (map (fun s : list Z => Z.of_nat (length s)) sels) 0 = Z.of_nat (length (nth k sels [])).
Proof. exact (map_nth (fun s : list Z => Z.of_nat (length s)) sels [] k). Qed.

(** one axis *)
Lemma take_one_spec {A} (ar r : ndarray A) s j :
  0 <= j < Z.of_nat (length (nd_shape ar)) -> (forall n, In n (nd_shape ar) -> 0 <= n) ->
  take_one ar s j = Ok r ->
  exists sel, chosen s (nth (Z.to_nat j) (nd_shape ar) 0) sel /\
    Forall (fun i => 0 <= i < nth (Z.to_nat j) (nd_shape ar) 0) sel /\
    nd_shape r = set_nth (Z.to_nat j) (Z.of_nat (length sel)) (nd_shape ar) /\
    forall idx, length idx = length (nd_shape ar) ->
      inside (nd_shape r) idx ->
      nd_at r idx = nd_at ar (set_nth (Z.to_nat j) (nth (Z.to_nat (nth (Z.to_nat j) idx 0)) sel 0) idx).
Proof.
  intros Hj Hnn H.
  assert (np_index (Z.of_nat (length (nd_shape ar))) j = Some j) as Ej.
  { unfold np_index. assert (0 <=? j = true) as -> by (apply Z.leb_le; lia).
    assert (j <? Z.of_nat (length (nd_shape ar)) = true) as -> by (apply Z.ltb_lt; lia). reflexivity. }
  set (n := nth (Z.to_nat j) (nd_shape ar) 0) in *.
  assert (0 <= n) as Hn by (apply Hnn, nth_In; lia).
  assert (forall ind r', np_take ar ind j = Ok r' ->
            Forall (fun i => 0 <= i < n) (map (wrapped n) ind) /\
            nd_shape r' = set_nth (Z.to_nat j) (Z.of_nat (length (map (wrapped n) ind))) (nd_shape ar) /\
            forall idx, nd_at r' idx = nd_at ar (set_nth (Z.to_nat j)
               (nth (Z.to_nat (nth (Z.to_nat j) idx 0)) (map (wrapped n) ind) 0) idx)) as Htake.
  { intros ind r' Ht. unfold np_take in Ht. rewrite Ej in Ht. fold n in Ht.
    destruct (all_some (map (np_index n) ind)) as [sel|] eqn:Es; [|discriminate].
    apply all_some_index in Es. destruct Es as [-> Hr]. injection Ht as <-. auto. }
  destruct s as [|a b c|l]; cbn [take_one] in H.
  - injection H as <-. exists (map Z.of_nat (seq 0 (Z.to_nat n))). split; [reflexivity|]. split; [|split].
    + rewrite Forall_forall. intros x Hx. apply in_map_iff in Hx. destruct Hx as (k & <- & Hk).
      apply in_seq in Hk. lia.
    + rewrite map_length, seq_length, Z2Nat.id by exact Hn. unfold n.
      symmetry. apply nth_ext with (d := 0) (d' := 0); [apply set_nth_length|]. intros i Hi.
      rewrite set_nth_length in Hi. rewrite nth_set_nth by lia.
      destruct (i =? Z.to_nat j)%nat eqn:E; [apply Nat.eqb_eq in E; now subst|reflexivity].
    + intros idx Hlen Hin. f_equal. symmetry.
      assert (0 <= nth (Z.to_nat j) idx 0 < n) as Hb.
      { clear - Hin Hj Hlen. unfold n. unfold inside in Hin.
        assert (forall k, (k < length (nd_shape ar))%nat -> 0 <= nth k idx 0 < nth k (nd_shape ar) 0) as H.
        { clear - Hin. induction Hin as [|x y l1 l2 Hxy _ IH]; intros k Hk; cbn [length] in Hk; [lia|].
          destruct k as [|k]; cbn [nth]; [exact Hxy|]. apply IH. lia. }
        apply H. lia. }
      replace (nth (Z.to_nat (nth (Z.to_nat j) idx 0)) (map Z.of_nat (seq 0 (Z.to_nat n))) 0)
        with (nth (Z.to_nat j) idx 0).
      * apply nth_ext with (d := 0) (d' := 0); [apply set_nth_length|]. intros i Hi.
        rewrite set_nth_length in Hi. rewrite nth_set_nth by lia.
        destruct (i =? Z.to_nat j)%nat eqn:E; [apply Nat.eqb_eq in E; now subst|reflexivity].
      * symmetry. apply nth_iota. lia.
  - rewrite Ej in H. fold n in H. destruct (slice_indices n a b c) as [l|e] eqn:Es; [|discriminate].
    cbn [bind] in H. apply Htake in H. destruct H as (H1 & H2 & H3).
    pose proof (slice_in_range n a b c l Hn Es) as Hr. rewrite (wrapped_id n l Hr) in *.
    exists l. split; [now apply slice_chosen|]. auto.
  - apply Htake in H. destruct H as (H1 & H2 & H3). exists (map (wrapped n) l).
    split; [split; auto|]. auto.
Qed.

Lemma Forall2_length {A B} (P : A -> B -> Prop) l1 l2 : Forall2 P l1 l2 -> length l1 = length l2.
Proof. induction 1; cbn [length]; auto. Qed.

Lemma inside_nth shape idx k : inside shape idx -> (k < length shape)%nat -> 0 <= nth k idx 0 < nth k shape 0.
Proof.
  intros H. revert k. induction H as [|x y l1 l2 Hxy _ IH]; intros k Hk; cbn [length] in Hk; [lia|].
  destruct k as [|k]; cbn [nth]; [exact Hxy|]. apply IH. lia.
Qed.

Lemma nth_pick idx sels k : length idx = length sels ->
  (k < length sels)%nat -> nth k (pick idx sels) 0 = nth (Z.to_nat (nth k idx 0)) (nth k sels []) 0.
Proof.
  intros Hl Hk. unfold pick.
  rewrite (nth_indep _ 0 ((fun p : Z * list Z => nth (Z.to_nat (fst p)) (snd p) 0) (0, [])))
    by (rewrite map_length, combine_length; lia).
  rewrite (map_nth (fun p : Z * list Z => nth (Z.to_nat (fst p)) (snd p) 0)), combine_nth by exact Hl. reflexivity.
Qed.

Lemma pick_length idx sels : length idx = length sels -> length (pick idx sels) = length sels.
Proof. intros H. unfold pick. rewrite map_length, combine_length. lia. Qed.

Lemma spec_for_absent d l : ~ In d (map snd l) -> spec_for d l = TNone.
Proof.
  induction l as [|[s j] l IH]; cbn [map snd In spec_for]; [reflexivity|]. intros H.
  destruct (j =? d) eqn:E; [apply Z.eqb_eq in E; tauto|]. apply IH. tauto.
Qed.

Lemma take_loop_spec {A} (l : list (take_spec * Z)) : forall (ar r : ndarray A),
  NoDup (map snd l) -> Forall (fun j => 0 <= j < Z.of_nat (length (nd_shape ar))) (map snd l) ->
  (forall n, In n (nd_shape ar) -> 0 <= n) ->
  take_loop ar l = Ok r ->
  exists sels : list (list Z),
    length sels = length (nd_shape ar) /\
    (forall d, (d < length (nd_shape ar))%nat ->
       chosen (spec_for (Z.of_nat d) l) (nth d (nd_shape ar) 0) (nth d sels []) /\
       Forall (fun i => 0 <= i < nth d (nd_shape ar) 0) (nth d sels [])) /\
    nd_shape r = map (fun s => Z.of_nat (length s)) sels /\
    (forall idx, inside (nd_shape r) idx -> nd_at r idx = nd_at ar (pick idx sels)).
Proof.
  induction l as [|[s j] l IH]; intros ar r Hnd Hax Hnn H; cbn [take_loop] in H.
  - injection H as <-.
    exists (map (fun n => map Z.of_nat (seq 0 (Z.to_nat n))) (nd_shape ar)).
    assert (forall d, (d < length (nd_shape ar))%nat ->
       nth d (map (fun n => map Z.of_nat (seq 0 (Z.to_nat n))) (nd_shape ar)) [] =
       map Z.of_nat (seq 0 (Z.to_nat (nth d (nd_shape ar) 0)))) as Hn.
    { intros d Hd.
      rewrite (nth_indep _ [] ((fun n => map Z.of_nat (seq 0 (Z.to_nat n))) 0)) by (now rewrite map_length).
      now rewrite (map_nth (fun n => map Z.of_nat (seq 0 (Z.to_nat n)))). }
    split; [now rewrite map_length|]. split; [|split].
    + intros d Hd. rewrite (Hn d Hd). split; [reflexivity|]. rewrite Forall_forall. intros x Hx.
      apply in_map_iff in Hx. destruct Hx as (k & <- & Hk). apply in_seq in Hk. lia.
    + rewrite map_map. rewrite <- (map_id (nd_shape ar)) at 1. apply map_ext_in. intros n Hin.
      rewrite map_length, seq_length. specialize (Hnn n Hin). lia.
    + intros idx Hin. f_equal.
      assert (length idx = length (nd_shape ar)) as Hlen by (symmetry; apply (Forall2_length _ _ _ Hin)).
      apply nth_ext with (d := 0) (d' := 0); [rewrite pick_length; rewrite map_length; auto|].
      intros k Hk. rewrite nth_pick by (rewrite map_length; lia). rewrite Hn by lia.
      pose proof (inside_nth _ _ k Hin ltac:(lia)) as Hb.
      symmetry. apply nth_iota. lia.
  - destruct (take_one ar s j) as [ar'|e] eqn:E1; [|discriminate]. cbn [bind] in H.
    cbn [map snd] in Hnd, Hax. inversion Hnd as [|? ? Hj Hnd']; subst. inversion Hax as [|? ? Hjr Hax']; subst.
    destruct (take_one_spec ar ar' s j Hjr Hnn E1) as (sel & Hc & Hr & Hsh & Hat).
    assert (length (nd_shape ar') = length (nd_shape ar)) as Hl' by (rewrite Hsh; apply set_nth_length).
    destruct (IH ar' r Hnd') as (sels & Hls & Hch & Hshr & Hatr); auto.
    { now rewrite Hl'. }
    { intros n Hn. apply (In_nth _ _ 0) in Hn. destruct Hn as (i & Hi & <-). rewrite Hl' in Hi. rewrite Hsh.
      rewrite nth_set_nth by lia. destruct (i =? Z.to_nat j)%nat; [lia|]. apply Hnn, nth_In, Hi. }
    rewrite Hl' in *.
    assert (nth (Z.to_nat j) sels [] = map Z.of_nat (seq 0 (length sel))) as Esel.
    { destruct (Hch (Z.to_nat j) ltac:(lia)) as [Hcj _]. rewrite Z2Nat.id in Hcj by lia.
      rewrite spec_for_absent in Hcj by exact Hj. cbn [chosen] in Hcj. rewrite Hcj.
      rewrite Hsh, nth_set_nth, Nat.eqb_refl, Nat2Z.id by lia. reflexivity. }
    exists (set_nth (Z.to_nat j) sel sels).
    split; [now rewrite set_nth_length|]. split; [|split].
    + intros d Hd. rewrite nth_set_nth by lia. cbn [spec_for].
      destruct (d =? Z.to_nat j)%nat eqn:Ed.
      * apply Nat.eqb_eq in Ed. subst d. rewrite Z2Nat.id, Z.eqb_refl by lia. auto.
      * apply Nat.eqb_neq in Ed. assert (j =? Z.of_nat d = false) as -> by (apply Z.eqb_neq; lia).
        destruct (Hch d Hd) as [Ha Hb]. rewrite Hsh, nth_set_nth in Ha, Hb by lia.
        apply Nat.eqb_neq in Ed. rewrite Ed in Ha, Hb. auto.
    + rewrite Hshr. apply nth_ext with (d := Z.of_nat (length (@nil Z))) (d' := Z.of_nat (length (@nil Z))).
      * now rewrite !map_length, set_nth_length.
      * intros i Hi. rewrite map_length in Hi.
        rewrite !(map_nth (fun s : list Z => Z.of_nat (length s))), nth_set_nth by lia.
        destruct (i =? Z.to_nat j)%nat eqn:Ei; [|reflexivity]. apply Nat.eqb_eq in Ei. subst i.
        rewrite Esel, map_length, seq_length. reflexivity.
    + intros idx Hin. rewrite (Hatr idx Hin).
      assert (length idx = length sels) as Hlen.
      { rewrite <- (Forall2_length _ _ _ Hin), Hshr. apply map_length. }
      pose proof (pick_length idx sels Hlen) as Hpl.
      assert (nth (Z.to_nat j) (pick idx sels) 0 = nth (Z.to_nat j) idx 0 /\
              0 <= nth (Z.to_nat j) idx 0 < Z.of_nat (length sel)) as [Ej Hbj].
      { assert (0 <= nth (Z.to_nat j) idx 0 < Z.of_nat (length sel)) as Hb.
        { pose proof (inside_nth _ _ (Z.to_nat j) Hin) as Hb. rewrite Hshr in Hb.
          rewrite map_length in Hb. specialize (Hb ltac:(lia)).
          rewrite nth_lengths, Esel, map_length, seq_length in Hb. exact Hb. }
        split; [|exact Hb]. rewrite nth_pick, Esel by lia.
        now apply nth_iota. }
      rewrite Hat.
      * f_equal. apply nth_ext with (d := 0) (d' := 0).
        { rewrite set_nth_length, !pick_length; rewrite ?set_nth_length; auto. }
        intros i Hi. rewrite set_nth_length, Hpl in Hi.
        rewrite nth_set_nth by lia. rewrite (nth_pick idx (set_nth (Z.to_nat j) sel sels)) by (rewrite set_nth_length; lia).
        rewrite nth_set_nth by lia. destruct (i =? Z.to_nat j)%nat eqn:Ei.
        -- apply Nat.eqb_eq in Ei. subst i. now rewrite Ej.
        -- rewrite nth_pick by lia. reflexivity.
      * lia.
      * unfold inside. rewrite Hsh.
        assert (forall (P : Z -> Z -> Prop) l1 l2, length l1 = length l2 ->
                  (forall i, (i < length l1)%nat -> P (nth i l1 0) (nth i l2 0)) -> Forall2 P l1 l2) as HF.
        { clear. intros P l1. induction l1 as [|x l1 IH]; intros [|y l2] Hl H; cbn [length] in Hl; try lia; constructor.
          - apply (H 0%nat). cbn. lia.
          - apply IH; [lia|]. intros i Hi. apply (H (S i)). cbn. lia. }
        apply HF; rewrite set_nth_length; [lia|].
        intros i Hi. rewrite nth_set_nth by lia. destruct (i =? Z.to_nat j)%nat eqn:Ei.
        -- apply Nat.eqb_eq in Ei. subst i. now rewrite Ej.
        -- rewrite nth_pick by lia.
           destruct (Hch i ltac:(lia)) as [_ Hb]. rewrite Hsh, nth_set_nth, Ei in Hb by lia.
           rewrite Forall_forall in Hb. apply Hb, nth_In.
           pose proof (inside_nth _ _ i Hin) as Hbi. rewrite Hshr in Hbi.
           rewrite map_length in Hbi. specialize (Hbi ltac:(lia)).
           rewrite nth_lengths in Hbi. lia.
Qed.

Lemma map_snd_combine {A B} (l1 : list A) (l2 : list B) :
  map snd (combine l1 l2) = firstn (length l1) l2.
Proof.
  revert l2. induction l1 as [|a l1 IH]; intros [|b l2]; cbn [combine map snd length firstn]; auto.
  now rewrite IH.
Qed.

Lemma NoDup_firstn {A} n (l : list A) : NoDup l -> NoDup (firstn n l).
Proof.
  intros H. revert n. induction H as [|a l Ha _ IH]; intros [|n]; cbn [firstn]; try constructor.
  - intros C. apply Ha. rewrite <- (firstn_skipn n l). apply in_or_app. now left.
  - apply IH.
Qed.

Definition axes_of (slices : list take_spec) (axes : option (list Z)) : list Z :=
  match axes with None => map Z.of_nat (seq 0 (length slices)) | Some l => l end.

Lemma simple_take_spec {A} (ar r : ndarray A) slices axes :
  NoDup (axes_of slices axes) ->
  Forall (fun j => 0 <= j < Z.of_nat (length (nd_shape ar))) (axes_of slices axes) ->
  Forall (fun n => 0 <= n) (nd_shape ar) ->
  simple_take ar slices axes = Ok r ->
  exists sels : list (list Z),
    length sels = length (nd_shape ar) /\
    (forall d, (d < length (nd_shape ar))%nat ->
       chosen (spec_for (Z.of_nat d) (combine slices (axes_of slices axes)))
              (nth d (nd_shape ar) 0) (nth d sels [])) /\
    nd_shape r = map (fun s => Z.of_nat (length s)) sels /\
    (forall idx, inside (nd_shape r) idx ->
       nd_at r idx = nd_at ar (map (fun p => nth (Z.to_nat (fst p)) (snd p) 0) (combine idx sels))).
Proof.
  intros Hnd Hax Hnn H. rewrite Forall_forall in Hnn, Hax.
  destruct (take_loop_spec (combine slices (axes_of slices axes)) ar r) as (sels & H1 & H2 & H3 & H4); auto.
  - rewrite map_snd_combine. now apply NoDup_firstn.
  - rewrite map_snd_combine, Forall_forall. intros j Hj. apply Hax.
    rewrite <- (firstn_skipn (length slices)). apply in_or_app. now left.
  - exists sels. split; [exact H1|]. split; [|split; [exact H3|exact H4]].
    intros d Hd. apply H2, Hd.
Qed.

(** an index outside the axis is an error *)
Lemma all_some_is_none {A B} (f : A -> option B) l :
  all_some (map f l) = None <-> exists a, In a l /\ f a = None.
Proof.
  split.
  - induction l as [|a l IH]; cbn [map all_some]; [discriminate|]. destruct (f a) eqn:E; [|exists a; cbn; auto].
    destruct (all_some (map f l)) eqn:E2; [discriminate|]. intros _. destruct (IH eq_refl) as (x & Hx & Ex).
    exists x. cbn [In]. auto.
  - intros (a & Ha & E). eapply all_some_none; eassumption.
Qed.

Lemma simple_take_error {A} (ar : ndarray A) v j :
  0 <= j < Z.of_nat (length (nd_shape ar)) ->
  let n := nth (Z.to_nat j) (nd_shape ar) 0 in
  (simple_take ar [TSeq v] (Some [j]) = Raise IndexError <-> exists i, In i v /\ ~ (- n <= i < n)).
Proof.
  intros Hj n. unfold simple_take. cbn [combine take_loop take_one]. unfold np_take.
  assert (np_index (Z.of_nat (length (nd_shape ar))) j = Some j) as ->.
  { unfold np_index. assert (0 <=? j = true) as -> by (apply Z.leb_le; lia).
    assert (j <? Z.of_nat (length (nd_shape ar)) = true) as -> by (apply Z.ltb_lt; lia). reflexivity. }
  fold n.
  assert (forall i, np_index n i = None <-> ~ (- n <= i < n)) as Hnone.
  { intros i. unfold np_index. destruct ((0 <=? i) && (i <? n)) eqn:E.
    - apply andb_true_iff in E. destruct E as [E1 E2]. apply Z.leb_le in E1. apply Z.ltb_lt in E2.
      split; [discriminate|lia].
    - destruct ((- n <=? i) && (i <? 0)) eqn:E'.
      + apply andb_true_iff in E'. destruct E' as [E1 E2]. apply Z.leb_le in E1. apply Z.ltb_lt in E2.
        split; [discriminate|]. intros C. lia.
      + split; [|reflexivity]. intros _ C. apply andb_false_iff in E, E'.
        rewrite Z.leb_gt, Z.ltb_ge in E. rewrite Z.leb_gt, Z.ltb_ge in E'. lia. }
  destruct (all_some (map (np_index n) v)) eqn:Es; cbn [bind].
  - split; [discriminate|]. intros (i & Hi & Hout). apply Hnone in Hout.
    rewrite (all_some_none _ _ i Hi Hout) in Es. discriminate.
  - split; [|reflexivity]. intros _. apply all_some_is_none in Es. destruct Es as (i & Hi & E).
    exists i. split; [exact Hi|]. now apply Hnone.
Qed.
