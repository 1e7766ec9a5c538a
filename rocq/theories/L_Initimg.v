From Coq Require Import Ascii String Sorted Lra Lia FinFun.
From Verif Require Import Base L_Base M_Translate M_Mapper M_Header M_Initimg S_Mapper S_Rotate S_Transform S_Initimg L_Mapper L_Bins L_Rotate L_Transform L_Draw L_Construct2 L_Solid.
Import ListNotations.
Local Open Scope R_scope.

(** * labels *)
Lemma proj_names a p : names a p -> view_proj a = Ok (label p).
Proof. destruct 1; reflexivity. Qed.
Lemma proj_label p : view_proj (label p) = Ok (label p).
Proof. destruct p; reflexivity. Qed.
Lemma proj_any a : a <> [] -> exists p, view_proj a = Ok (label p).
Proof.
  intros N. unfold view_proj. assert (exists c, proj_char a = Ok c) as [c ->].
  { unfold proj_char. set (l := lower a). assert (l <> []) by (subst l; destruct a; [now elim N|discriminate]). destruct (str_eqb _ _).
    - destruct (rev l) eqn:E; [|eauto]. apply (f_equal (@rev _)) in E. rewrite rev_involutive in E. contradiction.
    - destruct l; [contradiction|eauto]. }
  cbn [bind]. destruct (_ || _); [now exists Equiangular|]. destruct (char_eqb _ _); [now exists Equisolid|now exists Square].
Qed.
Lemma init_label a p c show vm res pt f ix : view_proj a = Ok (label p) -> init_img c show vm res pt f a ix = init_img c show vm res pt f (label p) ix.
Proof. intros E. unfold init_img. rewrite E, proj_label. reflexivity. Qed.
Lemma init_names a p c show vm res pt f ix : names a p -> init_img c show vm res pt f a ix = init_img c show vm res pt f (label p) ix.
Proof. intros N. apply init_label. now apply proj_names. Qed.
Lemma init_any a c show vm res pt f ix : a <> [] -> exists p, init_img c show vm res pt f a ix = init_img c show vm res pt f (label p) ix.
Proof. intros N. destruct (proj_any a N) as [p E]. exists p. now apply init_label. Qed.
Lemma init_empty c show vm res pt f ix : init_img c show vm res pt f [] ix = Raise IndexError.
Proof. reflexivity. Qed.
Lemma init_negative a c show vm res pt f ix : a <> [] -> (res < 0)%Z -> init_img c show vm res pt f a ix = Raise ValueError.
Proof.
  intros N R. destruct (init_any a c show vm res pt f ix N) as [p ->]. unfold init_img. rewrite proj_label. cbn [bind].
  assert (E : (res <? 0)%Z = true) by (apply Z.ltb_lt; lia). destruct p; cbn [label].
  - change (in_strs (s "vta") _) with true. unfold mixin_init_img. change (mixin_proj (s "vta")) with (Ok (s "vta")). cbn [bind]. now rewrite E.
  - change (in_strs (s "vte") _) with false. cbn iota. now rewrite E.
  - change (in_strs (s "vuv") _) with true. unfold mixin_init_img. change (mixin_proj (s "vuv")) with (Ok (s "vuv")). cbn [bind]. now rewrite E.
Qed.

(** * grids *)
Lemma zrange_add a b : (0 <= a)%Z -> (0 <= b)%Z -> zrange (a + b) = zrange a ++ map (Z.add a) (zrange b).
Proof.
  intros A B. unfold zrange. rewrite Z2Nat.inj_add by lia. rewrite seq_app, map_app. f_equal. rewrite Nat.add_0_l.
  rewrite map_map. replace (seq (Z.to_nat a) (Z.to_nat b)) with (map (fun k => (Z.to_nat a + k)%nat) (seq 0 (Z.to_nat b))).
  - rewrite map_map. apply map_ext. intros k. rewrite Nat2Z.inj_add, Z2Nat.id; lia.
  - generalize (Z.to_nat a) as m, (Z.to_nat b) as k. intros m k. clear.
    assert (G : forall n p, map (fun x => (m + x)%nat) (seq p n) = seq (m + p) n).
    { induction n as [|q IH]; intros p; cbn [seq map]; auto. rewrite IH. f_equal. f_equal. lia. }
    rewrite G. f_equal. lia.
Qed.
Lemma zrange_nth n k : (0 <= k < n)%Z -> nth (Z.to_nat k) (zrange n) 0%Z = k.
Proof.
  intros H. unfold zrange. change 0%Z with (Z.of_nat 0). rewrite map_nth. rewrite seq_nth by lia. lia.
Qed.
Lemma unravel_at w i j : (0 <= j < w)%Z -> unravel w (i * w + j) = (i, j).
Proof. intros H. unfold unravel. rewrite (Z.add_comm (i * w)). rewrite Z.div_add, Z.mod_add by lia. rewrite Z.div_small, Z.mod_small by lia. f_equal; lia. Qed.
Lemma unravel_inv w k : (0 < w)%Z -> k = (fst (unravel w k) * w + snd (unravel w k))%Z.
Proof. intros H. unfold unravel. cbn [fst snd]. pose proof (Z_div_mod_eq_full k w). lia. Qed.
Lemma unravel_range h w k : (0 < w)%Z -> (0 <= k < h * w)%Z -> (0 <= fst (unravel w k) < h /\ 0 <= snd (unravel w k) < w)%Z.
Proof.
  intros W H. unfold unravel. cbn [fst snd].
  split; [|apply Z.mod_pos_bound; lia]. split; [apply Z.div_pos; lia|apply Z.div_lt_upper_bound; nia].
Qed.
Lemma zgrid_unravel h w : (0 <= h)%Z -> (0 <= w)%Z -> zgrid h w = map (unravel w) (zrange (h * w)).
Proof.
  intros H W. rewrite <- (Z2Nat.id h H). induction (Z.to_nat h) as [|k IH]; [reflexivity|].
  replace (Z.of_nat (S k)) with (Z.of_nat k + 1)%Z by lia. unfold zgrid. rewrite zrange_add by lia. rewrite flat_map_app.
  fold (zgrid (Z.of_nat k) w). rewrite IH. replace ((Z.of_nat k + 1) * w)%Z with (Z.of_nat k * w + w)%Z by lia. rewrite (zrange_add (Z.of_nat k * w)) by nia.
  rewrite map_app. f_equal. change (zrange 1) with [0%Z]. cbn [map flat_map]. rewrite app_nil_r, map_map. apply map_ext_in. intros j J.
  apply in_zrange in J. rewrite unravel_at by lia. f_equal. lia.
Qed.
Lemma grid_at h w i j : (0 <= i < h)%Z -> (0 <= j < w)%Z -> (0 <= i * w + j < h * w)%Z.
Proof. nia. Qed.
Lemma nth_grid {A} (f : Z * Z -> A) h w i j d : (0 <= i < h)%Z -> (0 <= j < w)%Z -> nth (Z.to_nat (i * w + j)) (map f (zgrid h w)) d = f (i, j).
Proof.
  intros I J. rewrite zgrid_unravel, map_map by lia.
  rewrite (nth_indep _ d (f (unravel w 0))) by (rewrite map_length, zrange_length; pose proof (grid_at h w i j I J); lia).
  rewrite (map_nth (fun x => f (unravel w x))). rewrite zrange_nth by now apply grid_at. now rewrite unravel_at.
Qed.

(** * masks *)
Lemma select_in m : forall a k, In k (select m (map Z.of_nat (seq a (length m)))) <-> (exists t, (t < length m)%nat /\ k = Z.of_nat (a + t) /\ nth t m false = true).
Proof.
  induction m as [|b m IH]; intros a k.
  - cbn [select]. split; [intros []|intros (t & T & _); inversion T].
  - assert (E : In k (select (b :: m) (map Z.of_nat (seq a (length (b :: m))))) <-> (b = true /\ k = Z.of_nat a) \/ In k (select m (map Z.of_nat (seq (S a) (length m))))).
    { cbn [length seq map]. destruct b; cbn [select In]; intuition congruence. }
    rewrite E, IH. split.
    + intros [[-> ->]|(t & T & -> & N)]; [exists 0%nat; cbn [length nth]; repeat split; [lia|f_equal; lia]|].
      exists (S t). cbn [length nth]. repeat split; [lia|f_equal; lia|auto].
    + intros ([|t] & T & -> & N); cbn [length nth] in *; [left; split; [auto|f_equal; lia]|]. right. exists t. repeat split; [lia|f_equal; lia|auto].
Qed.
Lemma select_sorted m : forall a, StronglySorted Z.lt (select m (map Z.of_nat (seq a (length m)))).
Proof.
  induction m as [|b m IH]; intros a; cbn [length seq map select]; [constructor|]. destruct b; auto.
  constructor; auto. apply Forall_forall. intros k K. apply select_in in K. destruct K as (t & _ & -> & _). lia.
Qed.
Lemma sorted_map {A B} (P : A -> A -> Prop) (Q : B -> B -> Prop) f l : (forall x y, In x l -> In y l -> P x y -> Q (f x) (f y)) -> StronglySorted P l -> StronglySorted Q (map f l).
Proof.
  induction l as [|a l IH]; intros H S; [constructor|]. inversion S; subst. cbn [map]. constructor.
  - apply IH; auto. intros x y X Y. apply H; now right.
  - apply Forall_forall. intros y Y. apply in_map_iff in Y as (x & <- & X). apply H; [now left|now right|]. rewrite Forall_forall in H3. auto.
Qed.
Lemma unravel_before w x y : (0 < w)%Z -> (x < y)%Z -> before (unravel w x) (unravel w y).
Proof.
  intros W L. unfold before, unravel. cbn [fst snd]. pose proof (Z.div_le_mono x y w W ltac:(lia)). pose proof (Z_div_mod_eq_full x w). pose proof (Z_div_mod_eq_full y w).
  destruct (Z_lt_dec (x / w) (y / w)); [now left|right]. assert (E : (x / w = y / w)%Z) by lia. split; auto. rewrite E in *. lia.
Qed.
Lemma in_view_masks vm h w vs P ix : (0 < w)%Z -> Z.of_nat (length vs) = (h * w)%Z ->
  (forall i j, (0 <= i < h)%Z -> (0 <= j < w)%Z -> in_view vm 0 (nth (Z.to_nat (i * w + j)) vs vzero) = true <-> P i j) ->
  masks h w P ix (in_view_of vm w vs ix).
Proof.
  intros W L H. unfold masks, in_view_of.
  assert (N : forall i j, (0 <= i < h)%Z -> (0 <= j < w)%Z -> nth (Z.to_nat (i * w + j)) (map (in_view vm 0) vs) false = true <-> P i j).
  { intros i j I J. rewrite <- (H i j I J). pose proof (grid_at h w i j I J).
    rewrite (nth_indep _ false (in_view vm 0 vzero)) by (rewrite map_length; lia). now rewrite map_nth. }
  destruct ix.
  - eexists. split; [reflexivity|]. unfold zrange. rewrite Nat2Z.id. set (m := map (in_view vm 0) vs) in *.
    assert (Lm : length m = length vs) by (unfold m; now rewrite map_length). rewrite <- Lm. split.
    + eapply sorted_map; [|apply select_sorted]. intros x y _ _. apply unravel_before. lia.
    + intros i j. rewrite in_map_iff. split.
      * intros (k & E & K). apply select_in in K. destruct K as (t & T & -> & Nt). rewrite Nat.add_0_l in *.
        assert (R : (0 <= Z.of_nat t < h * w)%Z) by lia. pose proof (unravel_range h w _ W R) as U. pose proof (unravel_inv w (Z.of_nat t) W) as V. rewrite E in U, V. cbn [fst snd] in U, V.
        repeat split; try lia. apply N; try lia. rewrite <- V, Nat2Z.id. exact Nt.
      * intros (I & J & Q). exists (i * w + j)%Z. split; [now apply unravel_at|]. apply select_in. exists (Z.to_nat (i * w + j)).
        pose proof (grid_at h w i j I J). repeat split; [lia|lia|]. now apply N.
  - eexists. split; [reflexivity|]. rewrite map_length. auto.
Qed.
Lemma in_view_masks_0 vm vs P ix : length vs = 0%nat -> masks 0 0 P ix (in_view_of vm 0 vs ix).
Proof.
  intros L. destruct vs; [|discriminate]. unfold masks, in_view_of. destruct ix.
  - exists []. split; [reflexivity|]. split; [constructor|]. intros i j. split; [intros []|lia].
  - exists []. split; [reflexivity|]. split; [reflexivity|]. intros; lia.
Qed.
Lemma mask_join_ok n P Q ix a b : (0 <= n)%Z -> masks n n P ix a -> masks n n Q ix b ->
  masks (2 * n) n (fun i j => if (i <? n)%Z then P i j else Q (i - n)%Z j) ix (mask_join n a b).
Proof.
  intros N A B. unfold masks in *. destruct ix.
  - destruct A as (l & -> & Sa & A), B as (k & -> & Sb & B). eexists. split; [reflexivity|]. split.
    + assert (G : forall l, StronglySorted before l -> (forall i j, In (i, j) l -> (i < n)%Z) -> StronglySorted before (l ++ map (fun p => (fst p + n, snd p)%Z) k)).
      { induction 1 as [|p l0 S IH F]; intros R; cbn [app].
        - eapply sorted_map; [|exact Sb]. intros x y _ _. unfold before. cbn [fst snd]. lia.
        - constructor; [apply IH; intros i j I; apply (R i j); now right|]. apply Forall_app. split; auto.
          apply Forall_forall. intros q Hq. apply in_map_iff in Hq as ([i j] & <- & Hq). apply B in Hq. destruct p as [x y]. left. cbn [fst snd].
          specialize (R x y (or_introl eq_refl)). lia. }
      apply G; auto. intros i j I. apply A in I. lia.
    + intros i j. rewrite in_app_iff, in_map_iff. rewrite A. split.
      * intros [(I & J & H)|([x y] & E & H)].
        -- repeat split; try lia. destruct (Z.ltb_spec i n); auto. lia.
        -- apply B in H. cbn [fst snd] in E. injection E as <- <-. repeat split; try lia. destruct (Z.ltb_spec (x + n) n); [lia|]. replace (x + n - n)%Z with x by lia. tauto.
      * intros (I & J & H). destruct (Z.ltb_spec i n); [left; repeat split; auto; lia|]. right. exists (i - n, j)%Z. split; [cbn [fst snd]; f_equal; lia|].
        apply B. repeat split; auto; lia.
  - destruct A as (l & -> & La & A), B as (k & -> & Lb & B). eexists. split; [reflexivity|]. rewrite app_length. split; [lia|].
    intros i j I J. destruct (Z.ltb_spec i n).
    + pose proof (grid_at n n i j ltac:(lia) J). rewrite app_nth1 by lia. apply A; lia.
    + assert (E : (i * n + j = n * n + ((i - n) * n + j))%Z) by ring. pose proof (grid_at n n (i - n) j ltac:(lia) J). rewrite app_nth2 by lia.
      replace (Z.to_nat (i * n + j) - length l)%nat with (Z.to_nat ((i - n) * n + j)) by lia. apply B; lia.
Qed.

(** planes *)
Lemma sorted_nodup l : StronglySorted before l -> NoDup l.
Proof.
  induction 1 as [|a l S IH F]; constructor; auto. intros I. rewrite Forall_forall in F. specialize (F _ I). unfold before in F. lia.
Qed.
Lemma triples_step (fs : list Z) (a b : Z) l1 l2 l3 :
  combine (combine (fs ++ l1) (repeat a (length fs) ++ l2)) (repeat b (length fs) ++ l3) = map (fun f => (f, a, b)) fs ++ combine (combine l1 l2) l3.
Proof. induction fs as [|f fs IH]; cbn [app length repeat combine map]; [reflexivity|]. now rewrite IH. Qed.
Lemma triples_eq features l : 
  combine (combine (tile features (length l)) (repeat_each features (map fst l))) (repeat_each features (map snd l)) = flat_map (fun p => map (fun f => (f, fst p, snd p)) (zrange features)) l.
Proof.
  assert (G : forall a l, combine (combine (flat_map (fun _ : nat => zrange features) (seq a (length l))) (repeat_each features (map fst l))) (repeat_each features (map snd l))
     = flat_map (fun p => map (fun f => (f, fst p, snd p)) (zrange features)) l); [|apply G].
  intros a k. revert a. induction k as [|p k IH]; intros a; [reflexivity|]. cbn [length seq flat_map map repeat_each]. unfold repeat_each in *. cbn [flat_map].
  pose proof (triples_step (zrange features) (fst p) (snd p) (flat_map (fun _ : nat => zrange features) (seq (S a) (length k)))
    (flat_map (fun x => repeat x (Z.to_nat features)) (map fst k)) (flat_map (fun x => repeat x (Z.to_nat features)) (map snd k))) as T.
  rewrite zrange_length in T. rewrite T. now rewrite IH.
Qed.
Lemma nodup_triples features l : NoDup l -> NoDup (flat_map (fun p : Z * Z => map (fun f : Z => (f, fst p, snd p)) (zrange features)) l).
Proof.
  induction 1 as [|p l N D IH]; cbn [flat_map]; [constructor|].
  assert (A : forall a b : list (Z * Z * Z), NoDup a -> NoDup b -> (forall x, In x a -> ~ In x b) -> NoDup (a ++ b)).
  { induction a as [|x a IHa]; intros b Na Nb H; cbn [app]; auto. inversion Na; subst. constructor.
    - rewrite in_app_iff. intros [X|X]; [auto|]. now apply (H x (or_introl eq_refl)).
    - apply IHa; auto. intros y Y. apply H. now right. }
  apply A; auto.
  - apply FinFun.Injective_map_NoDup; [intros x y E; congruence|]. unfold zrange. apply FinFun.Injective_map_NoDup; [intros x y E; lia|]. apply seq_NoDup.
  - intros x X Y. apply in_map_iff in X as (f & <- & _). apply in_flat_map in Y as (q & Q & Y). apply in_map_iff in Y as (g & E & _).
    destruct p, q. cbn [fst snd] in E. congruence.
Qed.
Lemma channel_mask_ok features h w P ix m : masks h w P ix m -> masks_planes features h w P ix (channel_mask features ix m).
Proof.
  intros H. unfold masks_planes. destruct ix.
  - destruct H as (l & -> & S & H). cbn [channel_mask]. destruct ((1 <? features)%Z && true) eqn:E.
    + eexists. split; [reflexivity|]. rewrite triples_eq. split; [now apply nodup_triples, sorted_nodup|].
      intros f i j. rewrite in_flat_map. split.
      * intros ([x y] & I & J). apply in_map_iff in J as (g & G & J). cbn [fst snd] in G. injection G as <- <- <-. apply in_zrange in J. apply H in I. tauto.
      * intros (F & I & J & Q). exists (i, j). split; [apply H; auto|]. apply in_map_iff. exists f. split; [reflexivity|]. now apply in_zrange.
    + exists l. split; [reflexivity|]. now split.
  - rewrite andb_false_r. destruct H as (l & -> & H). exists l. split; [reflexivity|auto].
Qed.
