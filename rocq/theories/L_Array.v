From Coq Require Import Lia Arith.
From Verif Require Import Base M_Translate M_Mapper M_Io S_Io.
Local Open Scope nat_scope.

Lemma nd_indices_length s : length (nd_indices s) = nd_size s.
Proof.
  induction s as [|n s IH]; [reflexivity|]. cbn [nd_indices nd_size fold_right]. fold (nd_size s).
  assert (forall k m, length (flat_map (fun i => map (cons i) (nd_indices s)) (seq k m)) = m * nd_size s) as H; [|apply H].
  intros k m; revert k; induction m as [|m IHm]; intros k; [reflexivity|]. cbn [seq flat_map]. rewrite app_length, map_length, IH, IHm. reflexivity.
Qed.

Lemma flat_index_lt s : forall idx, in_range s idx -> flat_index s idx < nd_size s.
Proof.
  induction s as [|n s IH]; intros [|i idx] H; simpl in H; try contradiction; [simpl; lia|].
  destruct H as [L H]. specialize (IH _ H). cbn [flat_index nd_size fold_right]. fold (nd_size s).
  assert (i * nd_size s + nd_size s <= n * nd_size s); [|lia].
  replace (i * nd_size s + nd_size s) with (S i * nd_size s) by (simpl; lia). apply Nat.mul_le_mono_r. lia.
Qed.

Lemma in_indices s : forall idx, In idx (nd_indices s) <-> in_range s idx.
Proof.
  induction s as [|n s IH]; intros idx; cbn [nd_indices].
  - split; [intros [<-|[]]; exact I|]. destruct idx; simpl; [auto|tauto].
  - rewrite in_flat_map. split.
    + intros [i [Hi H]]. apply in_seq in Hi. apply in_map_iff in H. destruct H as [r [<- Hr]]. simpl. split; [lia|]. now apply IH.
    + destruct idx as [|i idx]; simpl; [tauto|]. intros [L H]. exists i. split; [apply in_seq; lia|]. apply in_map. now apply IH.
Qed.

Lemma nth_indices s : forall idx d, in_range s idx -> nth (flat_index s idx) (nd_indices s) d = idx.
Proof.
  induction s as [|n s IH]; intros [|i idx] d H; simpl in H; try contradiction; [reflexivity|].
  destruct H as [L H]. cbn [flat_index nd_indices].
  assert (forall k m, i < m -> nth (i * nd_size s + flat_index s idx) (flat_map (fun j => map (cons j) (nd_indices s)) (seq k m)) d = (k + i) :: idx) as G.
  { clear L n. induction i as [|i IHi]; intros k m L; (destruct m as [|m]; [lia|]); cbn [seq flat_map].
    - rewrite app_nth1 by (rewrite map_length, nd_indices_length; simpl; apply flat_index_lt; exact H).
      simpl. replace (k + 0) with k by lia.
      rewrite nth_indep with (d' := k :: []) by (rewrite map_length, nd_indices_length; apply flat_index_lt; exact H).
      rewrite (map_nth (cons k)). f_equal. apply IH. exact H.
    - rewrite app_nth2 by (rewrite map_length, nd_indices_length; simpl; lia).
      rewrite map_length, nd_indices_length.
      replace (S i * nd_size s + flat_index s idx - nd_size s) with (i * nd_size s + flat_index s idx) by (simpl; lia).
      rewrite (IHi (S k) m) by lia. f_equal. lia. }
  rewrite (G 0 n L). reflexivity.
Qed.

Lemma nth_ravel {A} (a : ndarray A) d idx : in_range (nd_shape a) idx -> nth (flat_index (nd_shape a) idx) (nd_ravel a) d = nd_get a idx.
Proof.
  intros H. unfold nd_ravel. rewrite nth_indep with (d' := nd_get a []) by (rewrite map_length, nd_indices_length; now apply flat_index_lt).
  rewrite map_nth. f_equal. now apply nth_indices.
Qed.
Lemma ravel_length {A} (a : ndarray A) : length (nd_ravel a) = nd_size (nd_shape a).
Proof. unfold nd_ravel. now rewrite map_length, nd_indices_length. Qed.

Lemma nd_size_app s t : nd_size (s ++ t) = nd_size s * nd_size t.
Proof. induction s as [|n s IH]; simpl; [lia|]. fold (nd_size (s ++ t)). rewrite IH. fold (nd_size s). lia. Qed.
Lemma nd_size_rev s : nd_size (rev s) = nd_size s.
Proof. induction s as [|n s IH]; [reflexivity|]. cbn [rev]. rewrite nd_size_app, IH. simpl. fold (nd_size s). lia. Qed.

Lemma dim_product_nat s : dim_product (map Z.of_nat s) = Z.of_nat (nd_size s).
Proof.
  induction s as [|n s IH]; [reflexivity|]. unfold dim_product in *. cbn [map filter].
  destruct (Z.leb_spec 0 (Z.of_nat n)) as [_|L]; [|lia]. cbn [fold_right]. rewrite IH. cbn [nd_size fold_right]. fold (nd_size s). lia.
Qed.
Lemma no_negative s : filter (fun d => (d <? 0)%Z) (map Z.of_nat s) = [].
Proof. induction s as [|n s IH]; [reflexivity|]. cbn [map filter]. destruct (Z.ltb_spec (Z.of_nat n) 0); [lia|exact IH]. Qed.

Lemma reshape_shape {A} (d : A) l s : length l = nd_size s -> np_reshape d l (map Z.of_nat s) = Ok (nd_of_list d s l).
Proof.
  intros L. unfold np_reshape. rewrite no_negative. cbn [length]. rewrite dim_product_nat, L, Z.eqb_refl.
  f_equal. f_equal. rewrite map_map. rewrite <- (map_id s) at 2. apply map_ext. apply Nat2Z.id.
Qed.
Lemma reshape_wrong {A} (d : A) l s : length l <> nd_size s -> np_reshape d l (map Z.of_nat s) = Raise ValueError.
Proof.
  intros L. unfold np_reshape. rewrite no_negative. cbn [length]. rewrite dim_product_nat.
  destruct (Z.eqb_spec (Z.of_nat (nd_size s)) (Z.of_nat (length l))); [lia|reflexivity].
Qed.
(** one dimension given as -1 *)
Lemma reshape_unknown {A} (d : A) l s t n : length l = nd_size (s ++ n :: t) -> nd_size (s ++ t) <> 0 ->
  np_reshape d l (map Z.of_nat s ++ (-1)%Z :: map Z.of_nat t) = Ok (nd_of_list d (s ++ n :: t) l).
Proof.
  intros L N. unfold np_reshape.
  assert (filter (fun d => (d <? 0)%Z) (map Z.of_nat s ++ (-1)%Z :: map Z.of_nat t) = [(-1)%Z]) as ->.
  { rewrite filter_app. cbn [filter]. rewrite !no_negative. reflexivity. }
  cbn [length].
  assert (dim_product (map Z.of_nat s ++ (-1)%Z :: map Z.of_nat t) = Z.of_nat (nd_size (s ++ t))) as ->.
  { rewrite <- dim_product_nat, map_app. unfold dim_product. rewrite !filter_app. reflexivity. }
  assert (Z.of_nat (length l) = Z.of_nat n * Z.of_nat (nd_size (s ++ t)))%Z as E.
  { rewrite L, !nd_size_app. cbn [nd_size fold_right]. fold (nd_size t). lia. }
  destruct (Z.eqb_spec (Z.of_nat (nd_size (s ++ t))) 0) as [Q|Q]; [lia|].
  rewrite E, Z.mod_mul by exact Q. cbn [Z.eqb negb orb]. rewrite Z.div_mul by exact Q.
  f_equal. f_equal. rewrite map_app. cbn [map]. change (-1 <? 0)%Z with true. cbv iota. rewrite Nat2Z.id.
  assert (forall k u, map (fun x => Z.to_nat (if (x <? 0)%Z then k else x)) (map Z.of_nat u) = u) as M.
  { intros k u. rewrite map_map. rewrite <- (map_id u) at 2. apply map_ext. intros x. destruct (Z.ltb_spec (Z.of_nat x) 0); [lia|apply Nat2Z.id]. }
  rewrite !M. reflexivity.
Qed.

Lemma of_list_ravel {A} (d : A) (a : ndarray A) idx : in_range (nd_shape a) idx ->
  nd_get (nd_of_list d (nd_shape a) (nd_ravel a)) idx = nd_get a idx.
Proof. intros H. cbn [nd_get nd_of_list]. now apply nth_ravel. Qed.
Lemma nd_indices_NoDup s : NoDup (nd_indices s).
Proof.
  induction s as [|n s IH]; [constructor; [intros []|constructor]|]. cbn [nd_indices].
  assert (forall m k, NoDup (flat_map (fun i => map (cons i) (nd_indices s)) (seq k m))) as G; [|apply G].
  induction m as [|m IHm]; intros k; [constructor|]. cbn [seq flat_map].
  assert (forall (X : Type) (a b : list X), NoDup a -> NoDup b -> (forall x, In x a -> ~ In x b) -> NoDup (a ++ b)) as NA.
  { intros X a; induction a as [|x a IHa]; intros b Ha Hb Hd; [exact Hb|]. inversion Ha; subst. simpl. constructor.
    - rewrite in_app_iff. intros [Q|Q]; [auto|]. apply (Hd x); [now left|exact Q].
    - apply IHa; auto. intros y Hy. apply Hd. now right. }
  apply NA; [|apply IHm|].
  - clear -IH. induction (nd_indices s) as [|x l IHl]; [constructor|]. inversion IH; subst. cbn [map]. constructor; [|auto].
    intros Q. apply in_map_iff in Q. destruct Q as [y [E Hy]]. inversion E; subst. contradiction.
  - intros x Hx Hy. apply in_map_iff in Hx. destruct Hx as [r [<- _]]. apply in_flat_map in Hy.
    destruct Hy as [i [Hi Hy]]. apply in_seq in Hi. apply in_map_iff in Hy. destruct Hy as [r' [Q _]]. inversion Q. lia.
Qed.
Lemma index_of_nth s k : k < nd_size s -> let idx := nth k (nd_indices s) [] in in_range s idx /\ flat_index s idx = k.
Proof.
  intros K idx. assert (In idx (nd_indices s)) as I by (apply nth_In; rewrite nd_indices_length; exact K).
  apply in_indices in I. split; [exact I|]. pose proof (nth_indices s idx [] I) as E. unfold idx in E at 2.
  eapply (proj1 (NoDup_nth (nd_indices s) []) (nd_indices_NoDup s)); [rewrite nd_indices_length; now apply flat_index_lt|rewrite nd_indices_length; exact K|exact E].
Qed.
Lemma ravel_of_list {A} (d : A) s l : length l = nd_size s -> nd_ravel (nd_of_list d s l) = l.
Proof.
  intros L. apply (nth_ext _ _ d d).
  - rewrite ravel_length. cbn [nd_shape nd_of_list]. congruence.
  - intros k K. rewrite ravel_length in K. cbn [nd_shape nd_of_list] in K.
    destruct (index_of_nth s k K) as [I F]. set (idx := nth k (nd_indices s) []) in *.
    rewrite <- F at 1. pose proof (nth_ravel (nd_of_list d s l) d idx I) as E. cbn [nd_shape nd_of_list nd_get] in E.
    rewrite E, F. reflexivity.
Qed.
