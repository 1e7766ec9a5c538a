(** Lemmas for Prop_Smooth.v: filter results away from data, quantiles *)
From Coq Require Import List Sorting.Permutation Sorting.Sorted Lra Lia.
From Verif Require Import Base L_Base M_Translate M_Mapper M_Data S_Data L_Data L_Data2 L_Data3 M_Smooth S_Smooth L_Smooth L_Smooth2.
Import ListNotations.
Local Open Scope R_scope.

(** a sort *)
Fixpoint insert_at (p : R * nat) (l : list (R * nat)) : list (R * nat) :=
  match l with [] => [p] | q :: l' => if Rleb (fst p) (fst q) then p :: l else q :: insert_at p l' end.
Definition sort_order (l : list R) : list nat := map snd (fold_right insert_at [] (combine l (seq 0 (length l)))).
Lemma insert_at_perm p l : Permutation (insert_at p l) (p :: l).
Proof. induction l as [|q l IH]; cbn [insert_at]; [reflexivity|]. destruct (Rleb (fst p) (fst q)); [reflexivity|]. rewrite IH. apply perm_swap. Qed.
Lemma insert_all_perm l : Permutation (fold_right insert_at [] l) l.
Proof. induction l as [|p l IH]; cbn [fold_right]; [reflexivity|]. rewrite insert_at_perm. now constructor. Qed.
Lemma insert_at_sorted p l : StronglySorted Rle (map fst l) -> StronglySorted Rle (map fst (insert_at p l)).
Proof.
  induction l as [|q l IH]; intros H; cbn [insert_at map]; [constructor; constructor|]. cbn [map] in H. apply StronglySorted_inv in H. destruct H as [H F].
  destruct (Rleb (fst p) (fst q)) eqn:E; cbn [map].
  - apply Rleb_true in E. constructor; [constructor; assumption|]. constructor; [exact E|]. eapply Forall_impl; [|exact F]. intros a A. cbv beta in A. lra.
  - apply Rleb_false in E. constructor; [now apply IH|]. rewrite Forall_forall in *. intros a A.
    apply (Permutation_in _ (Permutation_map fst (insert_at_perm p l))) in A. destruct A as [<-|A]; [lra|now apply F].
Qed.
Lemma insert_all_sorted l : StronglySorted Rle (map fst (fold_right insert_at [] l)).
Proof. induction l as [|p l IH]; cbn [fold_right]; [constructor|]. now apply insert_at_sorted. Qed.
Lemma combine_snd {A B} (l : list A) (r : list B) : length l = length r -> map snd (combine l r) = r.
Proof. revert r. induction l as [|a l IH]; intros [|b r] H; cbn in *; try lia; [reflexivity|]. f_equal. apply IH. lia. Qed.
Lemma sort_order_orders : orders sort_order.
Proof.
  intros l. unfold sort_order. set (z := combine l (seq 0 (length l))). split.
  - rewrite (insert_all_perm z). unfold z. rewrite combine_snd by (now rewrite seq_length). reflexivity.
  - rewrite map_map. replace (map (fun p => nth (snd p) l 0) (fold_right insert_at [] z)) with (map fst (fold_right insert_at [] z)); [apply insert_all_sorted|].
    apply map_ext_in. intros [v i] H. apply (Permutation_in _ (insert_all_perm z)) in H. cbn [fst snd]. unfold z in H.
    assert (G : forall m, In (v, i) (combine l (seq m (length l))) -> v = nth (i - m) l 0 /\ (m <= i)%nat).
    { clear. induction l as [|a l IH]; intros m H; cbn [length seq combine] in H; [destruct H|]. destruct H as [H|H].
      - injection H as -> ->. rewrite Nat.sub_diag. split; [reflexivity|lia].
      - apply IH in H. destruct H as [-> L]. replace (i - m)%nat with (S (i - S m)) by lia. split; [reflexivity|lia]. }
    apply G in H. rewrite Nat.sub_0_r in H. apply H.
Qed.

(** no weight at all *)
Lemma Forall_or_exists (x0 : R) x : Forall (fun t => x0 <= t) x \/ Exists (fun t => t < x0) x.
Proof. induction x as [|a x [F|E]]; [left; constructor| |right; now right]. destruct (Rle_dec x0 a); [left; now constructor|right; left; lra]. Qed.
Lemma Forall_or_exists' (x0 : R) x : Forall (fun t => t < x0) x \/ Exists (fun t => x0 <= t) x.
Proof. induction x as [|a x [F|E]]; [left; constructor| |right; now right]. destruct (Rlt_dec a x0); [left; now constructor|right; left; lra]. Qed.
Lemma in_pair order x y i : orders order -> length y = length x -> (i < length x)%nat -> In (nth i (sxs order x) 0, nth i (srow order x y) 0) (combine x y).
Proof.
  intros O L I. apply (Permutation_in _ (srow_perm order x y O L)). rewrite <- combine_nth by (now rewrite srow_length, sxs_length). apply nth_In.
  rewrite combine_length, srow_length, sxs_length by assumption. lia.
Qed.
Lemma ss_nth l i j : StronglySorted Rle l -> (i <= j < length l)%nat -> nth i l 0 <= nth j l 0.
Proof.
  intros S. revert i j. induction S as [|a l S IH F]; intros i j H; cbn [length] in H; [lia|]. destruct i, j; cbn [nth]; try lra; try lia.
  - rewrite Forall_forall in F. apply F, nth_In. lia.
  - apply IH. lia.
Qed.
Lemma sorted_split order x c t : orders order -> (S c < length x)%nat -> In t x -> t <= nth c (sxs order x) 0 \/ nth (S c) (sxs order x) 0 <= t.
Proof.
  intros O C T. apply (Permutation_in _ (Permutation_sym (sxs_perm order x O))) in T. apply (In_nth _ _ 0) in T. destruct T as (i & I & <-).
  destruct (Nat.le_gt_cases i c); [left|right]; apply ss_nth; try (apply sxs_ss; exact O); [rewrite sxs_length by exact O; lia|lia].
Qed.
Lemma row_gap order argsort pdf x y x0 : orders order -> length y = length x -> in_gap pdf x x0 ->
  exists v, rows_x argsort pdf AMean x0 (sxs order x) [srow order x y] = Ok [v] /\ on_line x y x0 v.
Proof.
  intros O L G. destruct (rows_x_gap order argsort pdf AMean x [y] x0 O (Forall_cons _ L (Forall_nil _)) G) as (c & C & N & E).
  cbn [map length Nat.eqb bind] in E. eexists. split; [exact E|].
  exists (nth c (sxs order x) 0), (nth c (srow order x y) 0), (nth (S c) (sxs order x) 0), (nth (S c) (srow order x y) 0).
  split; [apply in_pair; auto; lia|]. split; [apply in_pair; auto|]. split; [exact N|]. split; [intros t T; now apply sorted_split|].
  unfold average. cbn [map fold_right fst snd]. field. lra.
Qed.
Lemma filter_all {A} (f : A -> bool) l : Forall (fun a => f a = true) l -> filter f l = l.
Proof. intros H. induction H as [|a l H _ IH]; [reflexivity|]. cbn [filter]. now rewrite H, IH. Qed.
Lemma filter_none {A} (f : A -> bool) l : Forall (fun a => f a = false) l -> filter f l = [].
Proof. intros H. induction H as [|a l H _ IH]; [reflexivity|]. cbn [filter]. now rewrite H, IH. Qed.
Lemma sxs_Forall order x P : orders order -> Forall P x -> Forall P (sxs order x).
Proof. intros O F. rewrite Forall_forall in *. intros a A. apply F. now apply (Permutation_in _ (sxs_perm order x O)). Qed.
Lemma row_zero order argsort pdf x y x0 : orders order -> x <> [] -> length y = length x -> Forall (fun v => pdf x0 v = 0) x ->
  exists v, rows_x argsort pdf AMean x0 (sxs order x) [srow order x y] = Ok [v] /\ interpolated x y x0 v.
Proof.
  intros O NE L Z. assert (0 < length x)%nat as LP by (destruct x; [congruence|cbn; lia]).
  assert (W : Rgtb (fold_right Rplus 0 (map (pdf x0) (sxs order x))) 0 = false).
  { rewrite (sum_perm _ (map (pdf x0) x)) by (apply Permutation_map, sxs_perm, O). rewrite sum_zero by exact Z. apply Rltb_false; lra. }
  destruct (Forall_or_exists x0 x) as [F|E1]; [|destruct (Forall_or_exists' x0 x) as [F|E2]].
  - exists (nth 0 (srow order x y) 0). split.
    + unfold rows_x. rewrite W. cbv zeta. unfold searchsorted_left. rewrite (filter_none _ (sxs order x)).
      2: { apply sxs_Forall; [exact O|]. eapply Forall_impl; [|exact F]. intros t T. now apply Rltb_false. }
      cbn [length]. rewrite sxs_length by exact O. assert ((Z.of_nat 0 =? Z.of_nat (length x))%Z = false) as -> by (apply Z.eqb_neq; lia).
      change (Z.of_nat 0 =? 0)%Z with true. cbv iota. change 0%Z with (Z.of_nat 0). rewrite (column_nat [srow order x y] 0 (length x)); [reflexivity| |lia].
      constructor; [now apply srow_length|constructor].
    + right. left. split; [exact F|]. exists (nth 0 (sxs order x) 0). split; [now apply in_pair|]. apply Forall_forall. intros t T.
      apply (Permutation_in _ (Permutation_sym (sxs_perm order x O))) in T. apply (In_nth _ _ 0) in T. destruct T as (i & I & <-). apply ss_nth; [now apply sxs_ss|lia].
  - exists (nth (length x - 1) (srow order x y) 0). split.
    + unfold rows_x. rewrite W. cbv zeta. unfold searchsorted_left. rewrite (filter_all _ (sxs order x)).
      2: { apply sxs_Forall; [exact O|]. eapply Forall_impl; [|exact F]. intros t T. now apply Rltb_true. }
      rewrite Z.eqb_refl. unfold column. cbn [map all_some]. rewrite py_get_last by (rewrite srow_length; auto). rewrite srow_length by auto. reflexivity.
    + right. right. split; [exact F|]. exists (nth (length x - 1) (sxs order x) 0). split; [apply in_pair; auto; lia|]. apply Forall_forall. intros t T.
      apply (Permutation_in _ (Permutation_sym (sxs_perm order x O))) in T. apply (In_nth _ _ 0) in T. destruct T as (i & I & <-). apply ss_nth; [now apply sxs_ss|].
      rewrite sxs_length in * by exact O. lia.
  - destruct (row_gap order argsort pdf x y x0 O L (conj Z (conj E1 E2))) as (v & E & V). exists v. split; [exact E|]. now left.
Qed.
Lemma filter_gap order argsort pdf x rows x0 : orders order -> rectangle (length x) rows -> in_gap pdf x x0 -> (2 <= length rows)%nat ->
  filter_rows order argsort pdf AMean None x rows [x0] = Raise (OtherError 0) /\
  Forall (fun y => exists v, filter_rows order argsort pdf AMean None x [y] [x0] = Ok [[v]] /\ on_line x y x0 v) rows.
Proof.
  intros O Rt G L. split.
  - rewrite filter_rows_shape by (try reflexivity; discriminate). cbn [map all_ok].
    destruct (rows_x_gap order argsort pdf AMean x rows x0 O Rt G) as (c & _ & _ & ->).
    assert ((length rows =? 1)%nat = false) as -> by (apply Nat.eqb_neq; lia). reflexivity.
  - eapply Forall_impl; [|exact Rt]. intros y Y. destruct (row_gap order argsort pdf x y x0 O Y G) as (v & E & V). exists v. split; [|exact V].
    rewrite filter_rows_shape by (try reflexivity; discriminate). cbn [map all_ok]. now rewrite E.
Qed.
Lemma filter_zero order argsort pdf x y xr : orders order -> x <> [] -> xr <> [] -> length y = length x -> Forall (fun x0 => Forall (fun v => pdf x0 v = 0) x) xr ->
  exists l, filter_rows order argsort pdf AMean None x [y] xr = Ok (map (fun v => [v]) l) /\ Forall2 (interpolated x y) xr l.
Proof.
  intros O NE NX L Z. rewrite filter_rows_shape by (auto; reflexivity). cbn [map]. clear NX. induction Z as [|x0 xr Z _ IH].
  - exists []. split; [reflexivity|constructor].
  - destruct IH as (l & E & F). destruct (row_zero order argsort pdf x y x0 O NE L Z) as (v & V & I). exists (v :: l). split; [|now constructor].
    cbn [map all_ok]. rewrite V, E. reflexivity.
Qed.

(** quantiles *)
Lemma forallb_q qs : Forall (fun q => 0 <= q <= 1) qs -> forallb (fun q => Rleb 0 q && Rleb q 1) qs = true.
Proof.
  intros H. induction H as [|q qs [A B] _ IH]; [reflexivity|]. cbn [forallb]. rewrite IH. rewrite (proj2 (Rleb_true 0 q) A), (proj2 (Rleb_true q 1) B). reflexivity.
Qed.
Lemma check_one qs n : (0 < n)%nat -> Forall (fun q => 0 <= q <= 1) qs -> check_amethod (AQuantiles qs) 1 n = Ok tt.
Proof. intros N H. unfold check_amethod. rewrite forallb_q by exact H. assert ((Nat.max 1 n <? 1 * n)%nat = false) as -> by (apply Nat.ltb_ge; lia). reflexivity. Qed.
Lemma included_counted order pdf x y x0 v : orders order -> length y = length x ->
  (included (combine (srow order x y) (map (pdf x0) (sxs order x))) 0 v <-> counted pdf x y x0 v).
Proof.
  intros O L. pose proof (srow_perm order x y O L) as P. pose proof (srow_length order x y O L) as L1. pose proof (sxs_length order x O) as L2.
  set (a := sxs order x) in *. set (b := srow order x y) in *. clearbody a b. unfold included, counted.
  assert (H : forall w, In (v, w) (combine b (map (pdf x0) a)) <-> exists c, In (c, v) (combine a b) /\ w = pdf x0 c).
  { assert (length a = length b) as LL by congruence. clear -LL. intros w. revert b LL. induction a as [|p a IH]; intros [|q b] LL; try discriminate; cbn [map combine In].
    - split; [intros []|intros (c & [] & _)].
    - cbn in LL. injection LL as LL. rewrite (IH b LL). split.
      + intros [E|(c & C & W)]; [injection E as -> <-; exists p; auto|exists c; auto].
      + intros (c & [E|C] & W); [injection E as -> ->; left; congruence|right; eauto]. }
  split.
  - intros (w & I & W). apply H in I. destruct I as (c & C & ->). exists c. split; [now apply (Permutation_in _ P)|exact W].
  - intros (c & C & W). exists (pdf x0 c). split; [|exact W]. apply H. exists c. split; [|reflexivity]. now apply (Permutation_in _ (Permutation_sym P)).
Qed.
Lemma filter_quantiles order argsort pdf x y xr qs : orders order -> sorts argsort -> not_negative pdf -> length y = length x -> covered pdf x xr -> xr <> [] ->
  Forall (fun q => 0 <= q <= 1) qs ->
  exists l, filter_rows order argsort pdf (AQuantiles qs) None x [y] xr = Ok l /\
    Forall2 (fun x0 r => Forall2 (fun q v =>
      (exists a b, counted pdf x y x0 a /\ counted pdf x y x0 b /\ a <= v <= b) /\
      (q = 0 -> smallest (counted pdf x y x0) v) /\ (q = 1 -> largest (counted pdf x y x0) v)) qs r) xr l.
Proof.
  intros O S N L C X Q. assert (0 < length x)%nat as LP.
  { destruct xr as [|z xr]; [congruence|]. inversion C as [|? ? E _]; subst. destruct E; cbn; lia. }
  rewrite filter_rows_shape by (try assumption; cbn [length]; now apply check_one). cbn [map]. clear X.
  induction C as [|x0 xr E _ IH]; [exists []; split; [reflexivity|constructor]|]. destruct IH as (l & IE & IF).
  set (dw := combine (srow order x y) (map (pdf x0) (sxs order x))).
  assert (XE : exists v, included dw 0 v).
  { apply Exists_exists in E. destruct E as (c & Ic & Pc). apply (In_nth _ _ 0) in Ic. destruct Ic as (i & I & <-).
    exists (nth i y 0). apply included_counted; [exact O|exact L|]. exists (nth i x 0). split; [|exact Pc].
    rewrite <- combine_nth by (now symmetry). apply nth_In. rewrite combine_length. lia. }
  destruct (wq_in_range argsort dw 0 qs S ltac:(lra) XE Q) as (r & R1 & F1). destruct (wq_ends argsort dw 0 qs S ltac:(lra) XE Q) as (r' & R2 & F2).
  rewrite R1 in R2. injection R2 as <-.
  exists (r :: l). split.
  - cbn [map all_ok]. unfold rows_x at 1. rewrite Rgtb_pos by (now apply covered_sum). unfold quantile_rows. cbn [concat]. rewrite app_nil_r, map_length, sxs_length, srow_length by assumption.
    rewrite Nat.ltb_irrefl. fold dw. rewrite R1. cbn [bind]. rewrite IE. reflexivity.
  - constructor; [|exact IF]. clear R1 IE IF.
    assert (M : forall v, included dw 0 v <-> counted pdf x y x0 v) by (intros v; now apply included_counted).
    clearbody dw. revert F2. induction F1 as [|q v qs' r (a & b & A & B & V) F1 IH2]; intros F2; [constructor|].
    inversion F2 as [|? ? ? ? [S1 S2] F2']; subst. inversion Q; subst. constructor; [|now apply IH2].
    split; [exists a, b; rewrite <- !M; auto|]. split; intros Eq; [specialize (S1 Eq) as [K1 K2]|specialize (S2 Eq) as [K1 K2]]; (split; [now apply M|]; intros z Z; apply K2; now apply M).
Qed.
Lemma column_single y i l : column [y] i = Ok l -> exists v, l = [v].
Proof. intros H. apply column_length in H. destruct l as [|v [|]]; try discriminate. now exists v. Qed.
Lemma rows_x_median argsort pdf x0 xp y : rows_x argsort pdf AMedian x0 xp [y] = rows_x argsort pdf (AQuantiles [/ 2]) x0 xp [y].
Proof.
  unfold rows_x. destruct (Rgtb _ 0); [reflexivity|]. cbv zeta. set (m := searchsorted_left xp x0).
  match goal with |- bind ?a _ = _ => assert (H : forall l, a = Ok l -> exists v, l = [v]); [|destruct a as [l|]; [destruct (H l eq_refl) as (v & ->)|]; reflexivity] end.
  intros l. destruct (m =? _)%Z; [apply column_single|]. destruct (m =? 0)%Z; [apply column_single|].
  intros H. destruct (interpolate_one _ _ _ _ _ 0 H) as [_ E]; [cbn; lia|]. destruct l as [|v [|]]; try discriminate. now exists v.
Qed.
Lemma filter_median order argsort pdf bw x y xr :
  filter_rows order argsort pdf AMedian bw x [y] xr = filter_rows order argsort pdf (AQuantiles [1 / 2]) bw x [y] xr.
Proof.
  replace (1 / 2) with (/ 2) by lra. unfold filter_rows. assert (check_amethod (AQuantiles [/ 2]) (length [y]) (length x) = Ok tt) as ->.
  { unfold check_amethod. rewrite forallb_q by (repeat constructor; lra). cbn [negb length Nat.ltb Nat.leb]. now rewrite Bool.andb_false_r. }
  cbn [check_amethod bind]. destruct xr as [|z xr]; [reflexivity|]. f_equal. apply map_ext. intros x0. destruct (ascending x); cbn [map]; destruct bw; apply rows_x_median.
Qed.
Lemma concat_length n rows : rectangle n rows -> length (concat rows) = (length rows * n)%nat.
Proof. intros H. induction H as [|r rows L _ IH]; [reflexivity|]. cbn [concat length Nat.mul]. rewrite app_length. lia. Qed.
Lemma filter_quantile_rows order argsort pdf am x rows xr : orders order -> not_negative pdf -> rectangle (length x) rows -> covered pdf x xr -> xr <> [] ->
  (2 <= length rows)%nat -> (am = AMedian \/ exists qs, am = AQuantiles qs) ->
  exists e, filter_rows order argsort pdf am None x rows xr = Raise e.
Proof.
  intros O N Rt C X L A. destruct (check_amethod am (length rows) (length x)) as [[]|e] eqn:K.
  2: { exists e. unfold filter_rows. now rewrite K. }
  rewrite filter_rows_shape by assumption. destruct xr as [|x0 xr]; [congruence|]. inversion C as [|? ? E _]; subst. cbn [map all_ok].
  exists IndexError. unfold rows_x at 1. rewrite Rgtb_pos by (now apply covered_sum).
  assert (forall qs, quantile_rows argsort qs (map (srow order x) rows) (map (pdf x0) (sxs order x)) = Raise IndexError) as H.
  { intros qs. unfold quantile_rows. rewrite (concat_length (length x)) by (now apply rect_srow). rewrite !map_length, sxs_length by exact O.
    assert (0 < length x)%nat by (destruct E; cbn; lia). assert ((length x <? length rows * length x)%nat = true) as -> by (apply Nat.ltb_lt; nia). reflexivity. }
  destruct A as [->|(qs & ->)]; rewrite H; reflexivity.
Qed.
Lemma filter_rejects order argsort pdf bw x rows xr : filter_rows order argsort pdf AOther bw x rows xr = Raise ValueError /\
  (forall qs, Exists (fun q => q < 0 \/ 1 < q) qs -> filter_rows order argsort pdf (AQuantiles qs) bw x rows xr = Raise ValueError) /\
  (forall qs, (2 <= length qs)%nat -> (2 <= length rows)%nat -> (2 <= length x)%nat -> filter_rows order argsort pdf (AQuantiles qs) bw x rows xr = Raise ValueError).
Proof.
  split; [reflexivity|]. split.
  - intros qs E. unfold filter_rows, check_amethod. assert (forallb (fun q => Rleb 0 q && Rleb q 1) qs = false) as ->; [|reflexivity].
    induction E as [q qs H|q qs _ IH]; cbn [forallb]; [|rewrite IH; apply Bool.andb_false_r].
    destruct H as [H|H]; [rewrite (proj2 (Rleb_false 0 q) H)|rewrite (proj2 (Rleb_false q 1) H), Bool.andb_false_r]; reflexivity.
  - intros qs Q L X. unfold filter_rows, check_amethod. destruct (negb _); [reflexivity|].
    assert ((Nat.max (length rows) (length x) <? length rows * length x)%nat = true) as -> by (apply Nat.ltb_lt; nia).
    assert ((1 <? length qs)%nat = true) as -> by (apply Nat.ltb_lt; lia). reflexivity.
Qed.
