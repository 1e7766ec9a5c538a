(** Lemmas for Prop_Smooth.v: sums in any order, gaps and quantiles *)
From Coq Require Import List Sorting.Permutation Sorting.Sorted Lra Lia.
From Verif Require Import Base L_Base M_Translate M_Mapper M_Data S_Data L_Data L_Data2 L_Data3 M_Smooth S_Smooth L_Smooth.
Import ListNotations.
Local Open Scope R_scope.

Lemma sum_perm l l' : Permutation l l' -> fold_right Rplus 0 l = fold_right Rplus 0 l'.
Proof. intros H. induction H; cbn [fold_right]; lra. Qed.
Lemma map_seq_nth (x : list R) : map (fun i => nth i x 0) (seq 0 (length x)) = x.
Proof. rewrite (map_nth_seq_R (fun v => v)). now rewrite map_id. Qed.
Lemma combine_map2 {A} (f g : A -> R) l : combine (map f l) (map g l) = map (fun a => (f a, g a)) l.
Proof. induction l as [|a l IH]; [reflexivity|]. cbn [map combine]. now rewrite IH. Qed.
Lemma combine_seq (x y : list R) : length y = length x -> combine x y = map (fun i => (nth i x 0, nth i y 0)) (seq 0 (length x)).
Proof. intros L. rewrite <- (map_seq_nth x) at 1. rewrite <- (map_seq_nth y) at 1. rewrite L. apply combine_map2. Qed.
Lemma take_perm order x : orders order -> Permutation (take_at (order x) x) x.
Proof. intros O. destruct (O x) as [P _]. unfold take_at. rewrite P. now rewrite map_seq_nth. Qed.
Lemma take_pair_perm order x y : orders order -> length y = length x ->
  Permutation (combine (take_at (order x) x) (take_at (order x) y)) (combine x y).
Proof. intros O L. destruct (O x) as [P _]. unfold take_at. rewrite combine_map2, P, (combine_seq x y L). reflexivity. Qed.
Lemma take_length order x y : orders order -> length (take_at (order x) y) = length x.
Proof. intros O. destruct (O x) as [P _]. unfold take_at. rewrite map_length, (Permutation_length P). apply seq_length. Qed.
Lemma ascending_ss x : ascending x = true -> StronglySorted Rle x.
Proof.
  induction x as [|a x IH]; intros H; [constructor|]. destruct x as [|b x]; [constructor; constructor|].
  cbn [ascending] in H. apply andb_prop in H. destruct H as [H1 H2]. apply Rleb_true in H1. specialize (IH H2). constructor; [exact IH|].
  inversion IH as [|? ? ? F]; subst. constructor; [exact H1|]. apply Forall_forall. intros c C. rewrite Forall_forall in F. specialize (F c C). lra.
Qed.
(** the sorted coordinates and rows that the filter works on *)
Definition sxs order x := if ascending x then x else take_at (order x) x.
Definition srow order x y := if ascending x then y else take_at (order x) y.
Lemma sxs_perm order x : orders order -> Permutation (sxs order x) x.
Proof. intros O. unfold sxs. destruct (ascending x); [reflexivity|now apply take_perm]. Qed.
Lemma srow_perm order x y : orders order -> length y = length x -> Permutation (combine (sxs order x) (srow order x y)) (combine x y).
Proof. intros O L. unfold sxs, srow. destruct (ascending x); [reflexivity|now apply take_pair_perm]. Qed.
Lemma srow_length order x y : orders order -> length y = length x -> length (srow order x y) = length x.
Proof. intros O L. unfold srow. destruct (ascending x); [exact L|now apply take_length]. Qed.
Lemma sxs_length order x : orders order -> length (sxs order x) = length x.
Proof. intros O. apply Permutation_length, sxs_perm, O. Qed.
Lemma sxs_ss order x : orders order -> StronglySorted Rle (sxs order x).
Proof. intros O. unfold sxs. destruct (ascending x) eqn:E; [now apply ascending_ss|]. apply (proj2 (O x)). Qed.
Lemma sum_pos (f : R -> R) l : (forall v, 0 <= f v) -> Exists (fun v => 0 < f v) l -> 0 < fold_right Rplus 0 (map f l).
Proof.
  intros N E. induction E as [v l H|v l _ IH]; cbn [map fold_right].
  - assert (0 <= fold_right Rplus 0 (map f l)); [|lra]. clear -N. induction l as [|a l IH]; cbn [map fold_right]; [lra|]. specialize (N a). lra.
  - specialize (N v). lra.
Qed.
Lemma sum_zero (f : R -> R) l : Forall (fun v => f v = 0) l -> fold_right Rplus 0 (map f l) = 0.
Proof. intros H. induction H as [|v l H _ IH]; cbn [map fold_right]; lra. Qed.
Lemma average_weighted w x y : length y = length x -> average (combine (map w x) y) = weighted_mean w x y.
Proof.
  intros L. unfold average, weighted_mean. rewrite combine_fst by (now rewrite map_length). f_equal. f_equal.
  revert y L. induction x as [|a x IH]; intros [|b y] L; try discriminate; [reflexivity|]. cbn [map combine fst snd]. f_equal. apply IH. cbn in L. lia.
Qed.
Lemma weighted_mean_perm w order x y : orders order -> length y = length x -> weighted_mean w (sxs order x) (srow order x y) = weighted_mean w x y.
Proof.
  intros O L. unfold weighted_mean. rewrite (sum_perm (map w (sxs order x)) (map w x)) by (apply Permutation_map, sxs_perm, O).
  rewrite (sum_perm _ (map (fun p => w (fst p) * snd p) (combine x y))) by (apply Permutation_map, srow_perm; assumption). reflexivity.
Qed.
Lemma filter_rows_shape order argsort pdf am x rows xr : check_amethod am (length rows) (length x) = Ok tt -> xr <> [] ->
  filter_rows order argsort pdf am None x rows xr = all_ok (map (fun x0 => rows_x argsort pdf am x0 (sxs order x) (map (srow order x) rows)) xr).
Proof.
  intros C N. unfold filter_rows. rewrite C. cbn [bind]. destruct xr as [|z xr]; [congruence|]. fold (sxs order x).
  assert ((if ascending x then rows else map (take_at (order x)) rows) = map (srow order x) rows) as ->; [|reflexivity].
  unfold srow. destruct (ascending x); [|reflexivity]. symmetry. apply map_id.
Qed.
Lemma covered_sum order pdf x x0 : orders order -> not_negative pdf -> Exists (fun v => 0 < pdf x0 v) x -> 0 < fold_right Rplus 0 (map (pdf x0) (sxs order x)).
Proof.
  intros O N E. rewrite (sum_perm _ (map (pdf x0) x)) by (apply Permutation_map, sxs_perm, O). apply sum_pos; [intros v; apply N|exact E].
Qed.
Lemma Rgtb_pos a : 0 < a -> Rgtb a 0 = true.
Proof. intros H. now apply Rltb_true. Qed.
Lemma filter_mean order argsort pdf x rows xr : orders order -> not_negative pdf -> rectangle (length x) rows -> covered pdf x xr -> xr <> [] ->
  filter_rows order argsort pdf AMean None x rows xr = Ok (map (fun x0 => map (weighted_mean (pdf x0) x) rows) xr).
Proof.
  intros O N Rt C X. rewrite filter_rows_shape by (auto; reflexivity). clear X. apply all_ok_map. induction C as [|x0 xr E _ IH]; cbn [map]; constructor; [|exact IH].
  unfold rows_x. rewrite Rgtb_pos by (now apply covered_sum). f_equal. rewrite map_map. apply map_ext_Forall.
  eapply Forall_impl; [|exact Rt]. intros y L. rewrite average_weighted; [|rewrite srow_length, sxs_length by assumption; reflexivity]. now apply weighted_mean_perm.
Qed.
Lemma weighted_mean_range w x y lo hi : (forall v, 0 <= w v) -> Exists (fun v => 0 < w v) x -> length y = length x -> Forall (fun v => lo <= v <= hi) y ->
  lo <= weighted_mean w x y <= hi.
Proof.
  intros N E L F. rewrite <- (average_weighted w x y L). apply average_bounds.
  - intros [a b] P. cbn [fst snd]. pose proof (in_combine_l _ _ _ _ P) as A. apply in_combine_r in P. apply in_map_iff in A. destruct A as (v & <- & _).
    split; [apply N|]. rewrite Forall_forall in F. now apply F.
  - rewrite combine_fst by (now rewrite map_length). now apply sum_pos.
Qed.
(** gaps *)
Lemma gap_index order x x0 : orders order -> Exists (fun v => v < x0) x -> Exists (fun v => x0 <= v) x ->
  exists c, searchsorted_left (sxs order x) x0 = Z.of_nat (S c) /\ (S c < length x)%nat /\
    nth c (sxs order x) 0 < x0 <= nth (S c) (sxs order x) 0.
Proof.
  intros O A B. pose proof (sxs_ss order x O) as S. pose proof (sxs_perm order x O) as P. pose proof (sxs_length order x O) as L.
  apply Exists_exists in A, B. destruct A as (a & A & Ha), B as (b & B & Hb). apply (Permutation_in _ (Permutation_sym P)) in A, B.
  set (s := sxs order x) in *. clearbody s. apply (In_nth _ _ 0) in A, B. destruct A as (i & I & <-), B as (j & J & <-).
  pose proof (count_split_lt s x0 i S I) as Ci. pose proof (count_split_lt s x0 j S J) as Cj.
  unfold searchsorted_left. set (n := length (filter _ s)) in *. assert (i < n)%nat by tauto.
  assert (n <= j)%nat. { destruct (Nat.le_gt_cases n j); [assumption|]. assert (nth j s 0 < x0) by tauto. lra. }
  exists (n - 1)%nat. assert (Datatypes.S (n - 1) = n) as E by lia. rewrite E. repeat split; [lia| |].
  - apply count_split_lt; [exact S|lia|]. fold n. lia.
  - destruct (Rle_dec x0 (nth n s 0)) as [|C]; [assumption|]. apply Rnot_le_lt in C. apply count_split_lt in C; [|exact S|lia]. fold n in C. lia.
Qed.
Lemma column_nat rows (i : nat) n : rectangle n rows -> (i < n)%nat -> column rows (Z.of_nat i) = Ok (map (fun r => nth i r 0) rows).
Proof.
  intros H I. unfold column. assert (all_some (map (fun r => py_get r (Z.of_nat i)) rows) = Some (map (fun r => nth i r 0) rows)) as ->; [|reflexivity].
  induction H as [|r rows L _ IH]; [reflexivity|]. cbn [map all_some]. rewrite py_get_nat by lia. now rewrite IH.
Qed.
Lemma rect_srow order x rows : orders order -> rectangle (length x) rows -> rectangle (length x) (map (srow order x) rows).
Proof. intros O H. induction H as [|r rows L _ IH]; cbn [map]; constructor; [now apply srow_length|exact IH]. Qed.
Lemma rows_x_gap order argsort pdf am x rows x0 : orders order -> rectangle (length x) rows -> in_gap pdf x x0 ->
  exists c, (S c < length x)%nat /\ nth c (sxs order x) 0 < x0 <= nth (S c) (sxs order x) 0 /\
  rows_x argsort pdf am x0 (sxs order x) (map (srow order x) rows) =
  bind (if (length rows =? 1)%nat then Ok (map (fun y => average [(x0 - nth c (sxs order x) 0, nth (S c) (srow order x y) 0); (nth (S c) (sxs order x) 0 - x0, nth c (srow order x y) 0)]) rows)
        else Raise (OtherError 0)) (fun mu => match am with AQuantiles qs => match mu with [m] => Ok (repeat m (length qs)) | _ => if (length mu =? length qs)%nat then Ok mu else Raise ValueError end | _ => Ok mu end).
Proof.
  intros O Rt (Z & A & B). destruct (gap_index order x x0 O A B) as (c & C & I & N). exists c. split; [exact I|]. split; [exact N|].
  unfold rows_x. rewrite (sum_perm _ (map (pdf x0) x)) by (apply Permutation_map, sxs_perm, O). rewrite sum_zero by exact Z.
  rewrite (proj2 (Rltb_false 0 0) ltac:(lra) : Rgtb 0 0 = false). cbv zeta. rewrite C, sxs_length by exact O.
  assert ((Z.of_nat (S c) =? Z.of_nat (length x))%Z = false) as -> by (apply Z.eqb_neq; lia).
  assert ((Z.of_nat (S c) =? 0)%Z = false) as -> by (apply Z.eqb_neq; lia).
  f_equal. unfold interpolate. pose proof (rect_srow order x rows O Rt) as Rs. rewrite (column_nat _ _ _ Rs I).
  replace (Z.of_nat (S c) - 1)%Z with (Z.of_nat c) by lia. rewrite (column_nat _ c _ Rs) by lia. cbn [bind].
  rewrite !py_get_nat by (rewrite sxs_length by exact O; lia). rewrite map_length. destruct (Nat.eqb (length rows) 1); [|reflexivity].
  f_equal. rewrite combine_map2. rewrite !map_map. reflexivity.
Qed.
