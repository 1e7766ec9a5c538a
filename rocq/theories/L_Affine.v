(** Weighted quantiles in other units. *)
From Coq Require Import Lra Lia ZArith Sorting.Permutation Sorting.Sorted.
From Verif Require Import Base L_Base M_Mapper M_Data S_Data L_Data L_Data2 L_Data3 L_Data4 L_Data5 S_Isometry L_Ties S_Affine.
Import ListNotations.
Local Open Scope R_scope.

Lemma py_get_map f l i : py_get (map f l) i = option_map f (py_get l i).
Proof. unfold py_get. rewrite map_length. destruct (np_index _ i); [apply nth_error_map|reflexivity]. Qed.
Lemma nth_map_in (f : R -> R) l n : (n < length l)%nat -> nth n (map f l) 0 = f (nth n l 0).
Proof. intros H. rewrite (nth_indep _ 0 (f 0)) by (now rewrite map_length). apply map_nth. Qed.
Lemma filter_map_pairs (f : R * R -> R * R) g h l : (forall x, g (f x) = h x) -> filter g (map f l) = map f (filter h l).
Proof. intros E. induction l as [|x l IH]; cbn [map filter]; [reflexivity|]. rewrite E. destruct (h x); cbn [map]; now rewrite IH. Qed.
Lemma all_some_map {A B} (f : A -> B) l : all_some (map (option_map f) l) = option_map (map f) (all_some l).
Proof. induction l as [|[x|] l IH]; cbn [map all_some option_map]; [reflexivity| |reflexivity]. rewrite IH. destruct (all_some l); reflexivity. Qed.

Section Data.
Context (a b : R) (Ha : 0 < a).
Notation g := (fun x => a * x + b).
Lemma quantile_units l q : l <> [] -> 0 <= q <= 1 -> quantile_sorted (map g l) q = g (quantile_sorted l q).
Proof.
  intros N Q. unfold quantile_sorted. rewrite map_length. assert (L : (0 < length l)%nat) by (destruct l; [contradiction|cbn; lia]).
  set (h := q * INR (length l - 1)). assert (H : 0 <= h <= INR (length l - 1)) by (unfold h; pose proof (pos_INR (length l - 1)); split; nra).
  assert (K : (Z.to_nat (Rfloor h) < length l)%nat).
  { destruct (Rfloor_spec h) as [F1 F2]. assert (IZR (Rfloor h) <= IZR (Z.of_nat (length l - 1))) by (rewrite <- INR_IZR_INZ; lra). apply le_IZR in H0. lia. }
  rewrite !nth_map_in by lia. ring.
Qed.
Lemma np_units l qs : l <> [] -> np_quantile (map g l) qs = mapped (map g) (np_quantile l qs).
Proof.
  intros N. unfold np_quantile. destruct (forallb _ qs) eqn:E; [|reflexivity]. cbn [mapped]. f_equal. rewrite map_map. apply map_ext_in. intros q Q. apply quantile_units; [exact N|].
  rewrite forallb_forall in E. specialize (E q Q). apply andb_prop in E. destruct E as [E1 E2]. apply Rleb_true in E1. apply Rleb_true in E2. lra.
Qed.
Lemma at_units d cw q dn : wq_at (map g d) cw q dn = option_map g (wq_at d cw q dn).
Proof.
  unfold wq_at. rewrite !py_get_map. destruct (py_get d (wq_li cw q)), (py_get d (wq_ri cw q)), (py_get cw (wq_li cw q)); cbn [option_map]; try reflexivity. f_equal. unfold Rdiv. ring.
Qed.
Lemma data_units argsort dw qs t : compares_first argsort ->
  weighted_quantile argsort (map (other_units a b) dw) qs t = mapped (map g) (weighted_quantile argsort dw qs t).
Proof.
  intros C. unfold weighted_quantile. rewrite C by (intros x y; cbn [other_units fst]; split; nra). cbv zeta.
  rewrite (filter_map_pairs _ _ (fun x => Rgtb (snd x) t)) by reflexivity. set (l := filter _ (argsort dw)). 
  assert (S1 : map snd (map (other_units a b) l) = map snd l) by (rewrite map_map; reflexivity). assert (S2 : map fst (map (other_units a b) l) = map g (map fst l)) by (rewrite !map_map; reflexivity).
  rewrite S1, S2.
  destruct (map snd l) as [|w0 ws] eqn:E; [reflexivity|]. set (cw := map _ (cumsum _)). assert (N : map fst l <> []) by (destruct l; [discriminate|discriminate]).
  destruct (all_some (map (wq_dn cw) qs)) as [dn|]; [|now apply np_units].
  rewrite (map_ext _ (fun p => option_map g (wq_at (map fst l) cw (fst p) (snd p)))) by (intros x; apply at_units). rewrite <- (map_map (fun p => wq_at (map fst l) cw (fst p) (snd p))), all_some_map.
  destruct (all_some _); reflexivity.
Qed.
End Data.

Section Weights.
Context (k : R) (Hk : 0 < k).
Notation g := (Rmult k).
Lemma cumsum_units l acc : cumsum_from (k * acc) (map g l) = map g (cumsum_from acc l).
Proof. revert acc. induction l as [|x l IH]; intros acc; cbn [map cumsum_from]; [reflexivity|]. replace (k * acc + k * x) with (k * (acc + x)) by ring. now rewrite IH. Qed.
Lemma last_units l : last (map g l) 0 = k * last l 0.
Proof. induction l as [|x [|y l] IH]; cbn [map last] in *; auto; ring. Qed.
Lemma li_units cw q : wq_li (map g cw) q = wq_li cw q.
Proof.
  unfold wq_li, searchsorted_right. rewrite last_units. f_equal. f_equal. induction cw as [|x l IH] using rev_ind; [reflexivity|].
  replace (length (filter (fun y => Rleb y (q * (k * last (l ++ [x]) 0))) (map g (l ++ [x])))) with (length (filter (fun y => Rleb y (q * last (l ++ [x]) 0)) (l ++ [x]))); [reflexivity|].
  set (v := last _ 0). clearbody v. clear IH. generalize (l ++ [x]). clear l x. intros l. induction l as [|x l IH]; cbn [map filter]; [reflexivity|].
  replace (Rleb (k * x) (q * (k * v))) with (Rleb x (q * v)); [destruct (Rleb x (q * v)); cbn [length]; now rewrite IH|].
  unfold Rleb. destruct (Rle_dec x (q * v)), (Rle_dec (k * x) (q * (k * v))); try reflexivity; exfalso; nra.
Qed.
Lemma ri_units cw q : wq_ri (map g cw) q = wq_ri cw q.
Proof. unfold wq_ri. now rewrite li_units. Qed.
Lemma dn_units cw q : wq_dn (map g cw) q = option_map (fun x => if close_to_one q then x else k * x) (wq_dn cw q).
Proof.
  unfold wq_dn. rewrite li_units, ri_units, !py_get_map. destruct (py_get cw (wq_ri cw q)), (py_get cw (wq_li cw q)); cbn [option_map]; try reflexivity. destruct (close_to_one q); f_equal. ring.
Qed.
Lemma at_weights d cw q dn : wq_at d (map g cw) q (if close_to_one q then dn else k * dn) = wq_at d cw q dn.
Proof.
  unfold wq_at. rewrite li_units, ri_units, py_get_map, last_units. unfold wq_ri. destruct (close_to_one q).
  - destruct (py_get d (wq_li cw q)), (py_get cw (wq_li cw q)); cbn [option_map]; try reflexivity. f_equal. unfold Rdiv. ring.
  - destruct (py_get d (wq_li cw q)), (py_get d (wq_li cw q + 1)), (py_get cw (wq_li cw q)); cbn [option_map]; try reflexivity. f_equal. f_equal. unfold Rdiv. rewrite Rinv_mult.
    replace ((r0 - r) * (q * (k * last cw 0) - k * r1) * (/ k * / dn)) with ((k * / k) * ((r0 - r) * (q * last cw 0 - r1) * / dn)) by ring. rewrite Rinv_r by lra. ring.
Qed.
Lemma weight_units argsort dw qs t : compares_first argsort ->
  weighted_quantile argsort (map (other_weights k) dw) qs (k * t) = weighted_quantile argsort dw qs t.
Proof.
  intros C. unfold weighted_quantile. rewrite C by (intros x y; reflexivity). cbv zeta.
  rewrite (filter_map_pairs _ _ (fun x => Rgtb (snd x) t)).
  2:{ intros x. cbn [other_weights snd]. unfold Rgtb, Rltb. destruct (Rlt_dec (k * t) (k * snd x)), (Rlt_dec t (snd x)); try reflexivity; exfalso; nra. }
  set (l := filter _ (argsort dw)). 
  assert (S1 : map fst (map (other_weights k) l) = map fst l) by (rewrite map_map; reflexivity). assert (S2 : map snd (map (other_weights k) l) = map g (map snd l)) by (rewrite !map_map; reflexivity).
  rewrite S1, S2.
  destruct (map snd l) as [|w0 ws] eqn:E; [reflexivity|]. cbn [map]. change (k * w0 :: map g ws) with (map g (w0 :: ws)).
  assert (S : map (fun c => c - k * w0) (cumsum (map g (w0 :: ws))) = map g (map (fun c => c - w0) (cumsum (w0 :: ws)))).
  { unfold cumsum. replace 0 with (k * 0) at 1 by ring. rewrite cumsum_units, !map_map. apply map_ext. intros x. ring. }
  rewrite S. set (cw := map _ (cumsum _)). clearbody cw.
  assert (D : forall o, (all_some (map (wq_dn cw) qs) = None -> all_some (map (wq_dn (map g cw)) qs) = None) /\
    (all_some (map (wq_dn cw) qs) = Some o -> exists o', all_some (map (wq_dn (map g cw)) qs) = Some o' /\
       map (fun p => wq_at (map fst l) (map g cw) (fst p) (snd p)) (combine qs o') = map (fun p => wq_at (map fst l) cw (fst p) (snd p)) (combine qs o))).
  { clear - Hk. induction qs as [|q qs IH]; intros o; cbn [map all_some].
    - split; [discriminate|]. intros X. injection X as <-. now exists [].
    - rewrite dn_units. destruct (wq_dn cw q) as [dn|]; cbn [option_map]; [|split; [reflexivity|discriminate]]. destruct (all_some (map (wq_dn cw) qs)) as [o1|].
      + split; [discriminate|]. intros X. injection X as <-. destruct (IH o1) as [_ I]. destruct (I eq_refl) as (o' & -> & M). eexists. split; [reflexivity|]. cbn [combine map fst snd]. rewrite at_weights, M. reflexivity.
      + split; [|discriminate]. intros _. destruct (IH []) as [I _]. now rewrite (I eq_refl). }
  destruct (all_some (map (wq_dn cw) qs)) as [o|] eqn:Eo.
  - destruct (D o) as [_ I]. destruct (I eq_refl) as (o' & -> & ->). reflexivity.
  - destruct (D []) as [I _]. now rewrite (I eq_refl).
Qed.
End Weights.

Lemma insert_first f x l : (forall x y, fst (f x) <= fst (f y) <-> fst x <= fst y) -> insert_key (f x) (map f l) = map f (insert_key x l).
Proof.
  intros H. induction l as [|y l IH]; cbn [insert_key map]; [reflexivity|]. replace (Rleb (fst (f x)) (fst (f y))) with (Rleb (fst x) (fst y)).
  - destruct (Rleb _ _); cbn [map]; [reflexivity|now rewrite IH].
  - unfold Rleb. specialize (H x y). destruct (Rle_dec (fst x) (fst y)), (Rle_dec (fst (f x)) (fst (f y))); try reflexivity; exfalso; tauto.
Qed.
Lemma first_example : exists argsort, sorts argsort /\ compares_first argsort.
Proof.
  exists sort_key. split; [apply sort_key_sorts|]. intros f l H. unfold sort_key. induction l as [|x l IH]; cbn [map fold_right]; [reflexivity|]. rewrite IH. now apply insert_first.
Qed.
Lemma sorts_unique argsort l l' : sorts argsort -> Permutation l l' -> StronglySorted (fun x y => fst x <= fst y) l' -> NoDup (map fst l') -> argsort l = l'.
Proof.
  intros S P L N. destruct (S l) as [P1 S1]. symmetry. apply (sorted_unique (fun x : R * R => - fst x)).
  - rewrite P1. now symmetry.
  - clear - L. induction L as [|x l L IH F]; constructor; auto. rewrite Forall_forall in *. intros y Y. specialize (F y Y). lra.
  - clear - S1. induction S1 as [|x l' L IH F]; constructor; auto. rewrite Forall_forall in *. intros y Y. specialize (F y Y). lra.
  - clear - N. induction l' as [|x l IH]; cbn [map] in *; constructor; inversion N as [|? ? A B]; subst; auto. intros I. apply A. apply in_map_iff in I. destruct I as (y & E & I). apply in_map_iff. exists y. split; [lra|exact I].
Qed.
Lemma median3 argsort l x y z : sorts argsort -> x < y < z -> Permutation l [(x, 1); (y, 2); (z, 1)] -> weighted_median argsort l 0 = Ok [x + (y - x) * (3 / 4)].
Proof.
  intros S H P. unfold weighted_median, weighted_quantile. rewrite (sorts_unique argsort l [(x, 1); (y, 2); (z, 1)] S P).
  2:{ repeat constructor; cbn [fst]; lra. }
  2:{ cbn [map fst]. repeat constructor; cbn [In]; lra. }
  cbv zeta. cbn [filter snd]. unfold Rgtb. rewrite (proj2 (Rltb_true 0 1)), (proj2 (Rltb_true 0 2)) by lra. cbn [map snd fst]. unfold cumsum. cbn [cumsum_from map].
  assert (C : close_to_one (/ 2) = false) by (apply close_lt'; lra).
  assert (LI : wq_li [0 + 1 - 1; 0 + 1 + 2 - 1; 0 + 1 + 2 + 1 - 1] (/ 2) = 0%Z).
  { unfold wq_li, searchsorted_right. cbn [last filter]. rewrite (proj2 (Rleb_true (0 + 1 - 1) _)) by lra. 
    assert (F : forall u v, v < u -> Rleb u v = false) by (intros u v L; unfold Rleb; destruct (Rle_dec u v); [lra|reflexivity]). rewrite !F by lra. reflexivity. }
  unfold wq_dn, wq_at, wq_ri. rewrite C, LI. cbn. change (Pos.to_nat 1) with 1%nat. cbn. rewrite C, LI. cbn. change (Pos.to_nat 1) with 1%nat. cbn. do 2 f_equal. field.
Qed.
Lemma three_ordered : 0 < 1 < 3. Proof. lra. Qed.
Lemma mirror_differs argsort : sorts argsort -> exists dw m m', weighted_median argsort dw 0 = Ok [m] /\
  weighted_median argsort (map (fun x => (- fst x, snd x)) dw) 0 = Ok [m'] /\ m' <> - m.
Proof.
  intros S. exists [(0, 1); (1, 2); (3, 1)], (0 + (1 - 0) * (3 / 4)), (-(3) + (- (1) - - (3)) * (3 / 4)). split; [apply (median3 argsort _ 0 1 3 S); [lra|reflexivity]|]. split; [|lra].
  apply (median3 argsort _ (- (3)) (- (1)) 0 S); [lra|]. cbn [map fst snd]. rewrite Ropp_0. 
  change [(0, 1); (- (1), 2); (- (3), 1)] with (rev [(- (3), 1); (- (1), 2); (0, 1)]). symmetry. apply Permutation_rev.
Qed.
