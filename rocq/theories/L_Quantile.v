(** Lemmas about quantiles without weights. *)
From Coq Require Import Sorting.Permutation Sorting.Sorted Lra Lia.
From Verif Require Import Base M_Translate M_Mapper M_Data S_Data L_Base L_Data M_Quantile.
Local Open Scope R_scope.

Lemma floor_bound x : IZR (Rfloor x) <= x < IZR (Rfloor x) + 1.
Proof. unfold Rfloor. pose proof (archimed x) as [A B]. rewrite minus_IZR. lra. Qed.

Lemma quantile_linear l q : l <> [] -> 0 <= q <= 1 -> linear_quantile l q (quantile_sorted l q).
Proof.
  intros L Q. assert (1 <= length l)%nat as N by (destruct l; [contradiction|cbn; lia]).
  unfold quantile_sorted. cbv zeta. set (h := q * INR (length l - 1)). pose proof (floor_bound h) as F.
  assert (HN : INR (length l - 1) = INR (length l) - 1) by (rewrite minus_INR by lia; reflexivity).
  assert (0 <= INR (length l - 1)) as P by apply pos_INR.
  assert (0 <= h <= INR (length l - 1)) as H by (unfold h; nra).
  assert (0 <= Rfloor h)%Z as Z0 by (enough (-1 < Rfloor h)%Z by lia; apply lt_IZR; lra).
  set (k := Z.to_nat (Rfloor h)). assert (K : INR k = IZR (Rfloor h)) by (unfold k; rewrite INR_IZR_INZ, Z2Nat.id by lia; reflexivity).
  assert (k <= length l - 1)%nat as KL by (apply INR_le; rewrite K; lra).
  exists k, (h - IZR (Rfloor h)). repeat split; try lra; try lia.
  - rewrite K. unfold h at 2. rewrite HN. unfold h. rewrite HN. lra.
  - destruct (Nat.eq_dec k (length l - 1)) as [E|E].
    + assert (INR k = INR (length l - 1)) as EK by now rewrite E. replace (h - IZR (Rfloor h)) with 0 by lra. ring.
    + rewrite Nat.min_l by lia. ring.
Qed.

Lemma fst_const d : map fst (map (fun x : R => (x, 0)) d) = d.
Proof. rewrite map_map. apply map_id. Qed.
Lemma in01 qs : Forall (fun q => 0 <= q <= 1) qs -> forallb (fun q => Rleb 0 q && Rleb q 1) qs = true.
Proof.
  intros Hq. apply forallb_forall. rewrite Forall_forall in Hq. intros q Hin. apply Hq in Hin. apply andb_true_intro. split; apply Rleb_true; lra.
Qed.
Lemma np_linear l qs : l <> [] -> Forall (fun q => 0 <= q <= 1) qs -> exists r, np_quantile l qs = Ok r /\ Forall2 (linear_quantile l) qs r.
Proof.
  intros L Q. unfold np_quantile. rewrite in01 by exact Q. eexists. split; [reflexivity|]. induction Q; constructor; auto. now apply quantile_linear.
Qed.

Lemma keys_sorted (l : list (R * R)) : StronglySorted (fun a b => fst a <= fst b) l -> StronglySorted Rle (map fst l).
Proof. induction 1 as [|a l S IH F]; constructor; [exact IH|]. now apply Forall_map. Qed.

Lemma unweighted argsort d qs t : sorts argsort -> d <> [] -> Forall (fun q => 0 <= q <= 1) qs ->
  exists l r, Permutation l d /\ StronglySorted Rle l /\ quantile_call argsort d None qs t = Ok r /\ Forall2 (linear_quantile l) qs r.
Proof.
  intros S D Q. destruct (S (map (fun x => (x, 0)) d)) as [P Sd]. set (l := map fst (argsort (map (fun x => (x, 0)) d))).
  assert (PL : Permutation l d) by (unfold l; rewrite P, fst_const; reflexivity).
  assert (l <> []) as L by (intros E; rewrite E in PL; apply Permutation_nil in PL; contradiction).
  destruct (np_linear l qs L Q) as (r & R1 & R2). exists l, r. repeat split; auto. now apply keys_sorted.
Qed.
Lemma unweighted_outside argsort d qs t : Exists (fun q => q < 0 \/ 1 < q) qs -> quantile_call argsort d None qs t = Raise ValueError.
Proof.
  intros H. unfold quantile_call, np_quantile. replace (forallb _ qs) with false; [reflexivity|]. symmetry. apply not_true_is_false. intros F.
  rewrite forallb_forall in F. apply Exists_exists in H as (q & I & B). apply F in I. apply andb_prop in I as [A C]. apply Rleb_true in A, C. lra.
Qed.

(** no weight at all, and the data let in by a negative threshold *)
Lemma count_all (l : list R) v : Forall (fun x => x <= v) l -> filter (fun x => Rleb x v) l = l.
Proof. induction 1 as [|x l H F IH]; [reflexivity|]. cbn [filter]. replace (Rleb x v) with true by (symmetry; now apply Rleb_true). now rewrite IH. Qed.
Lemma filter_all {A} (f : A -> bool) l : Forall (fun x => f x = true) l -> filter f l = l.
Proof. induction 1 as [|x l H F IH]; [reflexivity|]. cbn [filter]. now rewrite H, IH. Qed.
Lemma all_some_none {A} (l : list (option A)) : In None l -> all_some l = None.
Proof. induction l as [|[x|] l IH]; cbn; intros []; try discriminate; try reflexivity. now rewrite IH. Qed.
Lemma cumsum_zero n : cumsum (repeat 0 n) = repeat 0 n.
Proof.
  unfold cumsum. enough (G : forall n a, a = 0 -> forall f, f = cumsum_from a (repeat 0 n) -> f = repeat 0 n) by (now apply (G n 0)).
  clear n. induction n as [|n IH]; intros a -> f ->; [reflexivity|]. cbn [repeat cumsum_from]. rewrite Rplus_0_l. f_equal. now apply (IH 0).
Qed.
Lemma weights_zero (s : list (R * R)) : Forall (fun p => snd p = 0) s -> map snd s = repeat 0 (length s).
Proof. induction 1 as [|p s H F IH]; [reflexivity|]. cbn. now rewrite H, IH. Qed.
Lemma no_weight argsort dw qs t : sorts argsort -> t < 0 -> dw <> [] -> Forall (fun p => snd p = 0) dw ->
  Forall (fun q => 0 <= q <= 1) qs -> Exists (fun q => q < 1 - / 100000 - / 100000000) qs ->
  exists l r, Permutation l (map fst dw) /\ StronglySorted Rle l /\ weighted_quantile argsort dw qs t = Ok r /\ Forall2 (linear_quantile l) qs r.
Proof.
  intros S T D W Q X. destruct (S dw) as [P Sd]. unfold weighted_quantile. cbv zeta.
  assert (W' : Forall (fun p => snd p = 0) (argsort dw)) by (rewrite Forall_forall in *; intros p I; apply W; now rewrite P in I).
  rewrite filter_all. 2:{ rewrite Forall_forall in *. intros p I. unfold Rgtb. apply Rltb_true. rewrite (W' p I). exact T. }
  rewrite (weights_zero _ W'). assert (0 < length (argsort dw))%nat as N.
  { rewrite (Permutation_length P). destruct dw; [contradiction|cbn; lia]. }
  destruct (length (argsort dw)) as [|n] eqn:En; [lia|]. cbn [repeat]. change (0 :: repeat 0 n) with (repeat 0 (Datatypes.S n)). rewrite cumsum_zero.
  replace (map (fun c => c - 0) (repeat 0 (Datatypes.S n))) with (repeat 0 (Datatypes.S n)).
  2:{ rewrite <- (map_id (repeat 0 _)) at 1. apply map_ext. intros; ring. }
  rewrite all_some_none.
  2:{ apply Exists_exists in X as (q & I & B). apply in_map_iff. exists q. split; [|exact I].
      pose proof (close_lt' q B) as C.
      unfold wq_dn, wq_ri, wq_li. rewrite C.
      assert (last (repeat 0 (Datatypes.S n)) 0 = 0) as ->.
      { clear. induction n as [|n IH]; [reflexivity|]. exact IH. }
      rewrite Rmult_0_r. unfold searchsorted_right. rewrite count_all. 2:{ apply Forall_forall. intros x Hx. apply repeat_spec in Hx. lra. }
      rewrite repeat_length. unfold py_get, np_index. rewrite repeat_length.
      replace (Z.of_nat (Datatypes.S n) - 1 + 1)%Z with (Z.of_nat (Datatypes.S n)) by lia.
      destruct (_ && _) eqn:E1; [lia|]. destruct (_ && _) eqn:E2; [lia|]. reflexivity. }
  set (l := map fst (argsort dw)). assert (PL : Permutation l (map fst dw)) by (unfold l; now rewrite P).
  assert (l <> []) as L by (intros E; unfold l in E; apply map_eq_nil in E; rewrite E in En; discriminate En).
  destruct (np_linear l qs L Q) as (r & R1 & R2). exists l, r. repeat split; auto. now apply keys_sorted.
Qed.
Lemma none_included argsort dw qs t : sorts argsort -> Forall (fun p => snd p <= t) dw -> weighted_quantile argsort dw qs t = Raise IndexError.
Proof.
  intros S F. destruct (S dw) as [P _]. unfold weighted_quantile. cbv zeta.
  assert (F' : Forall (fun p => snd p <= t) (argsort dw)) by (rewrite Forall_forall in *; intros p I; apply F; now rewrite P in I).
  assert (filter (fun p => Rgtb (snd p) t) (argsort dw) = []) as ->; [|reflexivity]. clear - F'.
  induction F' as [|p l H F0 IH]; [reflexivity|]. cbn [filter]. replace (Rgtb (snd p) t) with false by (symmetry; unfold Rgtb; apply Rltb_false; lra). exact IH.
Qed.
