(** Sums along a mirrored axis. *)
From Coq Require Import Lra Lia Psatz.
From Verif Require Import Base L_Base M_Translate M_Mapper M_Data S_Data L_Data3 M_Gss M_Ndimage S_Ndimage.
Local Open Scope R_scope.

Definition nsum (n : nat) (f : Z -> R) : R := fold_right Rplus 0 (map (fun k => f (Z.of_nat k)) (seq 0 n)).
Lemma zsum_nsum n f : zsum n f = nsum (Z.to_nat n) f.
Proof. reflexivity. Qed.
Lemma axis_nsum n f : axis_sum n f = nsum (Z.to_nat n) f.
Proof. reflexivity. Qed.
Lemma axis_zsum n f : axis_sum n f = zsum n f.
Proof. reflexivity. Qed.
Lemma nsum_ext n f g : (forall k, (0 <= k < Z.of_nat n)%Z -> f k = g k) -> nsum n f = nsum n g.
Proof. intros H. unfold nsum. f_equal. apply map_ext_in. intros k Hk. apply in_seq in Hk. apply H. lia. Qed.
Lemma fold_plus_app a b : fold_right Rplus 0 (a ++ b) = fold_right Rplus 0 a + fold_right Rplus 0 b.
Proof. induction a as [|x a IH]; cbn [app fold_right]; [ring|]. rewrite IH. ring. Qed.
Lemma nsum_S n f : nsum (S n) f = nsum n f + f (Z.of_nat n).
Proof. unfold nsum. rewrite seq_S, map_app, fold_plus_app. cbn [map fold_right plus]. ring. Qed.
Lemma nsum_app a b f : nsum (a + b) f = nsum a f + nsum b (fun i => f (Z.of_nat a + i)%Z).
Proof.
  induction b as [|b IH]; [rewrite Nat.add_0_r; unfold nsum at 3; cbn [seq map fold_right]; ring|].
  rewrite Nat.add_succ_r, !nsum_S, IH. replace (Z.of_nat (a + b)) with (Z.of_nat a + Z.of_nat b)%Z by lia. ring.
Qed.
Lemma nsum_first n f : nsum (S n) f = f 0%Z + nsum n (fun i => f (1 + i)%Z).
Proof. change (S n) with (1 + n)%nat. rewrite nsum_app. unfold nsum at 1. cbn [seq map fold_right]. change (Z.of_nat 0) with 0%Z. change (Z.of_nat 1) with 1%Z. ring. Qed.
Lemma nsum_rev n : forall f, nsum n f = nsum n (fun i => f (Z.of_nat n - 1 - i)%Z).
Proof.
  induction n as [|n IH]; intros f; [reflexivity|]. rewrite nsum_S, nsum_first, (IH f). replace (Z.of_nat (S n) - 1 - 0)%Z with (Z.of_nat n) by lia.
  rewrite Rplus_comm. f_equal. apply nsum_ext. intros k Hk. f_equal. lia.
Qed.
Lemma nsum_plus n f g : nsum n (fun i => f i + g i) = nsum n f + nsum n g.
Proof. induction n as [|n IH]; [unfold nsum; cbn; ring|]. rewrite !nsum_S, IH. ring. Qed.
Lemma nsum_scal n c f : nsum n (fun i => c * f i) = c * nsum n f.
Proof. induction n as [|n IH]; [unfold nsum; cbn; ring|]. rewrite !nsum_S, IH. ring. Qed.
Lemma nsum_0 n : nsum n (fun _ => 0) = 0.
Proof. induction n as [|n IH]; [reflexivity|]. rewrite nsum_S, IH. ring. Qed.
Lemma nsum_swap n m f : nsum n (fun i => nsum m (fun j => f i j)) = nsum m (fun j => nsum n (fun i => f i j)).
Proof.
  induction n as [|n IH].
  - unfold nsum at 1. cbn [seq map fold_right]. symmetry. rewrite (nsum_ext m _ (fun _ => 0)); [apply nsum_0|]. intros; reflexivity.
  - rewrite nsum_S, IH, <- nsum_plus. apply nsum_ext. intros j _. now rewrite nsum_S.
Qed.
Lemma nsum_pos n f : (forall k, (0 <= k < Z.of_nat n)%Z -> 0 < f k) -> (0 < n)%nat -> 0 < nsum n f.
Proof.
  intros H N. induction n as [|n IH]; [lia|]. rewrite nsum_S. assert (0 < f (Z.of_nat n)) by (apply H; lia).
  destruct n as [|n]; [unfold nsum; cbn [seq map fold_right]; cbn in *; lra|]. assert (0 < nsum (S n) f) by (apply IH; [intros; apply H; lia|lia]). lra.
Qed.
Lemma nsum_le n f g : (forall k, (0 <= k < Z.of_nat n)%Z -> f k <= g k) -> nsum n f <= nsum n g.
Proof. intros H. induction n as [|n IH]; [unfold nsum; cbn; lra|]. rewrite !nsum_S. apply Rplus_le_compat; [apply IH; intros; apply H; lia|apply H; lia]. Qed.

(** * the mirrored axis *)
Section Mirror.
Context (n : nat) (e : Z -> R).
Hypothesis (E1 : forall i, e (-1 - i)%Z = e i) (E2 : forall i, e (i + 2 * Z.of_nat n)%Z = e i).
Lemma shift_up k : nsum (n + n) (fun i => e (i + (k + 1))%Z) = nsum (n + n) (fun i => e (i + k)%Z).
Proof.
  pose proof (nsum_first (n + n) (fun i => e (i + k)%Z)) as F. rewrite nsum_S in F. cbv beta in F.
  replace (Z.of_nat (n + n) + k)%Z with (k + 2 * Z.of_nat n)%Z in F by lia. rewrite E2 in F. change (0 + k)%Z with k in F.
  rewrite (nsum_ext (n + n) _ (fun i => e (1 + i + k)%Z)); [lra|]. intros i _. f_equal. lia.
Qed.
Lemma period k : nsum (n + n) (fun i => e (i + k)%Z) = nsum (n + n) e.
Proof.
  assert (G : forall m : nat, nsum (n + n) (fun i => e (i + Z.of_nat m)%Z) = nsum (n + n) e /\ nsum (n + n) (fun i => e (i + - Z.of_nat m)%Z) = nsum (n + n) e).
  { induction m as [|m [IH1 IH2]].
    - split; apply nsum_ext; intros i _; f_equal; lia.
    - split.
      + rewrite <- IH1, <- (shift_up (Z.of_nat m)). apply nsum_ext. intros i _. f_equal. lia.
      + rewrite <- IH2. replace (- Z.of_nat m)%Z with (- Z.of_nat (S m) + 1)%Z by lia. now rewrite shift_up. }
  destruct (G (Z.to_nat (Z.abs k))) as [G1 G2]. destruct (Z.abs_spec k) as [[P Q]|[P Q]].
  - rewrite <- G1. apply nsum_ext. intros i _. f_equal. lia.
  - rewrite <- G2. apply nsum_ext. intros i _. f_equal. lia.
Qed.
Lemma there_and_back k : nsum n (fun i => e (i + k)%Z) + nsum n (fun i => e (i - k)%Z) = 2 * nsum n e.
Proof.
  rewrite (nsum_rev n (fun i => e (i - k)%Z)). rewrite (nsum_ext n (fun i => e (Z.of_nat n - 1 - i - k)%Z) (fun i => e (Z.of_nat n + i + k)%Z)).
  2:{ intros i _. rewrite <- E1. rewrite <- E2. f_equal. lia. }
  rewrite <- (nsum_app n n (fun i => e (i + k)%Z)), period, nsum_app. rewrite (nsum_ext n (fun i => e (Z.of_nat n + i)%Z) (fun i => e (Z.of_nat n - 1 - i)%Z)).
  2:{ intros i _. rewrite <- (E1 (Z.of_nat n + i)). rewrite <- E2. f_equal. lia. }
  rewrite <- nsum_rev. ring.
Qed.
(** weights that are the same to both sides, with the sum 1, keep the sum of the axis *)
Lemma symmetric_keeps lw w : (0 <= lw)%Z -> (forall k, w (- k)%Z = w k) -> nsum (Z.to_nat (2 * lw + 1)) (fun k => w (k - lw)%Z) = 1 ->
  nsum n (fun i => nsum (Z.to_nat (2 * lw + 1)) (fun k => w (k - lw)%Z * e (i + (k - lw))%Z)) = nsum n e.
Proof.
  intros L W T. rewrite nsum_swap. set (m := Z.to_nat (2 * lw + 1)) in *.
  rewrite (nsum_ext m _ (fun k => w (k - lw)%Z * nsum n (fun i => e (i + (k - lw))%Z))) by (intros; now rewrite nsum_scal).
  set (Sx := nsum m _). assert (Sx = nsum m (fun k => w (k - lw)%Z * nsum n (fun i => e (i - (k - lw))%Z))) as R.
  { unfold Sx. rewrite nsum_rev. apply nsum_ext. intros k _. unfold m. replace (Z.of_nat (Z.to_nat (2 * lw + 1)) - 1 - k - lw)%Z with (- (k - lw))%Z by lia.
    rewrite W. reflexivity. }
  assert (Sx + Sx = 2 * nsum n e) as D; [|lra]. rewrite R at 2. unfold Sx. rewrite <- nsum_plus.
  rewrite (nsum_ext m _ (fun k => 2 * nsum n e * w (k - lw)%Z)).
  - rewrite nsum_scal, T. ring.
  - intros k _. pose proof (there_and_back (k - lw)%Z). nra.
Qed.
End Mirror.

Lemma reflect_flip n i : (0 < n)%Z -> reflect_index n (-1 - i) = reflect_index n i.
Proof.
  intros N. unfold reflect_index. pose proof (Z_div_mod_eq_full i (2 * n)) as D. pose proof (Z.mod_pos_bound i (2 * n) ltac:(lia)) as B.
  assert ((-1 - i) mod (2 * n) = 2 * n - 1 - i mod (2 * n))%Z as M by (symmetry; apply (Z.mod_unique _ _ (-1 - i / (2 * n))); lia).
  rewrite M. destruct (Z.ltb_spec (2 * n - 1 - i mod (2 * n)) n); destruct (Z.ltb_spec (i mod (2 * n)) n); lia.
Qed.
Lemma reflect_period n i : (0 < n)%Z -> reflect_index n (i + 2 * n) = reflect_index n i.
Proof. intros N. unfold reflect_index. replace (i + 2 * n)%Z with (i + 1 * (2 * n))%Z by lia. now rewrite Z.mod_add by lia. Qed.
Lemma reflect_range n i : (0 < n)%Z -> (0 <= reflect_index n i < n)%Z.
Proof.
  intros N. unfold reflect_index. pose proof (Z.mod_pos_bound i (2 * n) ltac:(lia)) as B. destruct (Z.ltb_spec (i mod (2 * n)) n); lia.
Qed.
(** the mirror image of an axis *)
Lemma reflect_far n i : (0 < n)%Z -> reflect_index n (n - 1 - i) = (n - 1 - reflect_index n i)%Z.
Proof.
  intros N. unfold reflect_index. pose proof (Z_div_mod_eq_full i (2 * n)) as D. pose proof (Z.mod_pos_bound i (2 * n) ltac:(lia)) as B.
  destruct (Z.ltb_spec (i mod (2 * n)) n) as [C|C].
  - assert ((n - 1 - i) mod (2 * n) = n - 1 - i mod (2 * n))%Z as M by (symmetry; apply (Z.mod_unique _ _ (- (i / (2 * n)))); lia).
    rewrite M. destruct (Z.ltb_spec (n - 1 - i mod (2 * n)) n); lia.
  - assert ((n - 1 - i) mod (2 * n) = 3 * n - 1 - i mod (2 * n))%Z as M by (symmetry; apply (Z.mod_unique _ _ (- (i / (2 * n)) - 1)); lia).
    rewrite M. destruct (Z.ltb_spec (3 * n - 1 - i mod (2 * n)) n); lia.
Qed.

(** * the Gaussian filter along one axis *)
Lemma radius_nonneg t w : (0 <= gauss_radius t w)%Z.
Proof. unfold gauss_radius. lia. Qed.
Lemma weight_even w k : gauss_weight w (- k) = gauss_weight w k.
Proof. unfold gauss_weight. rewrite opp_IZR. unfold square. f_equal. ring. Qed.
Lemma weight_total t w : let lw := gauss_radius t w in 0 < axis_sum (2 * lw + 1) (fun k => gauss_weight w (k - lw)).
Proof. cbv zeta. rewrite axis_nsum. pose proof (radius_nonneg t w). apply nsum_pos; [intros; apply exp_pos|lia]. Qed.
Lemma weight_one t w : let lw := gauss_radius t w in let tot := axis_sum (2 * lw + 1) (fun k => gauss_weight w (k - lw)) in
  nsum (Z.to_nat (2 * lw + 1)) (fun k => gauss_weight w (k - lw) / tot) = 1.
Proof.
  cbv zeta. pose proof (weight_total t w) as P. cbv zeta in P. set (tot := axis_sum _ _) in *. set (lw := gauss_radius t w) in *.
  rewrite (nsum_ext _ _ (fun k => / tot * gauss_weight w (k - lw))) by (intros; unfold Rdiv; ring). rewrite nsum_scal, <- axis_nsum. fold tot. field. lra.
Qed.
Lemma gauss_sum t w n f : (0 < n)%Z -> zsum n (gauss_at t w n f) = zsum n f.
Proof.
  intros N. rewrite !zsum_nsum. unfold gauss_at. cbv zeta. set (lw := gauss_radius t w). set (tot := axis_sum _ (fun k => gauss_weight w (k - lw))).
  assert (K1 : forall i, f (reflect_index n (-1 - i)) = f (reflect_index n i)) by (intros i; now rewrite reflect_flip).
  assert (K2 : forall i, f (reflect_index n (i + 2 * Z.of_nat (Z.to_nat n))) = f (reflect_index n i)) by (intros i; rewrite Z2Nat.id by lia; now rewrite reflect_period).
  assert (K3 : forall k, gauss_weight w (- k) / tot = gauss_weight w k / tot) by (intros k; now rewrite weight_even).
  pose proof (symmetric_keeps (Z.to_nat n) (fun i => f (reflect_index n i)) K1 K2 lw (fun k => gauss_weight w k / tot) (radius_nonneg t w) K3 (weight_one t w)) as K. cbv beta in K.
  etransitivity; [exact K|]. apply nsum_ext. intros i Hi. rewrite reflect_index_in; [reflexivity|lia].
Qed.
Lemma gauss_between t w n f lo hi i : (0 < n)%Z -> (forall k, (0 <= k < n)%Z -> lo <= f k <= hi) -> lo <= gauss_at t w n f i <= hi.
Proof.
  intros N B. unfold gauss_at. cbv zeta. set (lw := gauss_radius t w). set (tot := axis_sum _ (fun k => gauss_weight w (k - lw))). rewrite axis_nsum.
  pose proof (weight_total t w) as P. cbv zeta in P. fold lw tot in P. pose proof (weight_one t w) as W. cbv zeta in W. fold lw tot in W. set (m := Z.to_nat (2 * lw + 1)) in *.
  assert (Q : forall k, 0 < gauss_weight w (k - lw) / tot) by (intros k; apply Rdiv_lt_0_compat; [apply exp_pos|exact P]).
  split.
  - replace lo with (lo * nsum m (fun k => gauss_weight w (k - lw) / tot)) by (rewrite W; ring). rewrite <- nsum_scal. apply nsum_le. intros k _.
    specialize (Q k). pose proof (B _ (reflect_range n (i + (k - lw)) N)). nra.
  - replace hi with (hi * nsum m (fun k => gauss_weight w (k - lw) / tot)) by (rewrite W; ring). rewrite <- nsum_scal. apply nsum_le. intros k _.
    specialize (Q k). pose proof (B _ (reflect_range n (i + (k - lw)) N)). nra.
Qed.
Lemma gauss_ext t w n f g i : (0 < n)%Z -> (forall k, (0 <= k < n)%Z -> f k = g k) -> gauss_at t w n f i = gauss_at t w n g i.
Proof.
  intros N H. unfold gauss_at. cbv zeta. rewrite !axis_nsum. apply nsum_ext. intros k _. f_equal. apply H. now apply reflect_range.
Qed.
Lemma gauss_flip t w n f i : (0 < n)%Z -> gauss_at t w n (fun k => f (n - 1 - k)%Z) i = gauss_at t w n f (n - 1 - i)%Z.
Proof.
  intros N. unfold gauss_at. cbv zeta. set (lw := gauss_radius t w). set (tot := axis_sum _ (fun k => gauss_weight w (k - lw))).
  change (axis_sum (2 * lw + 1) (fun k => gauss_weight w (k - lw))) with tot. rewrite !axis_nsum. rewrite nsum_rev. apply nsum_ext. intros k Hk.
  pose proof (radius_nonneg t w). fold lw in H. replace (Z.of_nat (Z.to_nat (2 * lw + 1)) - 1 - k - lw)%Z with (- (k - lw))%Z by lia. rewrite weight_even. f_equal. f_equal.
  rewrite <- reflect_far by exact N. f_equal. lia.
Qed.
