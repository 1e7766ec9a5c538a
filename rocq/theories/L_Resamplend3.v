(** Lemmas: the mean and the range of resampled arrays; arrays with two axes. *)
From Coq Require Import Lra Lia FunctionalExtensionality.
From Verif Require Import Base L_Base M_Translate M_Mapper M_Data S_Data M_Gss M_Ndimage L_Data3 L_Ndimage L_Ndimage2 L_Ndimage3 L_Ndimage4 M_Resample S_Resamplend L_Resamplend L_Resamplend2.
Local Open Scope R_scope.

Definition gfa (w : R) (n : Z) (g : Z -> R) (j : Z) : R := if Rgtb w 1e-15 then gauss_at 4 w n g j else g j.
Definition ufa0 (k n : Z) (g : Z -> R) (j : Z) : R := if (1 <? k)%Z then window_mean k (fun q => g (reflect_index n q)) (j - k / 2 - 0)%Z else g j.

Lemma Forall2_zip2 {A} (fa : A -> Z -> (Z -> R) -> Z -> R) (P : ((Z -> R) -> Z -> R) -> Z -> Prop) (l : list A) : forall sh, length sh = length l ->
  (forall a n, In a l -> In n sh -> P (fa a n) n) -> Forall2 P (zip2 fa l sh) sh.
Proof.
  induction l as [|a l IH]; intros [|n sh] L H; try discriminate L; [constructor|]. cbn [length] in L. apply Nat.succ_inj in L.
  unfold zip2. cbn [combine map fst snd]. constructor; [apply H; now left|]. apply IH; [exact L|]. intros; apply H; now right.
Qed.

(** an operation on each axis that keeps the sum and the range of each line *)
Section Keeps.
Context {A : Type} (fa : A -> Z -> (Z -> R) -> Z -> R) (op : A -> nat -> ndarray R -> ndarray R).
Hypothesis Op : forall a, op a = along_axis (fun n => n) (fa a).
Lemma keeps_shape l ar : length (nd_shape ar) = length l -> nd_shape (each_axis op l ar) = nd_shape ar.
Proof. intros L. destruct (each_nest (fun _ n => n) fa op Op l ar L) as [S _]. cbv zeta in S. rewrite S. now apply keep_shape. Qed.
Lemma keeps_total l ar : length (nd_shape ar) = length l -> (forall a n u, In a l -> In n (nd_shape ar) -> zsum n (fa a n u) = zsum n u) ->
  total (nd_shape (each_axis op l ar)) (nd_at (each_axis op l ar)) = total (nd_shape ar) (nd_at ar).
Proof.
  intros L H. rewrite (keeps_shape l ar L). destruct (each_nest (fun _ n => n) fa op Op l ar L) as [_ V]. cbv zeta in V.
  rewrite (total_ext (nd_shape ar) _ (nest (zip2 fa l (nd_shape ar)) (nd_at ar))) by (intros idx I; apply V; rewrite <- L; now apply index_len).
  apply nest_sum; [rewrite zip2_len; congruence|]. apply Forall2_zip2; [exact L|]. intros; now apply H.
Qed.
Lemma keeps_range lo hi l ar : length (nd_shape ar) = length l ->
  (forall a n u j, In a l -> In n (nd_shape ar) -> (forall k, (0 <= k < n)%Z -> lo <= u k <= hi) -> (0 <= j < n)%Z -> lo <= fa a n u j <= hi) ->
  array_between lo hi ar -> array_between lo hi (each_axis op l ar).
Proof.
  intros L H B idx. rewrite (keeps_shape l ar L). intros I. destruct (each_nest (fun _ n => n) fa op Op l ar L) as [_ V]. cbv zeta in V.
  rewrite V by (rewrite <- L; now apply index_len). apply (nest_between lo hi _ (nd_shape ar)); [rewrite zip2_len; congruence| |exact B|exact I].
  apply Forall2_zip2; [exact L|]. intros a n Ha Hn u j U J. now apply H.
Qed.
End Keeps.

Lemma gauss_axes l ar : length (nd_shape ar) = length l -> Forall (fun n => 0 < n)%Z (nd_shape ar) ->
  let b := each_axis gauss_axis l ar in
  nd_shape b = nd_shape ar /\ total (nd_shape b) (nd_at b) = total (nd_shape ar) (nd_at ar) /\ forall lo hi, array_between lo hi ar -> array_between lo hi b.
Proof.
  intros L N. cbv zeta. rewrite Forall_forall in N. split; [apply (keeps_shape gfa gauss_axis (fun _ => eq_refl)); exact L|]. split.
  - apply (keeps_total gfa gauss_axis (fun _ => eq_refl)); [exact L|]. intros w n u _ Hn. unfold gfa. destruct (Rgtb w 1e-15); [apply gauss_sum; now apply N|reflexivity].
  - intros lo hi. apply (keeps_range gfa gauss_axis (fun _ => eq_refl)); [exact L|]. intros w n u j _ Hn U J. unfold gfa. destruct (Rgtb w 1e-15); [|now apply U].
    apply gauss_between; [now apply N|exact U].
Qed.
Lemma uniform_axes l ar : length (nd_shape ar) = length l -> Forall (fun n => 0 < n)%Z (nd_shape ar) ->
  let b := each_axis (fun k => uniform_axis k 0) l ar in
  nd_shape b = nd_shape ar /\ (Forall (fun k => exists m, (0 <= m)%Z /\ k = (2 * m + 1)%Z) l -> total (nd_shape b) (nd_at b) = total (nd_shape ar) (nd_at ar)) /\
  forall lo hi, array_between lo hi ar -> array_between lo hi b.
Proof.
  intros L N. cbv zeta. rewrite Forall_forall in N. split; [apply (keeps_shape ufa0 (fun k => uniform_axis k 0) (fun _ => eq_refl)); exact L|]. split.
  - intros O. rewrite Forall_forall in O. apply (keeps_total ufa0 (fun k => uniform_axis k 0) (fun _ => eq_refl)); [exact L|]. intros k n u Hk Hn. unfold ufa0.
    destruct (Z.ltb_spec 1 k); [|reflexivity]. destruct (O k Hk) as (m & M & ->). apply window_sum; [exact M|now apply N].
  - intros lo hi. apply (keeps_range ufa0 (fun k => uniform_axis k 0) (fun _ => eq_refl)); [exact L|]. intros k n u j _ Hn U J. unfold ufa0. destruct (Z.ltb_spec 1 k); [|now apply U].
    apply window_between; [lia|]. intros q. apply U. apply reflect_range. now apply N.
Qed.

(** sums of enlarged and reduced arrays *)
Lemma total_repeat ks : forall sh f, length ks = length sh -> Forall (fun n => 0 < n)%Z sh -> Forall (fun k => 1 <= k)%Z ks ->
  total (zip Z.mul sh ks) (fun idx => f (zip Z.div idx ks)) = IZR (size_of ks) * total sh f.
Proof.
  induction ks as [|k ks IH]; intros [|n sh] f L N F; try discriminate L; [cbn; ring|]. inversion N; subst. inversion F; subst. cbn [length] in L. apply Nat.succ_inj in L.
  change (zip Z.mul (n :: sh) (k :: ks)) with ((n * k)%Z :: zip Z.mul sh ks). cbn [total].
  rewrite (zsum_ext (n * k) _ (fun i => IZR (size_of ks) * total sh (fun idx => f ((i / k)%Z :: idx)))).
  2:{ intros i _. rewrite <- (IH sh (fun idx => f ((i / k)%Z :: idx))) by assumption. reflexivity. }
  rewrite (zsum_repeat n k (fun i => IZR (size_of ks) * total sh (fun idx => f (i :: idx)))) by lia. rewrite zsum_nsum, nsum_scal, <- zsum_nsum. cbn [size_of fold_right].
  fold (size_of ks). rewrite mult_IZR. ring.
Qed.
Lemma total_blocks ks : forall ts f, length ks = length ts -> Forall (fun n => 0 < n)%Z ts -> Forall (fun k => 1 <= k)%Z ks ->
  total ts (fun idx => total ks (fun o => f (zip Z.add (zip Z.mul idx ks) o))) = total (zip Z.mul ts ks) f.
Proof.
  induction ks as [|k ks IH]; intros [|n ts] f L N F; try discriminate L; [reflexivity|]. inversion N; subst. inversion F; subst. cbn [length] in L. apply Nat.succ_inj in L.
  change (zip Z.mul (n :: ts) (k :: ks)) with ((n * k)%Z :: zip Z.mul ts ks). cbn [total]. rewrite zsum_blocks by lia. apply zsum_ext. intros i _.
  rewrite <- (zsum_ext k (fun a => total ts (fun idx => total ks (fun o => f ((i * k + a)%Z :: zip Z.add (zip Z.mul idx ks) o))))) by (intros a _; now apply (IH ts (fun l => f ((i * k + a)%Z :: l)))).
  rewrite <- (total_zsum k ts (fun a idx => total ks (fun o => f ((i * k + a)%Z :: zip Z.add (zip Z.mul idx ks) o)))). reflexivity.
Qed.
Lemma total_between sh : forall f lo hi, Forall (fun k => 1 <= k)%Z sh -> (forall idx, index_of sh idx -> lo <= f idx <= hi) ->
  lo * IZR (size_of sh) <= total sh f <= hi * IZR (size_of sh).
Proof.
  induction sh as [|n sh IH]; intros f lo hi N B.
  - cbn. specialize (B [] (Forall2_nil _)). lra.
  - inversion N as [|? ? N1 N2]; subst. cbn [total size_of fold_right]. fold (size_of sh). rewrite zsum_nsum, mult_IZR.
    assert (C : forall c, nsum (Z.to_nat n) (fun _ => c * IZR (size_of sh)) = c * (IZR n * IZR (size_of sh))).
    { intros c. rewrite nsum_const, INR_IZR_INZ, Z2Nat.id by lia. ring. }
    assert (T : forall i, (0 <= i < Z.of_nat (Z.to_nat n))%Z -> lo * IZR (size_of sh) <= total sh (fun idx => f (i :: idx)) <= hi * IZR (size_of sh)).
    { intros i I. apply IH; [exact N2|]. intros idx X. apply B. constructor; [lia|exact X]. }
    rewrite <- !C. split; apply nsum_le; intros i I; apply T; exact I.
Qed.

Lemma total_same a b : same_array a b -> total (nd_shape a) (nd_at a) = total (nd_shape b) (nd_at b).
Proof. intros [S V]. rewrite <- S. now apply total_ext. Qed.
Lemma between_same lo hi a b : same_array a b -> array_between lo hi b -> array_between lo hi a.
Proof. intros [S V] B idx I. rewrite V by exact I. apply B. now rewrite <- S. Qed.
Lemma div_index ks : forall sh idx, length ks = length sh -> Forall (fun k => 1 <= k)%Z ks -> index_of (zip Z.mul sh ks) idx -> index_of sh (zip Z.div idx ks).
Proof.
  induction ks as [|k ks IH]; intros [|n sh] idx L F I; try discriminate L; [inversion I; constructor|]. inversion F; subst. cbn [length] in L. apply Nat.succ_inj in L.
  change (zip Z.mul (n :: sh) (k :: ks)) with ((n * k)%Z :: zip Z.mul sh ks) in I. inversion I as [|? j ? idx' J I']; subst.
  change (zip Z.div (j :: idx') (k :: ks)) with ((j / k)%Z :: zip Z.div idx' ks). constructor; [|now apply IH]. split; [apply Z.div_pos; lia|apply Z.div_lt_upper_bound; lia].
Qed.
Lemma block_index ks : forall ts idx o, length ks = length ts -> Forall (fun k => 1 <= k)%Z ks -> index_of ts idx -> index_of ks o -> index_of (zip Z.mul ts ks) (zip Z.add (zip Z.mul idx ks) o).
Proof.
  induction ks as [|k ks IH]; intros [|n ts] idx o L F I O; try discriminate L; [inversion I; constructor|]. inversion F; subst. cbn [length] in L. apply Nat.succ_inj in L.
  inversion I as [|? j ? idx' J I']; subst. inversion O as [|? p ? o' P O']; subst.
  change (zip Z.mul (n :: ts) (k :: ks)) with ((n * k)%Z :: zip Z.mul ts ks). change (zip Z.add (zip Z.mul (j :: idx') (k :: ks)) (p :: o')) with ((j * k + p)%Z :: zip Z.add (zip Z.mul idx' ks) o').
  constructor; [nia|now apply IH].
Qed.
Lemma pos_one l : Forall (fun n => 0 < n)%Z l -> Forall (fun n => 1 <= n)%Z l.
Proof. apply Forall_impl. intros; lia. Qed.

Lemma up_mean_nd a ks gauss radius : Forall (fun n => 0 < n)%Z (nd_shape a) -> length ks = length (nd_shape a) -> Forall (fun k => 1 <= k)%Z ks -> (1 < size_of ks)%Z ->
  exists b, resample_nd a (Some (zip Z.mul (nd_shape a) ks)) gauss radius = Ok b /\ nd_shape b = zip Z.mul (nd_shape a) ks /\
    mean_of b = mean_of a /\ forall lo hi, array_between lo hi a -> array_between lo hi b.
Proof.
  intros N L F P. unfold resample_nd. rewrite ratios_up by assumption. cbv zeta. rewrite up_cond by assumption.
  pose proof (repeat_nd ks a L F) as RS. set (m := each_axis repeat_axis (map IZR ks) a) in *. pose proof RS as [S _]. cbn [nd_shape] in S.
  assert (T : total (nd_shape m) (nd_at m) = IZR (size_of ks) * total (nd_shape a) (nd_at a)).
  { rewrite (total_same _ _ RS). cbn [nd_shape nd_at]. now apply total_repeat. }
  assert (B : forall lo hi, array_between lo hi a -> array_between lo hi m).
  { intros lo hi H. apply (between_same _ _ _ _ RS). intros idx I. cbn [nd_at nd_shape] in *. apply H. now apply div_index. }
  assert (Z1 : (1 <= size_of (nd_shape a))%Z) by (apply size_pos, pos_one; exact N).
  assert (ME : forall t, t = IZR (size_of ks) * total (nd_shape a) (nd_at a) -> t / IZR (size_of (zip Z.mul (nd_shape a) ks)) = mean_of a).
  { intros t ->. unfold mean_of. rewrite size_zip by congruence. rewrite mult_IZR. field. split; apply not_0_IZR; lia. }
  destruct gauss.
  - assert (NM : Forall (fun n => 0 < n)%Z (nd_shape m)).
    { rewrite S. clear - N L F. revert ks L F. induction N as [|n sh H N IH]; intros [|k ks] L F; try discriminate L; [constructor|]. inversion F; subst. cbn [length] in L. apply Nat.succ_inj in L.
      change (zip Z.mul (n :: sh) (k :: ks)) with ((n * k)%Z :: zip Z.mul sh ks). constructor; [nia|now apply IH]. }
    match goal with |- context[each_axis gauss_axis ?l m] => destruct (gauss_axes l m) as (GS & GT & GB) end.
    + rewrite S, zip_len by congruence. destruct radius; rewrite !map_length; congruence.
    + exact NM.
    + eexists. split; [reflexivity|]. split; [now rewrite GS|]. split; [|intros lo hi H; apply GB, B, H]. unfold mean_of at 1. rewrite GT, GS. rewrite T, S. apply ME. reflexivity.
  - eexists. split; [reflexivity|]. split; [exact S|]. split; [|exact B]. unfold mean_of at 1. rewrite T, S. apply ME. reflexivity.
Qed.

Lemma down_mean_nd a ts ks gauss radius : Forall (fun n => 0 < n)%Z ts -> length ks = length ts -> Forall (fun k => 1 <= k)%Z ks -> (1 < size_of ks)%Z ->
  nd_shape a = zip Z.mul ts ks ->
  exists b, resample_nd a (Some ts) gauss radius = Ok b /\ nd_shape b = ts /\ mean_of b = mean_of a /\ forall lo hi, array_between lo hi a -> array_between lo hi b.
Proof.
  intros N L F P S. destruct (down_nd a ts ks gauss radius N L F P S) as (b & E & SB). exists b. split; [exact E|]. pose proof SB as [S1 _]. cbn [nd_shape] in S1. split; [exact S1|].
  assert (Z1 : (1 <= size_of ts)%Z) by (apply size_pos, pos_one; exact N). split.
  - unfold mean_of. rewrite (total_same _ _ SB), S1. cbn [nd_shape nd_at].
    rewrite (total_ext ts _ (fun idx => / IZR (size_of ks) * total ks (fun o => nd_at a (zip Z.add (zip Z.mul idx ks) o)))) by (intros; unfold Rdiv; ring).
    rewrite total_scal, total_blocks by assumption. rewrite S, size_zip by congruence. rewrite mult_IZR. field. split; apply not_0_IZR; lia.
  - intros lo hi H. apply (between_same _ _ _ _ SB). intros idx I. cbn [nd_at nd_shape] in *.
    pose proof (total_between ks (fun o => nd_at a (zip Z.add (zip Z.mul idx ks) o)) lo hi F) as T.
    assert (0 < IZR (size_of ks)) as K by (apply (IZR_lt 0); lia).
    destruct T as [T1 T2]. { intros o O. apply H. rewrite S. now apply block_index. }
    split; (apply Rmult_le_reg_r with (IZR (size_of ks)); [exact K|]; unfold Rdiv; rewrite Rmult_assoc, Rinv_l, Rmult_1_r by lra; assumption).
Qed.

Lemma ratios_same sh : Forall (fun n => 0 < n)%Z sh -> ratios sh sh = Some (map (fun _ => 1) sh).
Proof.
  intros N. rewrite ratios_eq by reflexivity. f_equal. induction N as [|n sh H N IH]; [reflexivity|]. cbn [combine map fst snd]. rewrite IH. f_equal. field. apply not_0_IZR. lia.
Qed.
Lemma prod_ones (sh : list Z) : fold_right Rmult 1 (map (fun _ => 1) sh) = 1.
Proof. induction sh as [|n sh IH]; [reflexivity|]. cbn [map fold_right]. rewrite IH. ring. Qed.
Lemma same_mean_nd a ts gauss r : Forall (fun n => 0 < n)%Z (nd_shape a) -> ts = None \/ ts = Some (nd_shape a) -> (gauss = false -> exists m, (0 <= m)%Z /\ IZR (2 * m + 1) <= r < IZR (2 * m + 2)) ->
  exists b, resample_nd a ts gauss (Some r) = Ok b /\ nd_shape b = nd_shape a /\ mean_of b = mean_of a /\ forall lo hi, array_between lo hi a -> array_between lo hi b.
Proof.
  intros N T G. unfold resample_nd. replace (match ts with Some t => t | None => nd_shape a end) with (nd_shape a) by (destruct T as [-> | ->]; reflexivity).
  rewrite ratios_same by exact N. cbv zeta. rewrite prod_ones. replace (Rgtb 1 1) with false by (symmetry; unfold Rgtb; apply Rltb_false; lra).
  replace (Rltb 1 1) with false by (symmetry; apply Rltb_false; lra). destruct gauss.
  - match goal with |- context[each_axis gauss_axis ?l a] => destruct (gauss_axes l a) as (GS & GT & GB) end; [now rewrite !map_length|exact N|].
    eexists. split; [reflexivity|]. split; [exact GS|]. split; [|exact GB]. unfold mean_of. now rewrite GT, GS.
  - destruct (G eq_refl) as (m & M & B).
    assert (Rtrunc r = (2 * m + 1)%Z) as ->.
    { unfold Rtrunc. assert (0 < IZR (2 * m + 1)) by (apply (IZR_lt 0); lia). replace (Rltb r 0) with false by (symmetry; apply Rltb_false; lra). apply Rfloor_unique.
      rewrite <- plus_IZR. replace (2 * m + 1 + 1)%Z with (2 * m + 2)%Z by lia. exact B. }
    match goal with |- context[each_axis ?o ?l a] => destruct (uniform_axes l a) as (GS & GT & GB) end; [now rewrite !map_length|exact N|].
    eexists. split; [reflexivity|]. split; [exact GS|]. split; [|exact GB]. unfold mean_of. rewrite GT, GS; [reflexivity|]. apply Forall_map, Forall_map. apply Forall_forall. intros _ _. exists m. split; [exact M|reflexivity].
Qed.
Lemma none_nd a gauss : Forall (fun n => 0 < n)%Z (nd_shape a) -> resample_nd a None gauss None = Ok a.
Proof.
  intros N. unfold resample_nd. rewrite ratios_same by exact N. cbv zeta. rewrite prod_ones. replace (Rgtb 1 1) with false by (symmetry; unfold Rgtb; apply Rltb_false; lra).
  replace (Rltb 1 1) with false by (symmetry; apply Rltb_false; lra). reflexivity.
Qed.
Lemma wrong_axes a ts gauss radius : length ts <> length (nd_shape a) -> length ts <> 1%nat -> resample_nd a (Some ts) gauss radius = Raise ValueError.
Proof.
  intros L O. unfold resample_nd, ratios. replace (match ts with [t] => map (fun _ => t) (nd_shape a) | _ => ts end) with ts by (destruct ts as [|t [|]]; try reflexivity; now contradiction O).
  destruct (Nat.eqb_spec (length ts) (length (nd_shape a))); [contradiction|reflexivity].
Qed.
Lemma one_number a t gauss radius : resample_nd a (Some [t]) gauss radius = resample_nd a (Some (map (fun _ => t) (nd_shape a))) gauss radius.
Proof.
  unfold resample_nd. rewrite (ratios_eq (map (fun _ => t) (nd_shape a))) by apply map_length. unfold ratios. cbv zeta. now rewrite map_length, Nat.eqb_refl.
Qed.
