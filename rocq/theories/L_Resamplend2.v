(** Lemmas about resample for arrays with any number of axes. *)
From Coq Require Import Lra Lia FunctionalExtensionality.
From Verif Require Import Base L_Base M_Translate M_Mapper M_Data S_Data M_Gss M_Ndimage L_Data3 L_Ndimage L_Ndimage2 L_Ndimage3 L_Ndimage4 M_Resample S_Resamplend L_Resamplend.
Local Open Scope R_scope.

Lemma index_len sh idx : index_of sh idx -> length idx = length sh.
Proof. induction 1; cbn; auto. Qed.
Lemma zip_len op a b : length a = length b -> length (zip op a b) = length a.
Proof. intros H. unfold zip. rewrite map_length, combine_length. lia. Qed.
Lemma zip2_len {A B C} (f : A -> B -> C) a b : length a = length b -> length (zip2 f a b) = length a.
Proof. intros H. unfold zip2. rewrite map_length, combine_length. lia. Qed.

Lemma ratios_eq ts sh : length ts = length sh -> ratios ts sh = Some (map (fun p => IZR (fst p) / IZR (snd p)) (combine ts sh)).
Proof.
  intros H. unfold ratios. replace (match ts with [t] => map (fun _ => t) sh | _ => ts end) with ts.
  - rewrite H, Nat.eqb_refl. reflexivity.
  - destruct ts as [|t [|]]; [reflexivity| |reflexivity]. destruct sh as [|n [|]]; [discriminate H|reflexivity|discriminate H].
Qed.
Lemma prod_IZR ks : fold_right Rmult 1 (map IZR ks) = IZR (size_of ks).
Proof. induction ks as [|k ks IH]; [reflexivity|]. cbn [map fold_right size_of]. rewrite IH, mult_IZR. reflexivity. Qed.
Lemma size_pos ks : Forall (fun k => 1 <= k)%Z ks -> (1 <= size_of ks)%Z.
Proof. induction 1 as [|k ks H F IH]; cbn; [lia|]. unfold size_of in IH. nia. Qed.
Lemma size_zip a b : length a = length b -> size_of (zip Z.mul a b) = (size_of a * size_of b)%Z.
Proof.
  revert b. induction a as [|x a IH]; intros [|y b] H; try discriminate H; [reflexivity|]. cbn [length] in H. apply Nat.succ_inj in H.
  change (zip Z.mul (x :: a) (y :: b)) with ((x * y)%Z :: zip Z.mul a b). cbn [size_of fold_right]. fold (size_of (zip Z.mul a b)) (size_of a) (size_of b). rewrite IH by exact H. ring.
Qed.

(** ** up *)
Lemma ratios_up sh ks : length ks = length sh -> Forall (fun n => 0 < n)%Z sh -> ratios (zip Z.mul sh ks) sh = Some (map IZR ks).
Proof.
  intros L F. rewrite ratios_eq by now rewrite zip_len. f_equal. revert ks L. induction F as [|n sh N F IH]; intros [|k ks] L; try discriminate L; [reflexivity|].
  cbn [length] in L. apply Nat.succ_inj in L. change (zip Z.mul (n :: sh) (k :: ks)) with ((n * k)%Z :: zip Z.mul sh ks). cbn [combine map fst snd]. rewrite IH by exact L. f_equal.
  rewrite mult_IZR. field. apply not_0_IZR. lia.
Qed.
Lemma up_shape sh ks : length ks = length sh -> Forall (fun k => 1 <= k)%Z ks -> zip2 (fun (r : R) n => (n * Rtrunc r)%Z) (map IZR ks) sh = zip Z.mul sh ks.
Proof.
  revert sh. induction ks as [|k ks IH]; intros [|n sh] L F; try discriminate L; [reflexivity|]. inversion F; subst. cbn [length] in L. apply Nat.succ_inj in L.
  unfold zip2, zip in *. cbn [map combine fst snd]. rewrite IH by assumption. rewrite Rtrunc_IZR by lia. reflexivity.
Qed.
Lemma up_at ks : forall sh f idx, length ks = length sh -> Forall (fun k => 1 <= k)%Z ks -> length idx = length sh ->
  nest (zip2 (fun (r : R) (_ : Z) (g : Z -> R) j => g (j / Rtrunc r)%Z) (map IZR ks) sh) f idx = f (zip Z.div idx ks).
Proof.
  induction ks as [|k ks IH]; intros [|n sh] f idx L F I; try discriminate L; destruct idx as [|j idx]; try discriminate I; [reflexivity|].
  inversion F; subst. cbn [length] in L, I. apply Nat.succ_inj in L, I. unfold zip2. cbn [map combine fst snd nest].
  fold (zip2 (fun (r : R) (_ : Z) (g : Z -> R) j => g (j / Rtrunc r)%Z) (map IZR ks) sh). rewrite IH by assumption. rewrite Rtrunc_IZR by lia. reflexivity.
Qed.
Lemma repeat_nd ks a : length ks = length (nd_shape a) -> Forall (fun k => 1 <= k)%Z ks ->
  same_array (each_axis repeat_axis (map IZR ks) a) (ND (zip Z.mul (nd_shape a) ks) (fun idx => nd_at a (zip Z.div idx ks))).
Proof.
  intros L F. destruct (each_nest (fun r n => (n * Rtrunc r)%Z) (fun r _ g j => g (j / Rtrunc r)%Z) repeat_axis (fun _ => eq_refl) (map IZR ks) a) as [S V];
    [now rewrite map_length|]. rewrite up_shape in S by assumption. split; [exact S|]. intros idx I. cbn [nd_at]. apply index_len in I. rewrite S, zip_len in I by congruence.
  rewrite V by (rewrite map_length; congruence). now apply up_at.
Qed.
Lemma up_cond ks : Forall (fun k => 1 <= k)%Z ks -> (1 < size_of ks)%Z -> Rgtb (fold_right Rmult 1 (map IZR ks)) 1 = true.
Proof. intros F P. rewrite prod_IZR. unfold Rgtb. apply Rltb_true. apply (IZR_lt 1). exact P. Qed.

Lemma up_nd a ks radius : Forall (fun n => 0 < n)%Z (nd_shape a) -> length ks = length (nd_shape a) -> Forall (fun k => 1 <= k)%Z ks -> (1 < size_of ks)%Z ->
  exists b, resample_nd a (Some (zip Z.mul (nd_shape a) ks)) false radius = Ok b /\
    same_array b (ND (zip Z.mul (nd_shape a) ks) (fun idx => nd_at a (zip Z.div idx ks))).
Proof.
  intros N L F P. unfold resample_nd. rewrite ratios_up by assumption. cbv zeta. rewrite up_cond by assumption. eexists. split; [reflexivity|]. now apply repeat_nd.
Qed.

(** ** down *)
Lemma ratios_down ts ks : length ks = length ts -> Forall (fun n => 0 < n)%Z ts -> Forall (fun k => 1 <= k)%Z ks ->
  ratios ts (zip Z.mul ts ks) = Some (map (fun k => / IZR k) ks).
Proof.
  intros L F G. rewrite ratios_eq by now rewrite zip_len. f_equal. revert ks L G. induction F as [|n sh N F IH]; intros [|k ks] L G; try discriminate L; [reflexivity|].
  cbn [length] in L. apply Nat.succ_inj in L. inversion G; subst. change (zip Z.mul (n :: sh) (k :: ks)) with ((n * k)%Z :: zip Z.mul sh ks). cbn [combine map fst snd]. rewrite IH by assumption. f_equal.
  rewrite mult_IZR. field. split; apply not_0_IZR; lia.
Qed.
Lemma prod_inv ks : Forall (fun k => 1 <= k)%Z ks -> fold_right Rmult 1 (map (fun k => / IZR k) ks) = / IZR (size_of ks).
Proof.
  induction 1 as [|k ks K F IH]; [cbn; field|]. cbn [map fold_right size_of]. rewrite IH. fold (size_of ks). pose proof (size_pos ks F). rewrite mult_IZR. field.
  split; apply not_0_IZR; lia.
Qed.
Lemma down_ks ks : Forall (fun k => 1 <= k)%Z ks -> map (fun r => Rtrunc (1 / r)) (map (fun k => / IZR k) ks) = ks.
Proof.
  induction 1 as [|k ks K F IH]; [reflexivity|]. cbn [map]. rewrite IH. f_equal. replace (1 / / IZR k) with (IZR k) by (field; apply not_0_IZR; lia). apply Rtrunc_IZR. lia.
Qed.
Lemma no_zero ks : Forall (fun k => 1 <= k)%Z ks -> existsb (Z.eqb 0) ks = false.
Proof. induction 1 as [|k ks K F IH]; [reflexivity|]. cbn [existsb]. rewrite IH. destruct (Z.eqb_spec 0 k); [lia|reflexivity]. Qed.

Definition ufa (k n : Z) (g : Z -> R) (j : Z) : R :=
  if (1 <? k)%Z then window_mean k (fun q => g (reflect_index n q)) (j - k / 2 - Rtrunc (- IZR k / 2))%Z else g j.
Lemma block_line t k u i : (1 <= k)%Z -> (0 <= i < t)%Z -> ufa k (t * k) u (i * k) = / IZR k * zsum k (fun b => u (i * k + b)%Z).
Proof.
  intros K I. unfold ufa. rewrite Rtrunc_neg_half by lia. destruct (Z.ltb_spec 1 k) as [L|L].
  - rewrite window_nsum, zsum_nsum. unfold Rdiv. rewrite Rmult_comm. f_equal. apply nsum_ext. intros b B. rewrite Z2Nat.id in B by lia.
    replace (i * k - k / 2 - - (k / 2) + b)%Z with (i * k + b)%Z by lia. rewrite reflect_index_in by nia. reflexivity.
  - assert (k = 1)%Z as -> by lia. rewrite zsum_nsum. change (Z.to_nat 1) with 1%nat. unfold nsum. cbn [seq map fold_right]. rewrite Z.add_0_r. field.
Qed.
Lemma block_at ks : forall ts f idx, length ks = length ts -> Forall (fun k => 1 <= k)%Z ks -> index_of ts idx ->
  nest (zip2 ufa ks (zip Z.mul ts ks)) f (zip Z.mul idx ks) = / IZR (size_of ks) * total ks (fun o => f (zip Z.add (zip Z.mul idx ks) o)).
Proof.
  induction ks as [|k ks IH]; intros ts f idx L F I.
  - destruct ts; [|discriminate L]. inversion I; subst. cbn. field.
  - destruct ts as [|t ts]; [discriminate L|]. inversion I as [|? j ? idx' J I']; subst. inversion F as [|? ? K F']; subst. cbn [length] in L. apply Nat.succ_inj in L.
    change (zip Z.mul (t :: ts) (k :: ks)) with ((t * k)%Z :: zip Z.mul ts ks). change (zip Z.mul (j :: idx') (k :: ks)) with ((j * k)%Z :: zip Z.mul idx' ks).
    change (zip2 ufa (k :: ks) ((t * k)%Z :: zip Z.mul ts ks)) with (ufa k (t * k) :: zip2 ufa ks (zip Z.mul ts ks)). cbn [nest]. rewrite IH by assumption. cbn [total].
    rewrite (total_ext ks _ (fun o => / IZR k * zsum k (fun b => f ((j * k + b)%Z :: zip Z.add (zip Z.mul idx' ks) o)))) by (intros o _; now rewrite block_line).
    rewrite total_scal. rewrite (total_zsum k ks (fun b o => f ((j * k + b)%Z :: zip Z.add (zip Z.mul idx' ks) o))). cbn [size_of fold_right]. fold (size_of ks). pose proof (size_pos ks F').
    rewrite mult_IZR. rewrite <- Rmult_assoc. f_equal. field. split; apply not_0_IZR; lia.
Qed.
Lemma every_shape ts ks : length ks = length ts -> Forall (fun k => 1 <= k)%Z ks -> zip2 (fun j n => (- (- n / j))%Z) ks (zip Z.mul ts ks) = ts.
Proof.
  revert ts. induction ks as [|k ks IH]; intros [|t ts] L F; try discriminate L; [reflexivity|]. inversion F; subst. cbn [length] in L. apply Nat.succ_inj in L.
  unfold zip2, zip in *. cbn [map combine fst snd]. rewrite IH by assumption. f_equal. rewrite <- Z.mul_opp_l, Z.div_mul by lia. lia.
Qed.
Lemma every_at ks : forall sh f idx, length ks = length sh -> length idx = length sh ->
  nest (zip2 (fun (j : Z) (_ : Z) (g : Z -> R) i => g (i * j)%Z) ks sh) f idx = f (zip Z.mul idx ks).
Proof.
  induction ks as [|k ks IH]; intros [|n sh] f idx L I; try discriminate L; destruct idx as [|j idx]; try discriminate I; [reflexivity|].
  cbn [length] in L, I. apply Nat.succ_inj in L, I. unfold zip2. cbn [map combine fst snd nest].
  fold (zip2 (fun (j : Z) (_ : Z) (g : Z -> R) i => g (i * j)%Z) ks sh). rewrite IH by assumption. reflexivity.
Qed.
Lemma keep_shape {A} (l : list A) : forall sh, length sh = length l -> zip2 (fun (_ : A) (n : Z) => n) l sh = sh.
Proof. induction l as [|a l IH]; intros [|n sh] L; try discriminate L; [reflexivity|]. cbn [length] in L. apply Nat.succ_inj in L. unfold zip2 in *. cbn [combine map snd]. now rewrite IH. Qed.

Lemma down_nd a ts ks gauss radius : Forall (fun n => 0 < n)%Z ts -> length ks = length ts -> Forall (fun k => 1 <= k)%Z ks -> (1 < size_of ks)%Z ->
  nd_shape a = zip Z.mul ts ks ->
  exists b, resample_nd a (Some ts) gauss radius = Ok b /\
    same_array b (ND ts (fun idx => total ks (fun o => nd_at a (zip Z.add (zip Z.mul idx ks) o)) / IZR (size_of ks))).
Proof.
  intros N L F P S. unfold resample_nd. rewrite S, ratios_down by assumption. cbv zeta.
  assert (0 < / IZR (size_of ks) < 1) as C.
  { assert (1 < IZR (size_of ks)) by (apply (IZR_lt 1); exact P). split; [apply Rinv_0_lt_compat; lra|]. rewrite <- Rinv_1. apply Rinv_lt_contravar; lra. }
  rewrite prod_inv by exact F. replace (Rgtb (/ IZR (size_of ks)) 1) with false by (symmetry; unfold Rgtb; apply Rltb_false; lra).
  replace (Rltb (/ IZR (size_of ks)) 1) with true by (symmetry; apply Rltb_true; lra). rewrite down_ks, no_zero by exact F. eexists. split; [reflexivity|].
  assert (LS : length (nd_shape a) = length ks) by (rewrite S, zip_len; congruence).
  destruct (each_nest (fun (_ : Z) n => n) ufa (fun k => uniform_axis k (Rtrunc (- IZR k / 2))) (fun _ => eq_refl) ks a LS) as [S1 V1].
  set (m := each_axis (fun k => uniform_axis k (Rtrunc (- IZR k / 2))) ks a) in *. rewrite keep_shape in S1 by exact LS. rewrite S in S1.
  destruct (each_nest (fun j n => (- (- n / j))%Z) (fun (j : Z) (_ : Z) (g : Z -> R) i => g (i * j)%Z) every_axis (fun _ => eq_refl) ks m) as [S2 V2]; [rewrite S1, zip_len; congruence|].
  rewrite S1, every_shape in S2 by assumption. split; [exact S2|]. intros idx I. rewrite S2 in I. cbn [nd_at]. pose proof (index_len _ _ I) as LI.
  rewrite V2 by congruence. rewrite S1, every_at by (rewrite zip_len; congruence). rewrite V1 by (rewrite zip_len; congruence). rewrite S, block_at by assumption.
  unfold Rdiv. apply Rmult_comm.
Qed.
