From Coq Require Import Sorting.Permutation Sorting.Sorted Lra Lia.
From Verif Require Import Base M_Translate M_Mapper M_Data M_Float S_Data L_Base L_Data L_Data2 L_Data3 L_Data4 S_Resample.
Import ListNotations.
Local Open Scope R_scope.

(** * mirrored borders *)
Section Mirror.
Variables (n : Z) (e : Z -> R).
Hypothesis N : (0 < n)%Z.
Hypothesis L : forall i, e (-1 - i)%Z = e i.
Hypothesis H : forall i, e (2 * n - 1 - i)%Z = e i.
Lemma mirror_up i : e (i + 2 * n)%Z = e i.
Proof. rewrite <- (L i), <- (H (-1 - i)). f_equal. lia. Qed.
Lemma mirror_period k : forall i, e (i + 2 * n * k)%Z = e i.
Proof.
  intros i. destruct (Z.le_gt_cases 0 k) as [K|K].
  - revert i. pattern k. apply natlike_ind; [| |exact K]; [intros i; f_equal; lia|]. intros j J IH i.
    replace (i + 2 * n * Z.succ j)%Z with (i + 2 * n * j + 2 * n)%Z by lia. now rewrite mirror_up.
  - assert (forall j, (0 <= j)%Z -> forall i, e (i + 2 * n * - j)%Z = e i) as G.
    { apply (natlike_ind (fun j => forall i, e (i + 2 * n * - j)%Z = e i)); [intros; f_equal; lia|]. intros j J IH i'.
      rewrite <- (IH i'), <- mirror_up. f_equal. lia. }
    rewrite <- (G (- k)%Z ltac:(lia) i). f_equal. lia.
Qed.
Lemma mirror_index i : e i = e (reflect_index n i) /\ (0 <= reflect_index n i < n)%Z.
Proof.
  unfold reflect_index. pose proof (Z.mod_pos_bound i (2 * n) ltac:(lia)) as B.
  assert (E : e i = e (i mod (2 * n))%Z) by (rewrite (Z_div_mod_eq_full i (2 * n)) at 1; rewrite Z.add_comm; apply mirror_period).
  destruct (Z.ltb_spec (i mod (2 * n)) n); [split; [exact E|lia]|]. split; [|lia]. now rewrite H.
Qed.
End Mirror.
Lemma mirrors_index n m f e : (0 < n)%Z -> (0 < m)%Z -> mirrors n m f e -> forall i j, f (reflect_index n i) (reflect_index m j) = e i j.
Proof.
  intros N M (V & L1 & H1 & L2 & H2) i j. destruct (mirror_index n (fun i => e i j) N (fun i => L1 i j) (fun i => H1 i j) i) as [E1 B1].
  destruct (mirror_index m (fun j => e (reflect_index n i) j) M (fun j => L2 _ j) (fun j => H2 _ j) j) as [E2 B2].
  cbv beta in E1, E2. rewrite E1, E2. symmetry. now apply V.
Qed.
Lemma two_windows kx ky ox oy a e i j : (0 < im_nx a)%Z -> (0 < im_ny a)%Z -> (1 <= kx)%Z -> (1 <= ky)%Z -> mirrors (im_nx a) (im_ny a) (im_px a) e ->
  im_px (uniform1 ky oy (uniform0 kx ox a)) i j = mean_from kx ky e (i - kx / 2 - ox) (j - ky / 2 - oy).
Proof.
  intros N M KX KY E. unfold uniform1, uniform0, window_mean, mean_from. cbn [im_px im_nx im_ny].
  assert (Px : IZR kx <> 0) by (apply not_0_IZR; lia). assert (Py : IZR ky <> 0) by (apply not_0_IZR; lia).
  set (l := seq 0 (Z.to_nat kx)). set (l' := seq 0 (Z.to_nat ky)).
  assert (S : forall f : nat -> R, fold_right Rplus 0 (map (fun k => f k / IZR kx) l') = fold_right Rplus 0 (map f l') / IZR kx).
  { intros f. induction l' as [|x l' IH]; cbn [map fold_right]; [field; exact Px|]. rewrite IH. field. exact Px. }
  rewrite (S (fun k => fold_right Rplus 0 (map (fun k0 => im_px a (reflect_index (im_nx a) (i - kx / 2 - ox + Z.of_nat k0)) (reflect_index (im_ny a) (j - ky / 2 - oy + Z.of_nat k))) l))).
  unfold Rdiv. rewrite Rmult_assoc, <- Rinv_mult. f_equal. f_equal. apply map_ext. intros b. f_equal. apply map_ext. intros c. now apply mirrors_index.
Qed.
Lemma trunc_quotient n t : (0 < t)%Z -> (0 < n)%Z -> Rtrunc (1 / (IZR t / IZR n)) = (n / t)%Z.
Proof.
  intros T N. apply IZR_lt in T, N. replace (1 / (IZR t / IZR n)) with (IZR n / IZR t) by (field; lra).
  unfold Rtrunc. assert (0 <= IZR n / IZR t) by (apply Rlt_le, Rdiv_lt_0_compat; lra). case_Rltb (IZR n / IZR t) 0; [lra|].
  apply Rfloor_unique. apply lt_IZR in T, N. pose proof (Z.mul_div_le n t T). pose proof (Z.mul_succ_div_gt n t T).
  split; [apply Rmult_le_reg_r with (IZR t)|apply Rmult_lt_reg_r with (IZR t)]; try (apply IZR_lt; lia).
  - replace (IZR n / IZR t * IZR t) with (IZR n) by (field; apply not_0_IZR; lia). rewrite <- mult_IZR. apply IZR_le. lia.
  - replace (IZR n / IZR t * IZR t) with (IZR n) by (field; apply not_0_IZR; lia). rewrite <- plus_IZR, <- mult_IZR. apply IZR_lt. lia.
Qed.
Lemma ceil_blocks n b : (0 < b)%Z -> blocks n b (- (- n / b)).
Proof. intros B. unfold blocks. pose proof (Z.mul_div_le (- n) b B). pose proof (Z.mul_succ_div_gt (- n) b B). nia. Qed.
Lemma resample_any gaussian gauss radius a tx ty e : (0 < tx <= im_nx a)%Z -> (0 < ty <= im_ny a)%Z -> (tx < im_nx a)%Z \/ (ty < im_ny a)%Z ->
  mirrors (im_nx a) (im_ny a) (im_px a) e ->
  let kx := (im_nx a / tx)%Z in let ky := (im_ny a / ty)%Z in let r := resample gaussian a (Some (tx, ty)) gauss radius in
  blocks (im_nx a) kx (im_nx r) /\ blocks (im_ny a) ky (im_ny r) /\ forall i j, im_px r i j = mean_from kx ky e (i * kx) (j * ky).
Proof.
  intros TX TY LT E. cbv zeta. unfold resample. cbn [fst snd].
  assert (Lt : IZR tx / IZR (im_nx a) * (IZR ty / IZR (im_ny a)) < 1).
  { assert (X : 0 < IZR tx <= IZR (im_nx a)) by (split; [apply IZR_lt|apply IZR_le]; lia). assert (Y : 0 < IZR ty <= IZR (im_ny a)) by (split; [apply IZR_lt|apply IZR_le]; lia).
    apply Rmult_lt_reg_r with (IZR (im_nx a) * IZR (im_ny a)); [nra|].
    replace (IZR tx / IZR (im_nx a) * (IZR ty / IZR (im_ny a)) * (IZR (im_nx a) * IZR (im_ny a))) with (IZR tx * IZR ty) by (field; lra).
    destruct LT as [LT|LT]; apply IZR_lt in LT; nra. }
  replace (Rgtb _ 1) with false by (symmetry; unfold Rgtb; apply Rltb_false; lra). replace (Rltb _ 1) with true by (symmetry; now apply Rltb_true).
  rewrite !trunc_quotient by lia. set (kx := (im_nx a / tx)%Z). set (ky := (im_ny a / ty)%Z).
  assert (KX : (1 <= kx)%Z) by (apply Z.div_le_lower_bound; lia). assert (KY : (1 <= ky)%Z) by (apply Z.div_le_lower_bound; lia).
  rewrite !Rtrunc_neg_half by lia. unfold every1, every0. cbn [im_nx im_ny im_px uniform1 uniform0].
  split; [apply ceil_blocks; lia|]. split; [apply ceil_blocks; lia|]. intros i j.
  change (im_px (uniform1 ky (- (ky / 2)) (uniform0 kx (- (kx / 2)) a)) (i * kx) (j * ky) = mean_from kx ky e (i * kx) (j * ky)).
  rewrite (two_windows _ _ _ _ a e) by (auto; lia). f_equal; lia.
Qed.
Lemma resample_smooth gaussian a k e ts : (0 < im_nx a)%Z -> (0 < im_ny a)%Z -> (1 <= k)%Z -> mirrors (im_nx a) (im_ny a) (im_px a) e ->
  ts = None \/ ts = Some (im_nx a, im_ny a) ->
  let r := resample gaussian a ts false (Some (IZR k)) in
  im_nx r = im_nx a /\ im_ny r = im_ny a /\ forall i j, im_px r i j = mean_from k k e (i - k / 2) (j - k / 2).
Proof.
  intros N M K E T. cbv zeta. unfold resample. replace (match ts with Some t => t | None => (im_nx a, im_ny a) end) with (im_nx a, im_ny a) by (destruct T as [-> | ->]; reflexivity). cbn [fst snd].
  assert (X : IZR (im_nx a) <> 0) by (apply not_0_IZR; lia). assert (Y : IZR (im_ny a) <> 0) by (apply not_0_IZR; lia).
  replace (IZR (im_nx a) / IZR (im_nx a) * (IZR (im_ny a) / IZR (im_ny a))) with 1 by (field; auto).
  replace (Rgtb 1 1) with false by (symmetry; unfold Rgtb; apply Rltb_false; lra). replace (Rltb 1 1) with false by (symmetry; apply Rltb_false; lra).
  rewrite Rtrunc_IZR by lia. split; [reflexivity|]. split; [reflexivity|]. intros i j. rewrite (two_windows _ _ _ _ a e) by (auto; lia). f_equal; lia.
Qed.
(** a mirrored plane exists *)
Lemma mirrors_exists n m f : (0 < n)%Z -> (0 < m)%Z -> mirrors n m f (fun i j => f (reflect_index n i) (reflect_index m j)).
Proof.
  intros N M. assert (P : forall n, (0 < n)%Z -> forall i, reflect_index n (-1 - i) = reflect_index n i /\ reflect_index n (2 * n - 1 - i) = reflect_index n i).
  { clear. intros n N i. assert (Q : forall i, reflect_index n (-1 - i) = reflect_index n i).
    { clear i. intros i. unfold reflect_index. pose proof (Z_div_mod_eq_full i (2 * n)) as D. pose proof (Z.mod_pos_bound i (2 * n) ltac:(lia)) as B.
      assert (E : ((-1 - i) mod (2 * n) = 2 * n - 1 - i mod (2 * n))%Z) by (symmetry; apply Z.mod_unique with (q := (- (i / (2 * n)) - 1)%Z); lia).
      rewrite E. destruct (Z.ltb_spec (i mod (2 * n)) n); destruct (Z.ltb_spec (2 * n - 1 - i mod (2 * n)) n); lia. }
    split; [apply Q|]. rewrite <- (Q i). unfold reflect_index. replace (2 * n - 1 - i)%Z with (-1 - i + 1 * (2 * n))%Z by lia. now rewrite Z.mod_add by lia. }
  split; [intros; now rewrite !reflect_index_in|]. repeat split; intros; f_equal; now apply P.
Qed.
Lemma resample_five gaussian gauss radius f : let r := resample gaussian (Img 5 5 f) (Some (3, 3)%Z) gauss radius in im_nx r = 5%Z /\ im_ny r = 5%Z.
Proof.
  destruct (resample_any gaussian gauss radius (Img 5 5 f) 3 3 _ ltac:(cbn; lia) ltac:(cbn; lia) (or_introl eq_refl) (mirrors_exists 5 5 f eq_refl eq_refl)) as (A & B & _).
  unfold blocks in *. cbn [im_nx im_ny] in A, B. change (5 / 3)%Z with 1%Z in A, B. cbv zeta. lia.
Qed.

(** * gaps *)
Lemma nth_split2 {A} (d : A) c : forall l, (S c < length l)%nat -> l = firstn c l ++ nth c l d :: nth (S c) l d :: skipn (S (S c)) l.
Proof.
  induction c as [|c IH]; intros l K.
  - destruct l as [|p [|q l]]; cbn [length] in K; try lia. reflexivity.
  - destruct l as [|p l]; cbn [length] in K; [lia|]. cbn [firstn nth skipn app]. f_equal. apply IH. lia.
Qed.
Lemma nugf_x_gap pdf x0 xy : key_sorted xy -> xy <> [] -> (forall p, In p xy -> pdf x0 (fst p) = 0) -> exists v, nugf_x pdf x0 xy = Some v /\ on_line xy x0 v.
Proof.
  intros S Hne Z. unfold nugf_x.
  assert (W : fold_right Rplus 0 (map (fun p => pdf x0 (fst p)) xy) = 0).
  { clear S Hne. induction xy as [|p l IH]; [reflexivity|]. cbn [map fold_right]. rewrite IH by (intros; apply Z; now right). rewrite Z by now left. ring. }
  rewrite W. replace (Rgtb 0 0) with false by (symmetry; unfold Rgtb; apply Rltb_false; lra).
  assert (Hn : (0 < length xy)%nat) by (destruct xy; [contradiction|cbn; lia]).
  set (c := length (filter (fun x => Rltb x x0) (map fst xy))).
  assert (searchsorted_left (map fst xy) x0 = Z.of_nat c) as -> by reflexivity.
  assert (NF : forall i, nth i (map fst xy) 0 = fst (nth i xy (0, 0))) by (intros; now rewrite <- (map_nth fst xy (0, 0) i)).
  assert (NS : forall i, nth i (map snd xy) 0 = snd (nth i xy (0, 0))) by (intros; now rewrite <- (map_nth snd xy (0, 0) i)).
  assert (SP : forall i, (i < length xy)%nat -> (fst (nth i xy (0, 0)) < x0 <-> (i < c)%nat)).
  { intros i I. rewrite <- NF. apply count_split_lt; [apply ss_map, S|now rewrite map_length]. }
  destruct (Z.of_nat c =? Z.of_nat (length xy))%Z eqn:E1.
  { apply Z.eqb_eq in E1. rewrite py_get_last by (now rewrite map_length). rewrite map_length, NS. eexists. split; [reflexivity|].
    right. right. destruct (exists_last Hne) as (a & p & EQ). exists a, p. split; [exact EQ|].
    assert (EP : nth (length xy - 1) xy (0, 0) = p) by (rewrite EQ, app_length; cbn [length]; replace (length a + 1 - 1)%nat with (length a) by lia; now rewrite nth_middle).
    rewrite EP. split; [|reflexivity]. rewrite <- EP. apply SP; lia. }
  apply Z.eqb_neq in E1. destruct (Z.of_nat c =? 0)%Z eqn:E2.
  { apply Z.eqb_eq in E2. change 0%Z with (Z.of_nat 0). rewrite py_get_nat by (now rewrite map_length). rewrite NS.
    eexists. split; [reflexivity|]. right. left. destruct xy as [|p b]; [contradiction|]. exists p, b. split; [reflexivity|]. cbn [nth]. split; [|reflexivity].
    destruct (Rle_lt_dec x0 (fst p)) as [|C]; [assumption|]. apply (SP 0%nat Hn) in C. lia. }
  apply Z.eqb_neq in E2.
  assert (c < length xy)%nat as Hc.
  { assert (c <= length xy)%nat; [|lia]. unfold c. rewrite <- (map_length fst xy). apply filter_length_bound. }
  replace (Z.of_nat c - 1)%Z with (Z.of_nat (c - 1)) by lia. rewrite !py_get_nat by (rewrite map_length; lia). rewrite !NF, !NS.
  eexists. split; [reflexivity|]. left. pose proof (nth_split2 (0, 0) (c - 1) xy ltac:(lia)) as D. replace (Datatypes.S (c - 1)) with c in D by lia.
  do 4 eexists. split; [exact D|]. assert (La : fst (nth (c - 1) xy (0, 0)) < x0) by (apply SP; lia).
  assert (Lb : x0 <= fst (nth c xy (0, 0))) by (destruct (Rle_lt_dec x0 (fst (nth c xy (0, 0)))) as [|C]; [assumption|]; apply (SP c Hc) in C; lia).
  split; [lra|]. unfold average. cbn [map fold_right fst snd]. field. lra.
Qed.
Lemma nugf_gap argsort unsort pdf xy xs : key_sorted xy -> xy <> [] -> xs <> [] -> (forall x0 p, In x0 xs -> In p xy -> pdf x0 (fst p) = 0) ->
  exists r, non_uniform_gaussian_filter argsort unsort pdf None xy (Some xs) = Some r /\ Forall2 (on_line xy) xs r.
Proof.
  intros S N NX Z. unfold non_uniform_gaussian_filter, nugf_rows.
  assert (A : ascending (map fst xy) = true).
  { clear N Z. induction S as [|p l S IH F]; [reflexivity|]. cbn [map ascending]. destruct l as [|q l]; [reflexivity|]. cbn [map]. rewrite Bool.andb_true_iff. split; [|exact IH].
    apply Rleb_true. now inversion F. }
  rewrite A. cbn [negb andb].
  assert (G : exists r, all_some (map (nugf_at pdf None xy) xs) = Some r /\ Forall2 (on_line xy) xs r).
  { clear NX A. induction xs as [|x xs IH]; [exists []; split; [reflexivity|constructor]|].
    destruct (IH (fun x0 p I => Z x0 p (or_intror I))) as (r & E & F). destruct (nugf_x_gap pdf x xy S N (fun p => Z x p (or_introl eq_refl))) as (v & V & O).
    exists (v :: r). split; [|now constructor]. cbn [map all_some]. unfold nugf_at at 1. rewrite V, E. reflexivity. }
  destruct G as (r & E & F). exists r. split; [|exact F]. unfold along. destruct xs as [|x xs]; [contradiction|]. cbn [map] in E |- *. now rewrite E.
Qed.
