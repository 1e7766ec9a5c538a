(** One bright pixel under the Gaussian filter. *)
From Coq Require Import Lra Lia Psatz.
From Verif Require Import Base L_Base M_Translate M_Mapper M_Data S_Data L_Data3 S_Resample L_Data6 M_Ndimage S_Ndimage L_Ndimage L_Ndimage2 L_Ndimage3 L_Ndimage4.
Local Open Scope R_scope.

Lemma nsum_one m k0 g : nsum m (fun k => if (k =? k0)%Z then g k else 0) = if ((0 <=? k0) && (k0 <? Z.of_nat m))%Z then g k0 else 0.
Proof.
  induction m as [|m IH].
  - cbn [Z.of_nat]. destruct (0 <=? k0)%Z eqn:A, (k0 <? 0)%Z eqn:B; try reflexivity. lia.
  - rewrite nsum_S, IH. destruct (Z.eqb_spec (Z.of_nat m) k0) as [<-|N].
    + destruct (Z.leb_spec 0 (Z.of_nat m)), (Z.ltb_spec (Z.of_nat m) (Z.of_nat m)), (Z.ltb_spec (Z.of_nat m) (Z.of_nat (S m))); cbn [andb]; try lia. ring.
    + destruct (Z.leb_spec 0 k0), (Z.ltb_spec k0 (Z.of_nat m)), (Z.ltb_spec k0 (Z.of_nat (S m))); cbn [andb]; try lia; ring.
Qed.
Lemma reflect_hits n p i : (0 <= p < n)%Z -> (- p <= i < 2 * n - 1 - p)%Z -> (reflect_index n i =? p)%Z = (i =? p)%Z.
Proof.
  intros P I. destruct (Z_lt_le_dec i 0) as [L|L].
  - rewrite <- reflect_flip by lia. rewrite reflect_index_in by lia. lia.
  - destruct (Z_lt_le_dec i n); [now rewrite reflect_index_in by lia|]. unfold reflect_index. rewrite Z.mod_small by lia. destruct (Z.ltb_spec i n); lia.
Qed.
Lemma gauss_impulse t w n p c i : let lw := gauss_radius t w in (lw <= p)%Z -> (p + lw < n)%Z -> (0 <= i < n)%Z ->
  gauss_at t w n (fun k => if (k =? p)%Z then c else 0) i =
  if (Z.abs (i - p) <=? lw)%Z then gauss_weight w (i - p) / axis_sum (2 * lw + 1) (fun k => gauss_weight w (k - lw)) * c else 0.
Proof.
  cbv zeta. intros P1 P2 I. pose proof (radius_nonneg t w) as L. unfold gauss_at. cbv zeta. set (lw := gauss_radius t w) in *. set (tot := axis_sum _ (fun k => gauss_weight w (k - lw))). rewrite axis_nsum.
  rewrite (nsum_ext _ _ (fun k => if (k =? p - i + lw)%Z then gauss_weight w (k - lw) / tot * c else 0)).
  2:{ intros k Hk. rewrite Z2Nat.id in Hk by lia. rewrite reflect_hits by lia. destruct (Z.eqb_spec (i + (k - lw)) p), (Z.eqb_spec k (p - i + lw)); (reflexivity || lia || ring). }
  rewrite nsum_one. rewrite Z2Nat.id by lia. replace (p - i + lw - lw)%Z with (- (i - p))%Z by lia. rewrite weight_even.
  replace ((0 <=? p - i + lw) && (p - i + lw <? 2 * lw + 1))%Z with (Z.abs (i - p) <=? lw)%Z; [reflexivity|].
  destruct (Z.leb_spec (Z.abs (i - p)) lw), (Z.leb_spec 0 (p - i + lw)), (Z.ltb_spec (p - i + lw) (2 * lw + 1)); cbn [andb]; lia.
Qed.
Lemma gauss_zero t w n i : gauss_at t w n (fun _ => 0) i = 0.
Proof. unfold gauss_at. cbv zeta. rewrite axis_nsum. rewrite (nsum_ext _ _ (fun _ => 0)) by (intros; ring). apply nsum_0. Qed.

Lemma gauss_spot r L n m p q : 1e-15 < r -> IZR L <= 4 * r + 1 / 2 < IZR L + 1 ->
  (L <= p)%Z -> (p + L < n)%Z -> (L <= q)%Z -> (q + L < m)%Z ->
  let a := Img n m (fun i j => if ((i =? p) && (j =? q))%Z then 1 else 0) in
  let b := resample (gaussian_filter 4) a None true (Some r) in
  0 < im_px b p q /\
  forall i j, (0 <= i < n)%Z -> (0 <= j < m)%Z ->
    im_px b i j = if ((Z.abs (i - p) <=? L) && (Z.abs (j - q) <=? L))%Z
                  then exp (- (IZR (i - p) ^ 2 + IZR (j - q) ^ 2) / (2 * r ^ 2)) * im_px b p q else 0.
Proof.
  intros R0 RL P1 P2 Q1 Q2. cbv zeta. set (a := Img n m _).
  assert (GR : gauss_radius 4 r = L).
  { unfold gauss_radius, Rtrunc. replace (Rltb (4 * r + 0.5) 0) with false by (symmetry; apply Rltb_false; lra). rewrite (Rfloor_unique _ L) by lra.
    apply Z.max_r. enough (-1 < L)%Z by lia. apply lt_IZR. lra. }
  pose proof (radius_nonneg 4 r) as L0. rewrite GR in L0.
  rewrite (same_shape (gaussian_filter 4) a None true r); [|unfold a; cbn [im_nx]; lia|unfold a; cbn [im_ny]; lia|auto].
  unfold gaussian_filter, gauss1, gauss0. cbn [fst snd]. replace (Rgtb r 1e-15) with true by (symmetry; unfold Rgtb; apply Rltb_true; lra). unfold a. cbn [im_nx im_ny im_px].
  pose proof (weight_total 4 r) as T. cbv zeta in T. rewrite GR in T. set (tot := axis_sum (2 * L + 1) (fun k => gauss_weight r (k - L))) in *.
  assert (V : forall i j, (0 <= i < n)%Z -> (0 <= j < m)%Z ->
    gauss_at 4 r m (fun k => gauss_at 4 r n (fun k0 => if ((k0 =? p) && (k =? q))%Z then 1 else 0) i) j =
    if ((Z.abs (i - p) <=? L) && (Z.abs (j - q) <=? L))%Z then gauss_weight r (j - q) / tot * (gauss_weight r (i - p) / tot) else 0).
  { intros i j Hi Hj. rewrite (gauss_ext_all 4 r m _ (fun k => if (k =? q)%Z then (if (Z.abs (i - p) <=? L)%Z then gauss_weight r (i - p) / tot * 1 else 0) else 0)).
    - rewrite gauss_impulse by (rewrite ?GR; assumption). rewrite GR. fold tot. destruct (Z.abs (i - p) <=? L)%Z, (Z.abs (j - q) <=? L)%Z; cbn [andb]; ring.
    - intros k. destruct (k =? q)%Z.
      + rewrite (gauss_ext_all 4 r n _ (fun k0 => if (k0 =? p)%Z then 1 else 0)) by (intros k0; now destruct (k0 =? p)%Z). rewrite gauss_impulse by (rewrite ?GR; assumption). now rewrite GR.
      + rewrite (gauss_ext_all 4 r n _ (fun _ => 0)) by (intros k0; now destruct (k0 =? p)%Z). apply gauss_zero. }
  assert (W0 : gauss_weight r 0 = 1).
  { unfold gauss_weight, square. replace (_ * (0 * 0)) with 0 by ring. apply exp_0. }
  assert (C : gauss_at 4 r m (fun k => gauss_at 4 r n (fun k0 => if ((k0 =? p) && (k =? q))%Z then 1 else 0) p) q = / tot * / tot).
  { rewrite V by lia. rewrite !Z.sub_diag. cbn [Z.abs]. replace (0 <=? L)%Z with true by lia. cbn [andb]. rewrite W0. field. lra. }
  split.
  - rewrite C. assert (0 < / tot) by now apply Rinv_0_lt_compat. nra.
  - intros i j Hi Hj. rewrite C, V by assumption. destruct (_ && _); [|reflexivity].
    assert (E : gauss_weight r (j - q) * gauss_weight r (i - p) = exp (- (IZR (i - p) ^ 2 + IZR (j - q) ^ 2) / (2 * r ^ 2))).
    { unfold gauss_weight. rewrite <- exp_plus. f_equal. unfold square. replace (-0.5) with (- (1) / 2) by lra. field. lra. }
    rewrite <- E. field. lra.
Qed.
Lemma spot_case : 1e-15 < 1 /\ IZR 4 <= 4 * 1 + 1 / 2 < IZR 4 + 1 /\ (4 <= 5)%Z /\ (5 + 4 < 10)%Z.
Proof. repeat split; (lra || lia). Qed.
Lemma nsum_zero m f : (forall k, f k = 0) -> nsum m f = 0.
Proof. intros H. rewrite (nsum_ext _ _ (fun _ => 0)) by auto. apply nsum_0. Qed.
Lemma conv_spot n m p q k : (0 <= p < n)%Z -> (0 <= q < m)%Z -> (0 < im_nx k)%Z -> (0 < im_ny k)%Z ->
  (im_nx k - im_nx k / 2 - 1 <= p)%Z -> (p + im_nx k / 2 < n)%Z -> (im_ny k - im_ny k / 2 - 1 <= q)%Z -> (q + im_ny k / 2 < m)%Z ->
  let b := convolve (Img n m (fun i j => if ((i =? p) && (j =? q))%Z then 1 else 0)) k in
  forall i j, (0 <= i < n)%Z -> (0 <= j < m)%Z ->
    let x := (i - p + im_nx k / 2)%Z in let y := (j - q + im_ny k / 2)%Z in
    im_px b i j = if ((0 <=? x) && (x <? im_nx k) && ((0 <=? y) && (y <? im_ny k)))%Z then im_px k x y else 0.
Proof.
  intros P Q KX KY P1 P2 Q1 Q2. cbv zeta. intros i j Hi Hj. set (x := (i - p + im_nx k / 2)%Z). set (y := (j - q + im_ny k / 2)%Z). cbn [convolve im_nx im_ny im_px]. rewrite axis_nsum.
  rewrite (nsum_ext _ _ (fun u => if (u =? x)%Z then (fun u => axis_sum (im_ny k) (fun v => im_px k u v * (if (reflect_index m (j + im_ny k / 2 - v) =? q)%Z then 1 else 0))) u else 0)).
  2:{ intros u Hu. rewrite Z2Nat.id in Hu by lia. assert ((reflect_index n (i + im_nx k / 2 - u) =? p)%Z = (u =? x)%Z) as ->.
      { rewrite reflect_hits by lia. destruct (Z.eqb_spec (i + im_nx k / 2 - u) p), (Z.eqb_spec u x); (reflexivity || lia). }
      destruct (u =? x)%Z; [reflexivity|]. rewrite axis_nsum. apply nsum_zero. intros v. cbn [andb]. ring. }
  rewrite nsum_one. rewrite Z2Nat.id by lia. destruct ((0 <=? x) && (x <? im_nx k))%Z; cbn [andb]; [|reflexivity]. rewrite axis_nsum.
  rewrite (nsum_ext _ _ (fun v => if (v =? y)%Z then im_px k x v else 0)).
  2:{ intros v Hv. rewrite Z2Nat.id in Hv by lia. assert ((reflect_index m (j + im_ny k / 2 - v) =? q)%Z = (v =? y)%Z) as ->.
      { rewrite reflect_hits by lia. destruct (Z.eqb_spec (j + im_ny k / 2 - v) q), (Z.eqb_spec v y); (reflexivity || lia). }
      destruct (v =? y)%Z; ring. }
  rewrite nsum_one. now rewrite Z2Nat.id by lia.
Qed.
