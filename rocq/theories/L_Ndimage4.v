(** Mirror images and exchanged axes through resample; smoothing without a change of the size. *)
From Coq Require Import Lra Lia Psatz.
From Verif Require Import Base L_Base M_Translate M_Mapper M_Data S_Data L_Data3 S_Resample L_Data6 M_Ndimage S_Ndimage L_Ndimage L_Ndimage2 L_Ndimage3.
Local Open Scope R_scope.

Lemma same_sym {A} (a b : image A) : same_image a b -> same_image b a.
Proof. intros (X & Y & P). split; [auto|]. split; [auto|]. intros i j Hi Hj. symmetry. apply P; [now rewrite X|now rewrite Y]. Qed.
Lemma same_trans {A} (a b c : image A) : same_image a b -> same_image b c -> same_image a c.
Proof. intros (X & Y & P) (X2 & Y2 & P2). split; [congruence|]. split; [congruence|]. intros i j Hi Hj. rewrite P by assumption. apply P2; [now rewrite <- X|now rewrite <- Y]. Qed.
Lemma gauss0_ext t w a b : same_image a b -> same_image (gauss0 t w a) (gauss0 t w b).
Proof.
  intros (X & Y & P). unfold gauss0. destruct (Rgtb w 1e-15); [|now repeat split]. split; [exact X|]. split; [exact Y|]. cbn [im_nx im_ny im_px]. intros i j Hi Hj.
  rewrite <- X. apply gauss_ext; [lia|]. intros k Hk. now apply P.
Qed.
Lemma gauss1_ext t w a b : same_image a b -> same_image (gauss1 t w a) (gauss1 t w b).
Proof.
  intros (X & Y & P). unfold gauss1. destruct (Rgtb w 1e-15); [|now repeat split]. split; [exact X|]. split; [exact Y|]. cbn [im_nx im_ny im_px]. intros i j Hi Hj.
  rewrite <- Y. apply gauss_ext; [lia|]. intros k Hk. now apply P.
Qed.
Lemma gaussian_ext t s a b : same_image a b -> same_image (gaussian_filter t s a) (gaussian_filter t s b).
Proof. intros H. now apply gauss1_ext, gauss0_ext. Qed.

Lemma div_far n k i : (1 <= k)%Z -> (0 <= i < n * k)%Z -> ((n * k - 1 - i) / k = n - 1 - i / k)%Z.
Proof.
  intros K H. pose proof (Z_div_mod_eq_full i k). pose proof (Z.mod_pos_bound i k ltac:(lia)). symmetry. apply (Z.div_unique_pos _ _ _ (k - 1 - i mod k)); [lia|]. nia.
Qed.
Lemma repeat_flip0 a kx ky : (1 <= kx)%Z -> (1 <= ky)%Z -> same_image (repeat1 ky (repeat0 kx (flip0 a))) (flip0 (repeat1 ky (repeat0 kx a))).
Proof. intros X Y. split; [reflexivity|]. split; [reflexivity|]. cbn [flip0 repeat0 repeat1 im_nx im_ny im_px]. intros i j Hi Hj. now rewrite div_far. Qed.
Lemma repeat_flip1 a kx ky : (1 <= kx)%Z -> (1 <= ky)%Z -> same_image (repeat1 ky (repeat0 kx (flip1 a))) (flip1 (repeat1 ky (repeat0 kx a))).
Proof. intros X Y. split; [reflexivity|]. split; [reflexivity|]. cbn [flip1 repeat0 repeat1 im_nx im_ny im_px]. intros i j Hi Hj. now rewrite div_far. Qed.

Lemma flip0_ext (a b : image R) : same_image a b -> same_image (flip0 a) (flip0 b).
Proof. intros (X & Y & P). split; [exact X|]. split; [exact Y|]. cbn [flip0 im_nx im_ny im_px]. intros i j Hi Hj. rewrite <- X. apply P; lia. Qed.
Lemma flip1_ext (a b : image R) : same_image a b -> same_image (flip1 a) (flip1 b).
Proof. intros (X & Y & P). split; [exact X|]. split; [exact Y|]. cbn [flip1 im_nx im_ny im_px]. intros i j Hi Hj. rewrite <- Y. apply P; lia. Qed.
Lemma transposed_ext (a b : image R) : same_image a b -> same_image (transposed a) (transposed b).
Proof. intros (X & Y & P). split; [exact Y|]. split; [exact X|]. cbn [transposed im_nx im_ny im_px]. intros i j Hi Hj. apply P; lia. Qed.

Definition gauss_step (gauss : bool) (s : R * R) (b : image R) : image R := if gauss then gaussian_filter 4 s b else b.
Lemma step_ext g s a b : same_image a b -> same_image (gauss_step g s a) (gauss_step g s b).
Proof. destruct g; [apply gaussian_ext|auto]. Qed.
Lemma same_refl {A} (a : image A) : same_image a a.
Proof. now repeat split. Qed.

Lemma up_step a kx ky gauss radius : (0 < im_nx a)%Z -> (0 < im_ny a)%Z -> (1 <= kx)%Z -> (1 <= ky)%Z -> (1 < kx * ky)%Z ->
  resample (gaussian_filter 4) a (Some (im_nx a * kx, im_ny a * ky)%Z) gauss radius =
  gauss_step gauss (match radius with Some r => (r, r) | None => (IZR kx - 1, IZR ky - 1) end) (repeat1 ky (repeat0 kx a)).
Proof. intros. rewrite up_shape by assumption. now destruct gauss. Qed.

Lemma up_mirror a kx ky gauss radius : (0 < im_nx a)%Z -> (0 < im_ny a)%Z -> (1 <= kx)%Z -> (1 <= ky)%Z -> (1 < kx * ky)%Z ->
  let f b ts := resample (gaussian_filter 4) b (Some ts) gauss radius in let ts := (im_nx a * kx, im_ny a * ky)%Z in
  same_image (f (flip0 a) ts) (flip0 (f a ts)) /\ same_image (f (flip1 a) ts) (flip1 (f a ts)) /\
  same_image (f (transposed a) (im_ny a * ky, im_nx a * kx)%Z) (transposed (f a ts)).
Proof.
  intros Hx Hy Hkx Hky Hk. cbv beta zeta.
  pose proof (up_step a kx ky gauss radius Hx Hy Hkx Hky Hk) as E0. rewrite E0.
  pose proof (up_step (flip0 a) kx ky gauss radius Hx Hy Hkx Hky Hk) as E1. change (im_nx (flip0 a)) with (im_nx a) in E1. change (im_ny (flip0 a)) with (im_ny a) in E1. rewrite E1.
  pose proof (up_step (flip1 a) kx ky gauss radius Hx Hy Hkx Hky Hk) as E2. change (im_nx (flip1 a)) with (im_nx a) in E2. change (im_ny (flip1 a)) with (im_ny a) in E2. rewrite E2.
  pose proof (up_step (transposed a) ky kx gauss radius Hy Hx Hky Hkx ltac:(lia)) as E3. change (im_nx (transposed a)) with (im_ny a) in E3. change (im_ny (transposed a)) with (im_nx a) in E3. rewrite E3.
  clear E0 E1 E2 E3.
  set (s := match radius with Some _ => _ | None => (IZR kx - 1, IZR ky - 1) end). split; [|split].
  - eapply same_trans; [apply step_ext, repeat_flip0; assumption|]. destruct gauss; [apply gaussian_flip0|apply same_refl].
  - eapply same_trans; [apply step_ext, repeat_flip1; assumption|]. destruct gauss; [apply gaussian_flip1|apply same_refl].
  - change (repeat1 kx (repeat0 ky (transposed a))) with (transposed (repeat1 ky (repeat0 kx a))). destruct gauss; [|apply same_refl]. cbn [gauss_step].
    replace (match radius with Some r => (r, r) | None => (IZR ky - 1, IZR kx - 1) end) with (snd s, fst s) by (unfold s; now destruct radius).
    eapply same_trans; [apply gaussian_transposed|]. rewrite <- surjective_pairing. apply same_refl.
Qed.
Lemma zsum_rev n f : zsum n f = zsum n (fun i => f (n - 1 - i)%Z).
Proof. rewrite !zsum_nsum, nsum_rev. apply nsum_ext. intros k Hk. f_equal. lia. Qed.
Lemma down_mirror a tx ty kx ky gauss radius : (0 < tx)%Z -> (0 < ty)%Z -> (1 <= kx)%Z -> (1 <= ky)%Z -> (1 < kx * ky)%Z ->
  im_nx a = (tx * kx)%Z -> im_ny a = (ty * ky)%Z ->
  let f b ts := resample (gaussian_filter 4) b (Some ts) gauss radius in
  same_image (f (flip0 a) (tx, ty)) (flip0 (f a (tx, ty))) /\ same_image (f (flip1 a) (tx, ty)) (flip1 (f a (tx, ty))) /\
  same_image (f (transposed a) (ty, tx)) (transposed (f a (tx, ty))).
Proof.
  intros Hx Hy Hkx Hky Hk Enx Eny. cbv beta zeta. pose proof (resample_down (gaussian_filter 4) a tx ty kx ky gauss radius Hx Hy Hkx Hky Hk Enx Eny) as D. split; [|split].
  - eapply same_trans; [apply (resample_down _ (flip0 a) tx ty kx ky); assumption|]. apply same_sym. eapply same_trans; [apply flip0_ext, D|].
    split; [reflexivity|]. split; [reflexivity|]. cbn [flip0 im_nx im_ny im_px]. intros i j Hi Hj. unfold block_mean. f_equal. apply zsum_ext. intros q Hq.
    rewrite zsum_rev. apply zsum_ext. intros p Hp. f_equal. rewrite Enx. lia.
  - eapply same_trans; [apply (resample_down _ (flip1 a) tx ty kx ky); assumption|]. apply same_sym. eapply same_trans; [apply flip1_ext, D|].
    split; [reflexivity|]. split; [reflexivity|]. cbn [flip1 im_nx im_ny im_px]. intros i j Hi Hj. unfold block_mean. f_equal. rewrite zsum_rev. apply zsum_ext. intros q Hq.
    apply zsum_ext. intros p Hp. f_equal. rewrite Eny. lia.
  - eapply same_trans; [apply (resample_down _ (transposed a) ty tx ky kx); (assumption || lia)|]. apply same_sym. eapply same_trans; [apply transposed_ext, D|].
    split; [reflexivity|]. split; [reflexivity|]. cbn [transposed im_nx im_ny im_px]. intros i j Hi Hj. unfold block_mean. rewrite zsum_swap. now rewrite (Rmult_comm (IZR ky)).
Qed.

(** * no change of the size *)
Lemma same_shape g a ts gauss r : (0 < im_nx a)%Z -> (0 < im_ny a)%Z -> ts = None \/ ts = Some (im_nx a, im_ny a) ->
  resample g a ts gauss (Some r) = if gauss : bool then g (r, r) a else uniform1 (Rtrunc r) 0 (uniform0 (Rtrunc r) 0 a).
Proof.
  intros N M T. unfold resample. replace (match ts with Some t => t | None => (im_nx a, im_ny a) end) with (im_nx a, im_ny a) by (destruct T as [-> | ->]; reflexivity). cbn [fst snd].
  assert (X : IZR (im_nx a) <> 0) by (apply not_0_IZR; lia). assert (Y : IZR (im_ny a) <> 0) by (apply not_0_IZR; lia).
  replace (IZR (im_nx a) / IZR (im_nx a) * (IZR (im_ny a) / IZR (im_ny a))) with 1 by (field; auto).
  replace (Rgtb 1 1) with false by (symmetry; unfold Rgtb; apply Rltb_false; lra). replace (Rltb 1 1) with false by (symmetry; apply Rltb_false; lra). reflexivity.
Qed.
Lemma window_nsum k f i : window_mean k f i = nsum (Z.to_nat k) (fun q => f (i + q)%Z) / IZR k.
Proof. reflexivity. Qed.
Lemma nsum_const n c : nsum n (fun _ => c) = INR n * c.
Proof. induction n as [|n IH]; [unfold nsum; cbn; ring|]. rewrite nsum_S, IH, S_INR. ring. Qed.
Lemma window_sum k n f : (0 <= k)%Z -> (0 < n)%Z -> zsum n (fun i => window_mean (2 * k + 1) (fun q => f (reflect_index n q)) (i - (2 * k + 1) / 2 - 0)) = zsum n f.
Proof.
  intros K N. replace ((2 * k + 1) / 2)%Z with k by (apply (Z.div_unique_pos _ _ _ 1); lia). rewrite !zsum_nsum.
  assert (K1 : forall i, f (reflect_index n (-1 - i)) = f (reflect_index n i)) by (intros i; now rewrite reflect_flip).
  assert (K2 : forall i, f (reflect_index n (i + 2 * Z.of_nat (Z.to_nat n))) = f (reflect_index n i)) by (intros i; rewrite Z2Nat.id by lia; now rewrite reflect_period).
  assert (P : IZR (2 * k + 1) <> 0) by (apply not_0_IZR; lia).
  assert (K3 : nsum (Z.to_nat (2 * k + 1)) (fun _ => 1 / IZR (2 * k + 1)) = 1) by (rewrite nsum_const, INR_IZR_INZ; rewrite Z2Nat.id by lia; field; exact P).
  pose proof (symmetric_keeps (Z.to_nat n) (fun i => f (reflect_index n i)) K1 K2 k (fun _ => 1 / IZR (2 * k + 1)) K (fun _ => eq_refl) K3) as S. cbv beta in S.
  transitivity (nsum (Z.to_nat n) (fun i => f (reflect_index n i))); [rewrite <- S|].
  - apply nsum_ext. intros i _. rewrite window_nsum, nsum_scal. unfold Rdiv. rewrite Rmult_1_l, Rmult_comm. f_equal. apply nsum_ext. intros q _. do 2 f_equal. lia.
  - apply nsum_ext. intros i Hi. rewrite reflect_index_in; [reflexivity|lia].
Qed.
Lemma uniform_total k a : (0 <= k)%Z -> (0 < im_nx a)%Z -> (0 < im_ny a)%Z -> image_total (uniform1 (2 * k + 1) 0 (uniform0 (2 * k + 1) 0 a)) = image_total a.
Proof.
  intros K N M. set (b := uniform0 (2 * k + 1) 0 a). transitivity (image_total b).
  - unfold image_total. cbn [uniform1 im_nx im_ny im_px]. apply zsum_ext. intros i _. apply (window_sum k (im_ny b) (fun q => im_px b i q)); [exact K|exact M].
  - unfold image_total. cbn [b uniform0 im_nx im_ny im_px]. rewrite !(zsum_swap (im_nx a)). apply zsum_ext. intros j _. now apply (window_sum k (im_nx a) (fun q => im_px a q j)).
Qed.
Lemma window_between k f lo hi i : (1 <= k)%Z -> (forall q, lo <= f q <= hi) -> lo <= window_mean k f i <= hi.
Proof.
  intros K B. rewrite window_nsum. assert (P : 0 < IZR k) by (apply IZR_pos; lia). assert (C : forall c, nsum (Z.to_nat k) (fun _ => c) = c * IZR k) by (intros c; rewrite nsum_const, INR_IZR_INZ; rewrite Z2Nat.id by lia; ring).
  split; (apply Rmult_le_reg_r with (IZR k); [exact P|]; unfold Rdiv; rewrite Rmult_assoc, Rinv_l, Rmult_1_r by lra; rewrite <- C; apply nsum_le; intros q _; apply B).
Qed.
Lemma uniform_between k a lo hi : (1 <= k)%Z -> image_between lo hi a -> image_between lo hi (uniform1 k 0 (uniform0 k 0 a)).
Proof.
  intros K B i j Hi Hj. cbn [uniform0 uniform1 im_nx im_ny im_px] in *. apply window_between; [exact K|]. intros q. apply window_between; [exact K|]. intros p.
  apply B; apply reflect_range; lia.
Qed.
Lemma smooth_mean a ts (gauss : bool) r : (0 < im_nx a)%Z -> (0 < im_ny a)%Z -> ts = None \/ ts = Some (im_nx a, im_ny a) ->
  (gauss = false -> 1 <= r) ->
  let b := resample (gaussian_filter 4) a ts gauss (Some r) in
  im_nx b = im_nx a /\ im_ny b = im_ny a /\ (forall lo hi, image_between lo hi a -> image_between lo hi b) /\
  (gauss = true \/ (exists k, (0 <= k)%Z /\ IZR (2 * k + 1) <= r < IZR (2 * k + 2)) -> image_mean b = image_mean a).
Proof.
  intros N M T G. cbv zeta. rewrite same_shape by assumption. destruct gauss.
  - destruct (gaussian_size 4 (r, r) a) as [S1 S2]. split; [exact S1|]. split; [exact S2|]. split; [intros lo hi; apply gaussian_between|]. intros _. unfold image_mean. now rewrite S1, S2, gaussian_total.
  - split; [reflexivity|]. split; [reflexivity|]. split.
    + intros lo hi. apply uniform_between. specialize (G eq_refl). unfold Rtrunc. replace (Rltb r 0) with false by (symmetry; apply Rltb_false; lra). now apply Rfloor_ge.
    + intros [D | (k & K & B)]; [discriminate|]. replace (Rtrunc r) with (2 * k + 1)%Z.
      * unfold image_mean. cbn [uniform0 uniform1 im_nx im_ny]. f_equal. now apply uniform_total.
      * unfold Rtrunc. assert (0 <= IZR (2 * k + 1)) by (apply IZR_le; lia). replace (Rltb r 0) with false by (symmetry; apply Rltb_false; lra). symmetry. apply Rfloor_unique. rewrite <- plus_IZR. now replace (2 * k + 1 + 1)%Z with (2 * k + 2)%Z by lia.
Qed.
Lemma even_moves : let a := Img 2 1 (fun i _ => IZR i) in image_mean a = 1 / 2 /\ image_mean (resample (gaussian_filter 4) a None false (Some 2)) = 1 / 4.
Proof.
  cbv zeta. rewrite same_shape by (auto; cbn; lia). replace (Rtrunc 2) with 2%Z by (symmetry; apply (Rtrunc_IZR 2); lia). split.
  - unfold image_mean, image_total, zsum. cbn [im_nx im_ny im_px]. change (Z.to_nat 2) with 2%nat. change (Z.to_nat 1) with 1%nat. cbn. lra.
  - unfold image_mean, image_total, zsum, uniform1, uniform0, window_mean, reflect_index. cbn [im_nx im_ny im_px]. change (Z.to_nat 2) with 2%nat. change (Z.to_nat 1) with 1%nat. cbn. lra.
Qed.
From Verif Require Import M_Gss S_Gss.
Lemma movement_case : exists e2, apply_eye_movement_2 (flt_gauss scipy_filters) 17 1 [1; 2; 3; 4] 1 = Ok e2.
Proof.
  unfold apply_eye_movement_2. replace (Rleb (1 * square 17) 0) with false; [eexists; reflexivity|]. symmetry. unfold square. apply Rleb_false. lra.
Qed.
Lemma gaussian_moves : 0 < im_px (gaussian_filter 4 (1 / 4, 0) (Img 3 1 (fun i _ => if (i =? 1)%Z then 1 else 0))) 0 0.
Proof.
  unfold gaussian_filter, gauss1, gauss0. cbn [fst snd]. replace (Rgtb 0 1e-15) with false by (symmetry; unfold Rgtb; apply Rltb_false; lra).
  replace (Rgtb (1 / 4) 1e-15) with true by (symmetry; unfold Rgtb; apply Rltb_true; lra). cbn [im_px im_nx].
  unfold gauss_at. cbv zeta. assert (L : gauss_radius 4 (1 / 4) = 1%Z).
  { unfold gauss_radius, Rtrunc. replace (Rltb (4 * (1 / 4) + 0.5) 0) with false by (symmetry; apply Rltb_false; lra). rewrite (Rfloor_unique _ 1) by lra. reflexivity. }
  pose proof (weight_total 4 (1 / 4)) as P. cbv zeta in P. rewrite L in P |- *. set (tot := axis_sum _ (fun k => gauss_weight _ _)) in *.
  unfold axis_sum. change (Z.to_nat (2 * 1 + 1)) with 3%nat. cbn [seq map fold_right]. change (Z.of_nat 0) with 0%Z. change (Z.of_nat 1) with 1%Z. change (Z.of_nat 2) with 2%Z.
  change (reflect_index 3 (0 + (0 - 1)) =? 1)%Z with false. change (reflect_index 3 (0 + (1 - 1)) =? 1)%Z with false. change (reflect_index 3 (0 + (2 - 1)) =? 1)%Z with true. cbv iota.
  assert (0 < gauss_weight (1 / 4) (2 - 1) / tot) by (apply Rdiv_lt_0_compat; [apply exp_pos|exact P]). lra.
Qed.
