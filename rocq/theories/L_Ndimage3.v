(** scipy's filters meet what is assumed of filters; the total over the steps of the score and over resample. *)
From Coq Require Import Lra Lia Psatz.
From Verif Require Import Base L_Base M_Translate M_Mapper M_Data S_Data L_Data3 M_Gss S_Gss S_Resample L_Data6 M_Ndimage S_Ndimage L_Ndimage L_Ndimage2.
Local Open Scope R_scope.

Lemma gaussian_square_length t w l : is_square l = true -> length (elements (gaussian_filter t w (square_of l))) = length l.
Proof.
  intros H. rewrite elements_length. destruct (gaussian_size t w (square_of l)) as [-> ->]. cbn [square_of im_nx im_ny]. now apply side_sq.
Qed.
Lemma gaussian_square_between t w l lo hi : is_square l = true -> all_between lo hi l -> all_between lo hi (elements (gaussian_filter t w (square_of l))).
Proof.
  intros H B. apply elements_between, gaussian_between, elements_between. now rewrite elements_square.
Qed.
Lemma convolve_length l k : is_square l = true -> length (elements (convolve (square_of l) k)) = length l.
Proof. intros H. rewrite elements_length. cbn [convolve square_of im_nx im_ny]. now apply side_sq. Qed.

Lemma Rsum_square k : is_square k = true -> Rsum k = nsum (Z.to_nat (side_of k)) (fun p => nsum (Z.to_nat (side_of k)) (fun q => im_px (square_of k) p q)).
Proof.
  intros H. rewrite <- (elements_square k H) at 1. rewrite elements_sum. unfold image_total. rewrite zsum_nsum. apply nsum_ext. intros p _. now rewrite zsum_nsum.
Qed.
Lemma square_px_in k p q : is_square k = true -> (0 <= p < side_of k)%Z -> (0 <= q < side_of k)%Z -> In (im_px (square_of k) p q) k.
Proof.
  intros H P Q. rewrite <- (elements_square k H) at 2. apply elements_in. exists p, q. now repeat split.
Qed.
Lemma convolve_range l k lo hi : is_square l = true -> is_square k = true -> Forall (fun x => 0 <= x) k -> all_between lo hi l ->
  all_between (lo * Rsum k) (hi * Rsum k) (elements (convolve (square_of l) (square_of k))).
Proof.
  intros L K P B. apply elements_between. intros i j Hi Hj. cbn [convolve im_nx im_ny im_px] in *.
  assert (B2 : image_between lo hi (square_of l)) by (apply elements_between; now rewrite elements_square).
  rewrite axis_nsum, (Rsum_square k K). rewrite (Rmult_comm lo), (Rmult_comm hi). rewrite !(Rmult_comm _ lo), !(Rmult_comm _ hi).
  rewrite <- !nsum_scal. change (im_nx (square_of l)) with (side_of l) in *. change (im_ny (square_of l)) with (side_of l) in *. change (im_nx (square_of k)) with (side_of k) in *. change (im_ny (square_of k)) with (side_of k) in *. rewrite Forall_forall in P.
  split; (apply nsum_le; intros p Hp; rewrite axis_nsum, <- nsum_scal; apply nsum_le; intros q Hq).
  - assert (Q : 0 <= im_px (square_of k) p q) by (apply P, square_px_in; [exact K|lia|lia]).
    pose proof (B2 _ _ (reflect_range (side_of l) (i + side_of k / 2 - p) ltac:(lia)) (reflect_range (side_of l) (j + side_of k / 2 - q) ltac:(lia))) as [B3 B4].
    nra.
  - assert (Q : 0 <= im_px (square_of k) p q) by (apply P, square_px_in; [exact K|lia|lia]).
    pose proof (B2 _ _ (reflect_range (side_of l) (i + side_of k / 2 - p) ltac:(lia)) (reflect_range (side_of l) (j + side_of k / 2 - q) ltac:(lia))) as [B3 B4].
    nra.
Qed.
Lemma convolve_const l k c : is_square l = true -> is_square k = true -> all_between c c l ->
  all_between (c * Rsum k) (c * Rsum k) (elements (convolve (square_of l) (square_of k))).
Proof.
  intros L K B. apply elements_between. intros i j Hi Hj. cbn [convolve im_nx im_ny im_px] in *.
  assert (B2 : image_between c c (square_of l)) by (apply elements_between; now rewrite elements_square).
  enough (E : axis_sum (im_nx (square_of k)) (fun p => axis_sum (im_ny (square_of k)) (fun q => im_px (square_of k) p q *
      im_px (square_of l) (reflect_index (im_nx (square_of l)) (i + im_nx (square_of k) / 2 - p)) (reflect_index (im_ny (square_of l)) (j + im_ny (square_of k) / 2 - q)))) = c * Rsum k) by (rewrite E; lra).
  rewrite axis_nsum, (Rsum_square k K), <- nsum_scal. change (im_nx (square_of l)) with (side_of l) in *. change (im_ny (square_of l)) with (side_of l) in *. change (im_nx (square_of k)) with (side_of k) in *. change (im_ny (square_of k)) with (side_of k) in *.
  apply nsum_ext. intros p Hp. rewrite axis_nsum, <- nsum_scal. apply nsum_ext. intros q Hq.
  pose proof (B2 _ _ (reflect_range (side_of l) (i + side_of k / 2 - p) ltac:(lia)) (reflect_range (side_of l) (j + side_of k / 2 - q) ltac:(lia))) as [B3 B4].
  rewrite Rmult_comm. f_equal. lra.
Qed.
Lemma Rsum_nonneg k : Forall (fun x => 0 <= x) k -> 0 <= Rsum k.
Proof. intros H. unfold Rsum. induction H as [|x k Hx _ IH]; cbn [fold_right]; lra. Qed.

Theorem scipy_ok : filters_ok scipy_filters.
Proof.
  unfold filters_ok, scipy_filters. cbn [flt_gauss flt_gauss_trunc flt_conv]. repeat apply conj.
  - intros w l. destruct (is_square l) eqn:H; [|auto]. split; [now apply gaussian_square_length|]. intros lo hi. now apply gaussian_square_between.
  - intros t w l. destruct (is_square l) eqn:H; [|auto]. split; [now apply gaussian_square_length|]. intros lo hi. now apply gaussian_square_between.
  - intros l k. destruct (is_square l) eqn:H; cbn [andb]; [|apply map_length]. destruct (is_square k); [|apply map_length]. now apply convolve_length.
  - intros l k lo hi P B. destruct (is_square l && is_square k) eqn:H.
    + apply andb_true_iff in H as [H1 H2]. now apply convolve_range.
    + pose proof (Rsum_nonneg k P). unfold all_between in *. rewrite Forall_forall in *. intros x Hx. apply in_map_iff in Hx as (y & <- & Hy). pose proof (B y Hy). nra.
  - intros l k c B. destruct (is_square l && is_square k) eqn:H.
    + apply andb_true_iff in H as [H1 H2]. now apply convolve_const.
    + unfold all_between in *. rewrite Forall_forall in *. intros x Hx. apply in_map_iff in Hx as (y & <- & Hy). pose proof (B y Hy). replace y with c by lra. lra.
Qed.

(** * the light on the retina *)
Lemma gaussian_square_sum t w l : is_square l = true -> Rsum (elements (gaussian_filter t w (square_of l))) = Rsum l.
Proof.
  intros H. rewrite elements_sum. destruct l as [|x l].
  - unfold image_total. destruct (gaussian_size t w (square_of [])) as [-> ->]. reflexivity.
  - rewrite <- (elements_square (x :: l) H) at 2. rewrite elements_sum. pose proof (is_square_pos (x :: l) H ltac:(discriminate)).
    apply gaussian_total; exact H0.
Qed.
Lemma gaussian_square_square t w l : is_square l = true -> is_square (elements (gaussian_filter t w (square_of l))) = true.
Proof.
  intros H. unfold is_square, side_of in *. now rewrite gaussian_square_length.
Qed.
Lemma Rsum_combine a b x y : length a = length b -> Rsum (map (fun p => x * fst p + y * snd p) (combine a b)) = x * Rsum a + y * Rsum b.
Proof.
  revert b. induction a as [|u a IH]; intros [|v b] H; try discriminate; unfold Rsum in *; cbn [combine map fold_right fst snd]; [ring|].
  rewrite IH by (cbn in H; lia). ring.
Qed.
Lemma movement_1 ppa e : is_square e = true ->
  Rsum (apply_eye_movement_1 (flt_gauss scipy_filters) (flt_gauss_trunc scipy_filters) ppa e) = Rsum e.
Proof.
  intros H. unfold apply_eye_movement_1, scipy_filters. cbn [flt_gauss flt_gauss_trunc]. rewrite H.
  rewrite Rsum_combine by (now rewrite !gaussian_square_length). rewrite !gaussian_square_sum by exact H. lra.
Qed.
Lemma movement_2 f ppa e e_g e2 : is_square e = true -> apply_eye_movement_2 (flt_gauss scipy_filters) f ppa e e_g = Ok e2 -> Rsum e2 = Rsum e.
Proof.
  intros H. unfold apply_eye_movement_2. destruct (Rleb _ _); [discriminate|]. intros [= <-]. unfold scipy_filters. cbn [flt_gauss]. rewrite H, gaussian_square_square by exact H.
  rewrite gaussian_square_sum by (now apply gaussian_square_square). now apply gaussian_square_sum.
Qed.

(** * resample *)
Lemma nsum_blocks (k : nat) g : forall n, nsum (n * k) g = nsum n (fun i => nsum k (fun a => g (i * Z.of_nat k + a)%Z)).
Proof.
  induction n as [|n IH]; [reflexivity|]. rewrite nsum_S, <- IH. replace (S n * k)%nat with (n * k + k)%nat by lia. rewrite nsum_app. f_equal.
  apply nsum_ext. intros a _. f_equal. lia.
Qed.
Lemma zsum_blocks n k g : (0 <= n)%Z -> (0 <= k)%Z -> zsum (n * k) g = zsum n (fun i => zsum k (fun a => g (i * k + a)%Z)).
Proof.
  intros N K. rewrite !zsum_nsum. rewrite Z2Nat.inj_mul by lia. rewrite nsum_blocks. apply nsum_ext. intros i _. rewrite zsum_nsum, Z2Nat.id by lia. reflexivity.
Qed.
Lemma zsum_repeat n k f : (0 <= n)%Z -> (1 <= k)%Z -> zsum (n * k) (fun i => f (i / k)%Z) = IZR k * zsum n f.
Proof.
  intros N K. rewrite zsum_blocks by lia. rewrite Rmult_comm, <- zsum_scal. apply zsum_ext. intros i Hi.
  rewrite (zsum_ext k _ (fun _ => f i)) by (intros a Ha; f_equal; rewrite Z.add_comm, Z.div_add by lia; rewrite Z.div_small; lia). rewrite zsum_const by lia. ring.
Qed.
Lemma repeat_total a kx ky : (0 < im_nx a)%Z -> (0 < im_ny a)%Z -> (1 <= kx)%Z -> (1 <= ky)%Z ->
  image_total (repeat1 ky (repeat0 kx a)) = IZR kx * IZR ky * image_total a.
Proof.
  intros N M X Y. unfold image_total. cbn [repeat0 repeat1 im_nx im_ny im_px].
  rewrite (zsum_ext (im_nx a * kx) _ (fun i => (fun i => IZR ky * zsum (im_ny a) (fun j => im_px a i j)) (i / kx)%Z)) by (intros i Hi; apply (zsum_repeat (im_ny a) ky (fun j => im_px a (i / kx)%Z j)); lia).
  rewrite (zsum_repeat (im_nx a) kx (fun i => IZR ky * zsum (im_ny a) (fun j => im_px a i j))) by lia. rewrite (zsum_ext (im_nx a) _ (fun i => zsum (im_ny a) (fun j => im_px a i j) * IZR ky)) by (intros; ring). rewrite zsum_scal. ring.
Qed.
Lemma mean_of_total (t nx ny kx ky : R) : nx <> 0 -> ny <> 0 -> kx <> 0 -> ky <> 0 -> kx * ky * t / (nx * kx * (ny * ky)) = t / (nx * ny).
Proof. intros. field. auto. Qed.
Lemma up_shape a kx ky gauss radius : (0 < im_nx a)%Z -> (0 < im_ny a)%Z -> (1 <= kx)%Z -> (1 <= ky)%Z -> (1 < kx * ky)%Z ->
  resample (gaussian_filter 4) a (Some (im_nx a * kx, im_ny a * ky)%Z) gauss radius =
  (if gauss : bool then gaussian_filter 4 (match radius with Some r => (r, r) | None => (IZR kx - 1, IZR ky - 1) end) else fun b => b) (repeat1 ky (repeat0 kx a)).
Proof.
  intros Hx Hy Hkx Hky Hk. unfold resample. cbn [fst snd]. pose proof (IZR_pos _ Hx). pose proof (IZR_pos _ Hy).
  replace (IZR (im_nx a * kx) / IZR (im_nx a)) with (IZR kx) by (rewrite mult_IZR; field; lra).
  replace (IZR (im_ny a * ky) / IZR (im_ny a)) with (IZR ky) by (rewrite mult_IZR; field; lra).
  assert (Rgtb (IZR kx * IZR ky) 1 = true) as ->. { apply Rltb_true. rewrite <- mult_IZR. apply IZR_lt. lia. }
  rewrite !Rtrunc_IZR by lia. now destruct gauss.
Qed.
Lemma up_mean a kx ky gauss radius : (0 < im_nx a)%Z -> (0 < im_ny a)%Z -> (1 <= kx)%Z -> (1 <= ky)%Z -> (1 < kx * ky)%Z ->
  let b := resample (gaussian_filter 4) a (Some (im_nx a * kx, im_ny a * ky)%Z) gauss radius in
  im_nx b = (im_nx a * kx)%Z /\ im_ny b = (im_ny a * ky)%Z /\ image_mean b = image_mean a /\ forall lo hi, image_between lo hi a -> image_between lo hi b.
Proof.
  intros Hx Hy Hkx Hky Hk. cbv zeta. rewrite up_shape by assumption. set (r := repeat1 ky (repeat0 kx a)).
  assert (RB : forall lo hi, image_between lo hi a -> image_between lo hi r).
  { intros lo hi B i j Hi Hj. cbn [r repeat0 repeat1 im_nx im_ny im_px] in *. apply B; (split; [apply Z.div_pos; lia|apply Z.div_lt_upper_bound; lia]). }
  assert (RM : image_total r / (IZR (im_nx a * kx) * IZR (im_ny a * ky)) = image_mean a).
  { unfold r. rewrite repeat_total by assumption. rewrite !mult_IZR. unfold image_mean. apply mean_of_total; apply not_0_IZR; lia. }
  destruct gauss.
  - set (w := match radius with Some _ => _ | None => _ end). destruct (gaussian_size 4 w r) as [S1 S2]. split; [exact S1|]. split; [exact S2|]. split.
    + unfold image_mean at 1. rewrite S1, S2, gaussian_total by (cbn [r repeat0 repeat1 im_nx im_ny]; nia). exact RM.
    + intros lo hi B. now apply gaussian_between, RB.
  - split; [reflexivity|]. split; [reflexivity|]. split; [exact RM|exact RB].
Qed.
Lemma total_same a b : same_image a b -> image_total a = image_total b.
Proof. intros (X & Y & P). unfold image_total. rewrite <- X, <- Y. apply zsum_ext. intros i Hi. apply zsum_ext. intros j Hj. now apply P. Qed.
Lemma zsum_le n f g : (forall k, (0 <= k < n)%Z -> f k <= g k) -> zsum n f <= zsum n g.
Proof. intros H. rewrite !zsum_nsum. apply nsum_le. intros k Hk. apply H. lia. Qed.
Lemma block_between kx ky f lo hi i j : (1 <= kx)%Z -> (1 <= ky)%Z ->
  (forall p q, (0 <= p < kx)%Z -> (0 <= q < ky)%Z -> lo <= f (i * kx + p)%Z (j * ky + q)%Z <= hi) -> lo <= block_mean kx ky f i j <= hi.
Proof.
  intros X Y B. unfold block_mean. assert (0 < IZR kx) by (apply IZR_pos; lia). assert (0 < IZR ky) by (apply IZR_pos; lia).
  assert (P : 0 < IZR kx * IZR ky) by nra.
  assert (C : forall c, zsum ky (fun _ => zsum kx (fun _ => c)) = c * (IZR kx * IZR ky)) by (intros c; rewrite !zsum_const by lia; ring).
  split.
  - apply Rmult_le_reg_r with (IZR kx * IZR ky); [exact P|]. unfold Rdiv. rewrite Rmult_assoc, Rinv_l, Rmult_1_r by lra. rewrite <- C.
    apply zsum_le. intros q Hq. apply zsum_le. intros p Hp. now apply B.
  - apply Rmult_le_reg_r with (IZR kx * IZR ky); [exact P|]. unfold Rdiv. rewrite Rmult_assoc, Rinv_l, Rmult_1_r by lra. rewrite <- C.
    apply zsum_le. intros q Hq. apply zsum_le. intros p Hp. now apply B.
Qed.
Lemma down_mean a tx ty kx ky gauss radius : (0 < tx)%Z -> (0 < ty)%Z -> (1 <= kx)%Z -> (1 <= ky)%Z -> (1 < kx * ky)%Z ->
  im_nx a = (tx * kx)%Z -> im_ny a = (ty * ky)%Z ->
  let b := resample (gaussian_filter 4) a (Some (tx, ty)) gauss radius in
  im_nx b = tx /\ im_ny b = ty /\ image_mean b = image_mean a /\ forall lo hi, image_between lo hi a -> image_between lo hi b.
Proof.
  intros Hx Hy Hkx Hky Hk Enx Eny. cbv zeta. pose proof (resample_down (gaussian_filter 4) a tx ty kx ky gauss radius Hx Hy Hkx Hky Hk Enx Eny) as D.
  set (b := resample _ _ _ _ _) in *. pose proof (total_same _ _ D) as T. destruct D as (X & Y & P). cbn [im_nx im_ny im_px] in X, Y, P.
  split; [exact X|]. split; [exact Y|]. split.
  - unfold image_mean. rewrite T, X, Y, Enx, Eny, !mult_IZR.
    assert (A : image_total a = IZR kx * IZR ky * image_total (Img tx ty (block_mean kx ky (im_px a)))).
    { unfold image_total. cbn [im_nx im_ny im_px]. rewrite Enx, Eny. rewrite zsum_blocks by lia.
      rewrite (Rmult_comm (IZR kx * IZR ky)), <- zsum_scal. apply zsum_ext. intros i Hi. rewrite <- zsum_scal. rewrite (zsum_ext kx _ (fun p => zsum ty (fun j => zsum ky (fun q => im_px a (i * kx + p)%Z (j * ky + q)%Z)))) by (intros; apply zsum_blocks; lia).
      rewrite zsum_swap. apply zsum_ext. intros j Hj. unfold block_mean. rewrite zsum_swap. field. split; apply not_0_IZR; lia. }
    rewrite A. symmetry. apply mean_of_total; apply not_0_IZR; lia.
  - intros lo hi B i j Hi Hj. rewrite P by assumption. rewrite X in Hi. rewrite Y in Hj. apply block_between; [lia|lia|]. intros p q Hp Hq. apply B; nia.
Qed.
