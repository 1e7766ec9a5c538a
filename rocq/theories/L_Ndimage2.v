(** The Gaussian filter of an image: range, sum, mirror images; the lists of square arrays. *)
From Coq Require Import Lra Lia Psatz.
From Verif Require Import Base L_Base M_Translate M_Mapper M_Data S_Data L_Data3 M_Gss S_Gss M_Ndimage S_Ndimage L_Ndimage.
Local Open Scope R_scope.

Lemma zsum_swap n m f : zsum n (fun i => zsum m (fun j => f i j)) = zsum m (fun j => zsum n (fun i => f i j)).
Proof. rewrite !zsum_nsum. exact (nsum_swap (Z.to_nat n) (Z.to_nat m) f). Qed.

Lemma gauss0_size t w a : im_nx (gauss0 t w a) = im_nx a /\ im_ny (gauss0 t w a) = im_ny a.
Proof. unfold gauss0. destruct (Rgtb w 1e-15); now split. Qed.
Lemma gauss1_size t w a : im_nx (gauss1 t w a) = im_nx a /\ im_ny (gauss1 t w a) = im_ny a.
Proof. unfold gauss1. destruct (Rgtb w 1e-15); now split. Qed.
Lemma gaussian_size t s a : im_nx (gaussian_filter t s a) = im_nx a /\ im_ny (gaussian_filter t s a) = im_ny a.
Proof. unfold gaussian_filter. destruct (gauss1_size t (snd s) (gauss0 t (fst s) a)) as [-> ->]. apply gauss0_size. Qed.

Lemma gauss0_total t w a : (0 < im_nx a)%Z -> image_total (gauss0 t w a) = image_total a.
Proof.
  intros N. unfold gauss0. destruct (Rgtb w 1e-15); [|reflexivity]. unfold image_total. cbn [im_nx im_ny im_px]. rewrite !(zsum_swap (im_nx a)).
  apply zsum_ext. intros j _. now apply (gauss_sum t w (im_nx a) (fun k => im_px a k j)).
Qed.
Lemma gauss1_total t w a : (0 < im_ny a)%Z -> image_total (gauss1 t w a) = image_total a.
Proof.
  intros N. unfold gauss1. destruct (Rgtb w 1e-15); [|reflexivity]. unfold image_total. cbn [im_nx im_ny im_px].
  apply zsum_ext. intros i _. now apply (gauss_sum t w (im_ny a) (fun k => im_px a i k)).
Qed.
Lemma gaussian_total t s a : (0 < im_nx a)%Z -> (0 < im_ny a)%Z -> image_total (gaussian_filter t s a) = image_total a.
Proof.
  intros N M. unfold gaussian_filter. rewrite gauss1_total; [now apply gauss0_total|]. now rewrite (proj2 (gauss0_size _ _ _)).
Qed.
Lemma gauss0_between t w a lo hi : image_between lo hi a -> image_between lo hi (gauss0 t w a).
Proof.
  unfold gauss0. destruct (Rgtb w 1e-15); [|auto]. intros B i j Hi Hj. cbn [im_nx im_ny im_px] in *. apply gauss_between; [lia|]. intros k Hk. now apply B.
Qed.
Lemma gauss1_between t w a lo hi : image_between lo hi a -> image_between lo hi (gauss1 t w a).
Proof.
  unfold gauss1. destruct (Rgtb w 1e-15); [|auto]. intros B i j Hi Hj. cbn [im_nx im_ny im_px] in *. apply gauss_between; [lia|]. intros k Hk. now apply B.
Qed.
Lemma gaussian_between t s a lo hi : image_between lo hi a -> image_between lo hi (gaussian_filter t s a).
Proof. intros B. now apply gauss1_between, gauss0_between. Qed.

Lemma gauss_ext_all t w n f g i : (forall k, f k = g k) -> gauss_at t w n f i = gauss_at t w n g i.
Proof. intros H. unfold gauss_at. cbv zeta. rewrite !axis_nsum. apply nsum_ext. intros k _. f_equal. apply H. Qed.
Lemma gaussian_flip0 t s a : same_image (gaussian_filter t s (flip0 a)) (flip0 (gaussian_filter t s a)).
Proof.
  pose proof (gaussian_size t s (flip0 a)) as [S1 S2]. pose proof (gaussian_size t s a) as [S3 S4]. split; [now rewrite S1; cbn; rewrite S3|]. split; [now rewrite S2; cbn; rewrite S4|].
  intros i j Hi Hj. rewrite S1 in Hi. cbn [flip0 im_nx] in Hi. unfold flip0 at 2. cbn [im_px]. rewrite S3. clear S1 S2 S3 S4 Hj.
  unfold gaussian_filter, gauss1, gauss0. destruct (Rgtb (snd s) 1e-15), (Rgtb (fst s) 1e-15); cbn [flip0 im_nx im_ny im_px]; try reflexivity.
  - apply gauss_ext_all. intros k. apply (gauss_flip t (fst s) (im_nx a) (fun k0 => im_px a k0 k)). lia.
  - apply (gauss_flip t (fst s) (im_nx a) (fun k0 => im_px a k0 j)). lia.
Qed.
Lemma gaussian_flip1 t s a : same_image (gaussian_filter t s (flip1 a)) (flip1 (gaussian_filter t s a)).
Proof.
  pose proof (gaussian_size t s (flip1 a)) as [S1 S2]. pose proof (gaussian_size t s a) as [S3 S4]. split; [now rewrite S1; cbn; rewrite S3|]. split; [now rewrite S2; cbn; rewrite S4|].
  intros i j Hi Hj. rewrite S2 in Hj. cbn [flip1 im_ny] in Hj. unfold flip1 at 2. cbn [im_px]. rewrite S4. clear S1 S2 S3 S4 Hi.
  unfold gaussian_filter, gauss1, gauss0. destruct (Rgtb (snd s) 1e-15), (Rgtb (fst s) 1e-15); cbn [flip1 im_nx im_ny im_px]; try reflexivity.
  - apply (gauss_flip t (snd s) (im_ny a) (fun k => gauss_at t (fst s) (im_nx a) (fun k0 => im_px a k0 k) i)). lia.
  - apply (gauss_flip t (snd s) (im_ny a) (fun k => im_px a i k)). lia.
Qed.
(** the order of the axes does not matter *)
Lemma gauss_swap t w1 w2 n m f i j : gauss_at t w1 n (fun k => gauss_at t w2 m (fun l => f k l) j) i = gauss_at t w2 m (fun l => gauss_at t w1 n (fun k => f k l) i) j.
Proof.
  unfold gauss_at. cbv zeta. set (l1 := gauss_radius t w1). set (l2 := gauss_radius t w2).
  set (t1 := axis_sum _ (fun k => gauss_weight w1 (k - l1))). set (t2 := axis_sum _ (fun k => gauss_weight w2 (k - l2))). rewrite !axis_nsum.
  rewrite (nsum_ext _ _ (fun k => nsum (Z.to_nat (2 * l2 + 1)) (fun l => gauss_weight w1 (k - l1) / t1 * (gauss_weight w2 (l - l2) / t2 * f (reflect_index n (i + (k - l1))) (reflect_index m (j + (l - l2)))))))
    by (intros; now rewrite nsum_scal, axis_nsum).
  rewrite nsum_swap. apply nsum_ext. intros l _. rewrite axis_nsum, <- nsum_scal. apply nsum_ext. intros k _. ring.
Qed.
Lemma gaussian_transposed t s1 s2 a : same_image (gaussian_filter t (s1, s2) (transposed a)) (transposed (gaussian_filter t (s2, s1) a)).
Proof.
  pose proof (gaussian_size t (s1, s2) (transposed a)) as [S1 S2]. pose proof (gaussian_size t (s2, s1) a) as [S3 S4]. split; [now rewrite S1; cbn; rewrite S4|]. split; [now rewrite S2; cbn; rewrite S3|].
  intros i j _ _. unfold transposed at 2. cbn [im_px]. unfold gaussian_filter, gauss1, gauss0. cbn [fst snd].
  destruct (Rgtb s1 1e-15), (Rgtb s2 1e-15); cbn [transposed im_nx im_ny im_px]; try reflexivity. apply (gauss_swap t s2 s1 (im_nx a) (im_ny a) (fun k l => im_px a k l)).
Qed.

(** * lists *)
Lemma elements_length a : length (elements a) = (Z.to_nat (im_nx a) * Z.to_nat (im_ny a))%nat.
Proof.
  unfold elements. rewrite <- (seq_length (Z.to_nat (im_nx a)) 0) at 2. generalize (seq 0 (Z.to_nat (im_nx a))) as l. induction l as [|i l IH]; [reflexivity|].
  cbn [flat_map length]. rewrite app_length, map_length, seq_length, IH. lia.
Qed.
Lemma elements_sum a : Rsum (elements a) = image_total a.
Proof.
  unfold elements, image_total, Rsum, zsum. generalize (seq 0 (Z.to_nat (im_nx a))) as l. induction l as [|i l IH]; [reflexivity|].
  cbn [flat_map map fold_right]. rewrite fold_plus_app, IH. reflexivity.
Qed.
Lemma elements_in x a : In x (elements a) <-> exists i j, (0 <= i < im_nx a)%Z /\ (0 <= j < im_ny a)%Z /\ x = im_px a i j.
Proof.
  unfold elements. rewrite in_flat_map. split.
  - intros (i & Hi & H). apply in_map_iff in H as (j & <- & Hj). apply in_seq in Hi, Hj. exists (Z.of_nat i), (Z.of_nat j). repeat split; lia.
  - intros (i & j & Hi & Hj & ->). exists (Z.to_nat i). split; [apply in_seq; lia|]. apply in_map_iff. exists (Z.to_nat j). rewrite !Z2Nat.id by lia. split; [reflexivity|apply in_seq; lia].
Qed.
Lemma elements_between lo hi a : all_between lo hi (elements a) <-> image_between lo hi a.
Proof.
  unfold all_between, image_between. rewrite Forall_forall. split.
  - intros H i j Hi Hj. apply H, elements_in. eauto.
  - intros H x Hx. apply elements_in in Hx as (i & j & Hi & Hj & ->). auto.
Qed.
Lemma side_sq l : is_square l = true -> (Z.to_nat (side_of l) * Z.to_nat (side_of l))%nat = length l /\ (0 <= side_of l)%Z.
Proof. unfold is_square. intros H. apply Z.eqb_eq in H. assert (0 <= side_of l)%Z by (unfold side_of; apply Z.sqrt_nonneg). split; lia. Qed.
Lemma rows_of (r : nat) (l : list R) : forall n, length l = (n * r)%nat ->
  flat_map (fun i => map (fun j => nth (i * r + j) l 0) (seq 0 r)) (seq 0 n) = l.
Proof.
  intros n. revert l. induction n as [|n IH]; intros l H; [now destruct l|]. cbn [seq flat_map].
  assert (E : map (fun j => nth (0 * r + j) l 0) (seq 0 r) = firstn r l).
  { apply nth_ext with (d := 0) (d' := 0).
    - rewrite map_length, seq_length, firstn_length. lia.
    - intros k Hk. rewrite map_length, seq_length in Hk. rewrite (nth_indep _ 0 (nth (0 * r + 0) l 0)) by (rewrite map_length, seq_length; lia).
      rewrite (map_nth (fun j => nth (0 * r + j) l 0)), seq_nth by lia. cbn [plus Nat.mul]. symmetry. rewrite <- (firstn_skipn r l) at 2. rewrite app_nth1; [reflexivity|]. rewrite firstn_length. lia. }
  rewrite E. rewrite <- seq_shift, flat_map_concat_map, map_map, <- flat_map_concat_map.
  transitivity (firstn r l ++ skipn r l); [|apply firstn_skipn]. f_equal. transitivity (flat_map (fun i => map (fun j => nth (i * r + j) (skipn r l) 0) (seq 0 r)) (seq 0 n)); [|apply IH; rewrite skipn_length; lia].
  apply flat_map_ext. intros i. apply map_ext. intros j. rewrite <- (firstn_skipn r l) at 1. rewrite app_nth2 by (rewrite firstn_length; lia).
  f_equal. rewrite firstn_length. lia.
Qed.
Lemma elements_square l : is_square l = true -> elements (square_of l) = l.
Proof.
  intros H. destruct (side_sq l H) as [S P]. unfold elements, square_of. cbn [im_nx im_ny im_px].
  transitivity (flat_map (fun i => map (fun j => nth (i * Z.to_nat (side_of l) + j) l 0) (seq 0 (Z.to_nat (side_of l)))) (seq 0 (Z.to_nat (side_of l)))); [|apply rows_of; lia].
  apply flat_map_ext. intros i. apply map_ext. intros j. f_equal. lia.
Qed.
Lemma is_square_pos l : is_square l = true -> l <> [] -> (0 < side_of l)%Z.
Proof. intros H N. destruct (side_sq l H) as [S P]. destruct (Z.eq_dec (side_of l) 0) as [E|E]; [|lia]. rewrite E in S. destruct l; [easy|]. cbn in S. lia. Qed.
