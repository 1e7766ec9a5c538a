(** Lemmas: a bright pixel on the retina under the movement of the eye. *)
From Coq Require Import Lra Lia.
From Verif Require Import Base L_Base M_Translate M_Mapper M_Data S_Data M_Gss S_Gss M_Ndimage S_Ndimage L_Ndimage L_Ndimage2 L_Ndimage3 L_Ndimage4 L_Ndimage5 S_Mirror L_Mirror S_Spot.
Local Open Scope R_scope.

Lemma weight_bell w k : 1e-15 < w -> gauss_weight w k = exp (- IZR k ^ 2 / (2 * w ^ 2)).
Proof. intros W. unfold gauss_weight, square. f_equal. replace (-0.5) with (- (1) / 2) by lra. field. lra. Qed.
Lemma share_line t w k : 1e-15 < w -> share w (gauss_radius t w) k =
  if (Z.abs k <=? gauss_radius t w)%Z then gauss_weight w k / axis_sum (2 * gauss_radius t w + 1) (fun j => gauss_weight w (j - gauss_radius t w)) else 0.
Proof.
  intros W. unfold share. cbv zeta. destruct (_ <=? _)%Z; [|reflexivity]. rewrite weight_bell by exact W. f_equal. rewrite zsum_nsum, axis_nsum.
  apply nsum_ext. intros j _. symmetry. now apply weight_bell.
Qed.

Lemma spot_at t w n p q i j : let L := gauss_radius t w in 1e-15 < w ->
  (L <= p)%Z -> (p + L < n)%Z -> (L <= q)%Z -> (q + L < n)%Z -> (0 <= i < n)%Z -> (0 <= j < n)%Z ->
  im_px (gaussian_filter t (w, w) (Img n n (fun i j => if ((i =? p) && (j =? q))%Z then 1 else 0))) i j = spot w L (i - p) (j - q).
Proof.
  cbv zeta. intros W P1 P2 Q1 Q2 Hi Hj. unfold gaussian_filter, gauss1, gauss0. cbn [fst snd].
  replace (Rgtb w 1e-15) with true by (symmetry; unfold Rgtb; apply Rltb_true; lra). cbn [im_nx im_ny im_px].
  unfold spot. rewrite !(share_line t) by exact W. set (L := gauss_radius t w) in *. set (tot := axis_sum (2 * L + 1) (fun k => gauss_weight w (k - L))).
  rewrite (gauss_ext_all t w n _ (fun k => if (k =? q)%Z then (if (Z.abs (i - p) <=? L)%Z then gauss_weight w (i - p) / tot * 1 else 0) else 0)).
  - rewrite gauss_impulse by assumption. fold L tot. destruct (Z.abs (i - p) <=? L)%Z, (Z.abs (j - q) <=? L)%Z; ring.
  - intros k. destruct (k =? q)%Z.
    + rewrite (gauss_ext_all t w n _ (fun k0 => if (k0 =? p)%Z then 1 else 0)) by (intros k0; now destruct (k0 =? p)%Z). now rewrite gauss_impulse by assumption.
    + rewrite (gauss_ext_all t w n _ (fun _ => 0)) by (intros k0; now destruct (k0 =? p)%Z). apply gauss_zero.
Qed.

Lemma radius_is t w L : 0 <= t * w -> IZR L <= t * w + 1 / 2 < IZR L + 1 -> gauss_radius t w = L.
Proof.
  intros P RL. unfold gauss_radius, Rtrunc. replace (Rltb (t * w + 0.5) 0) with false by (symmetry; apply Rltb_false; lra). rewrite (Rfloor_unique _ L) by lra.
  apply Z.max_r. enough (-1 < L)%Z by lia. apply lt_IZR. lra.
Qed.

Lemma lit_image n p q e : lit n p q e ->
  same_image (square_of e) (Img (Z.of_nat n) (Z.of_nat n) (fun i j => if ((i =? Z.of_nat p) && (j =? Z.of_nat q))%Z then 1 else 0)).
Proof.
  intros [N E]. destruct (is_square_len e n N) as [_ S]. repeat split; cbn [square_of im_nx im_ny im_px]; [exact S|exact S|]. rewrite S. intros i j Hi Hj.
  replace (Z.to_nat (i * Z.of_nat n + j)) with (Z.to_nat i * n + Z.to_nat j)%nat by nia. rewrite E by lia.
  destruct (Nat.eqb_spec (Z.to_nat i) p), (Nat.eqb_spec (Z.to_nat j) q), (Z.eqb_spec i (Z.of_nat p)), (Z.eqb_spec j (Z.of_nat q)); cbn [andb]; (reflexivity || lia).
Qed.
Lemma nth_at t w e n p q i j : let L := gauss_radius t w in lit n p q e -> 1e-15 < w ->
  (L <= Z.of_nat p)%Z -> (Z.of_nat p + L < Z.of_nat n)%Z -> (L <= Z.of_nat q)%Z -> (Z.of_nat q + L < Z.of_nat n)%Z -> (i < n)%nat -> (j < n)%nat ->
  nth_error (elements (gaussian_filter t (w, w) (square_of e))) (i * n + j) = Some (spot w L (Z.of_nat i - Z.of_nat p) (Z.of_nat j - Z.of_nat q)).
Proof.
  cbv zeta. intros E W P1 P2 Q1 Q2 Hi Hj. destruct (gaussian_ext t (w, w) _ _ (lit_image n p q e E)) as (X & Y & P).
  pose proof E as [N _]. destruct (is_square_len e n N) as [_ S].
  assert (NX : forall a, im_nx (gaussian_filter t (w, w) a) = im_nx a) by (intros a; unfold gaussian_filter, gauss1, gauss0; destruct (Rgtb _ _); reflexivity).
  assert (NY : forall a, im_ny (gaussian_filter t (w, w) a) = im_ny a) by (intros a; unfold gaussian_filter, gauss1, gauss0; destruct (Rgtb _ _); reflexivity).
  rewrite (elements_at _ _ _ n); [|rewrite NX; exact S|rewrite NY; exact S|exact Hi|exact Hj]. f_equal.
  rewrite P by (rewrite ?NX, ?NY; cbn [square_of im_nx im_ny]; rewrite S; lia). apply spot_at; (assumption || lia).
Qed.

Lemma eye_spot ppa L1 L2 n p q e : 1e-15 < ppa ->
  IZR L1 <= 4 * (4.2341723424 * ppa) + 1 / 2 < IZR L1 + 1 -> IZR L2 <= 30 * ppa + 1 / 2 < IZR L2 + 1 ->
  (L2 <= Z.of_nat p)%Z -> (Z.of_nat p + L2 < Z.of_nat n)%Z -> (L2 <= Z.of_nat q)%Z -> (Z.of_nat q + L2 < Z.of_nat n)%Z ->
  lit n p q e ->
  forall i j, (i < n)%nat -> (j < n)%nat ->
    let di := (Z.of_nat i - Z.of_nat p)%Z in let dj := (Z.of_nat j - Z.of_nat q)%Z in
    nth_error (apply_eye_movement_1 (flt_gauss scipy_filters) (flt_gauss_trunc scipy_filters) ppa e) (i * n + j) =
    Some (0.62 * spot (4.2341723424 * ppa) L1 di dj + 0.38 * spot (14.1421356237 * ppa) L2 di dj).
Proof.
  intros A B1 B2 P1 P2 Q1 Q2 E i j Hi Hj. cbv zeta. unfold apply_eye_movement_1. cbv zeta. cbn [scipy_filters flt_gauss flt_gauss_trunc].
  pose proof E as [N _]. destruct (is_square_len e n N) as [-> _].
  assert (R1 : gauss_radius 4 (4.2341723424 * ppa) = L1) by (apply radius_is; lra).
  assert (R2 : gauss_radius (30 * ppa / (14.1421356237 * ppa)) (14.1421356237 * ppa) = L2).
  { assert (30 * ppa / (14.1421356237 * ppa) * (14.1421356237 * ppa) = 30 * ppa) as F by (field; lra). apply radius_is; rewrite F; lra. }
  assert (L1 <= L2)%Z as LL by (enough (L1 < L2 + 1)%Z by lia; apply lt_IZR; rewrite plus_IZR; lra).
  rewrite nth_error_map. rewrite nth_error_combine.
  rewrite (nth_at 4 _ e n p q), (nth_at (30 * ppa / (14.1421356237 * ppa)) _ e n p q); rewrite ?R1, ?R2; (assumption || lia || lra || reflexivity).
Qed.
