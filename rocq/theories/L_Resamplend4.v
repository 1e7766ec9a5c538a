(** Lemmas: an array with two axes is resampled like an image. *)
From Coq Require Import Lra Lia FunctionalExtensionality.
From Verif Require Import Base L_Base M_Translate M_Mapper M_Data S_Data M_Gss M_Ndimage L_Data3 L_Ndimage L_Ndimage2 L_Ndimage3 L_Ndimage4 M_Resample S_Resamplend L_Resamplend L_Resamplend2 L_Resamplend3.
Local Open Scope R_scope.

Lemma line_one n k u j o : (1 <= k)%Z -> (k = 1 -> o = 0)%Z -> (0 <= j < n)%Z ->
  (if (1 <? k)%Z then window_mean k (fun q => u (reflect_index n q)) (j - k / 2 - o)%Z else u j) = window_mean k (fun q => u (reflect_index n q)) (j - k / 2 - o)%Z.
Proof.
  intros K O J. destruct (Z.ltb_spec 1 k) as [L|L]; [reflexivity|]. assert (k = 1)%Z as -> by lia. rewrite (O eq_refl). rewrite window_nsum. change (Z.to_nat 1) with 1%nat. unfold nsum. cbn [seq map fold_right].
  replace (j - 1 / 2 - 0 + Z.of_nat 0)%Z with j by (cbn; lia). rewrite reflect_index_in by lia. field.
Qed.
Lemma window_ext k u v j : (forall q, u q = v q) -> window_mean k u j = window_mean k v j.
Proof. intros H. rewrite !window_nsum. f_equal. apply nsum_ext. intros; apply H. Qed.
Lemma ceil_count n k i : (0 < k)%Z -> (0 <= i < - (- n / k))%Z -> (0 <= i * k < n)%Z.
Proof.
  intros K I. split; [nia|]. pose proof (Z_div_mod_eq_full (- n) k) as D. pose proof (Z.mod_pos_bound (- n) k K). nia.
Qed.

Definition same_as (b : ndarray R) (c : image R) : Prop :=
  nd_shape b = [im_nx c; im_ny c] /\ forall i j, (0 <= i < im_nx c)%Z -> (0 <= j < im_ny c)%Z -> nd_at b [i; j] = im_px c i j.
Lemma same_as_array b c : same_as b c -> same_array b (array_of c).
Proof.
  intros [S V]. split; [exact S|]. intros idx I. rewrite S in I. inversion I as [|? i ? idx' I1 I2]; subst. inversion I2 as [|? j ? idx'' J1 J2]; subst. inversion J2; subst. cbn [array_of nd_at nth]. now apply V.
Qed.
Lemma gauss_two w1 w2 b c : same_as b c -> (0 < im_nx c)%Z -> (0 < im_ny c)%Z -> same_as (each_axis gauss_axis [w1; w2] b) (gaussian_filter 4 (w1, w2) c).
Proof.
  intros [S V] N M. unfold each_axis. cbn [length seq combine fold_left fst snd]. unfold gauss_axis, along_axis. cbn [nd_shape nd_at]. rewrite S. cbn [nth M_Data.set_nth].
  unfold gaussian_filter, gauss1, gauss0. cbn [fst snd]. split.
  - destruct (Rgtb w1 1e-15), (Rgtb w2 1e-15); reflexivity.
  - destruct (Rgtb w1 1e-15), (Rgtb w2 1e-15); cbn [im_nx im_ny im_px nd_at nth M_Data.set_nth]; intros i j I J.
    + apply gauss_ext; [exact M|]. intros k K. apply gauss_ext; [exact N|]. intros q Q. now apply V.
    + apply gauss_ext; [exact N|]. intros q Q. now apply V.
    + apply gauss_ext; [exact M|]. intros q Q. now apply V.
    + now apply V.
Qed.
Lemma uniform_two k1 k2 o1 o2 a i j : (1 <= k1)%Z -> (1 <= k2)%Z -> (k1 = 1 -> o1 = 0)%Z -> (k2 = 1 -> o2 = 0)%Z -> (0 <= i < im_nx a)%Z -> (0 <= j < im_ny a)%Z ->
  nd_at (uniform_axis k2 o2 1 (uniform_axis k1 o1 0 (array_of a))) [i; j] = im_px (uniform1 k2 o2 (uniform0 k1 o1 a)) i j.
Proof.
  intros K1 K2 O1 O2 I J. unfold uniform_axis, along_axis, array_of. cbn [nd_shape nd_at nth M_Data.set_nth].
  rewrite (line_one (im_ny a) k2 (fun k => if (1 <? k1)%Z then window_mean k1 (fun k0 => im_px a (reflect_index (im_nx a) k0) k) (i - k1 / 2 - o1) else im_px a i k)) by assumption.
  cbn [uniform1 uniform0 im_px im_nx im_ny]. apply window_ext. intros q. exact (line_one (im_nx a) k1 (fun k => im_px a k (reflect_index (im_ny a) q)) i o1 K1 O1 I).
Qed.
Lemma half_one k : (k = 1 -> Rtrunc (- IZR k / 2) = 0)%Z.
Proof. intros ->. now rewrite Rtrunc_neg_half. Qed.

Lemma two_axes a tx ty gauss radius : (0 < im_nx a)%Z -> (0 < im_ny a)%Z -> (0 < tx)%Z -> (0 < ty)%Z ->
  (im_nx a <= tx /\ im_ny a <= ty)%Z \/ (tx <= im_nx a /\ ty <= im_ny a)%Z -> (gauss = false -> forall r, radius = Some r -> 1 <= r) ->
  exists b, resample_nd (array_of a) (Some [tx; ty]) gauss radius = Ok b /\ same_array b (array_of (resample (gaussian_filter 4) a (Some (tx, ty)) gauss radius)).
Proof.
  intros N M TX TY C G. enough (exists b, resample_nd (array_of a) (Some [tx; ty]) gauss radius = Ok b /\ same_as b (resample (gaussian_filter 4) a (Some (tx, ty)) gauss radius)) as (b & E & S)
    by (exists b; split; [exact E|now apply same_as_array]).
  assert (NX : 0 < IZR (im_nx a)) by (apply (IZR_lt 0); lia). assert (NY : 0 < IZR (im_ny a)) by (apply (IZR_lt 0); lia).
  assert (PX : 0 < IZR tx) by (apply (IZR_lt 0); lia). assert (PY : 0 < IZR ty) by (apply (IZR_lt 0); lia).
  unfold resample_nd, resample. rewrite ratios_eq by reflexivity. cbn [array_of nd_shape combine map fst snd fold_right].
  set (rx := IZR tx / IZR (im_nx a)). set (ry := IZR ty / IZR (im_ny a)). rewrite Rmult_1_r.
  assert (RX : 0 < rx) by (apply Rdiv_lt_0_compat; assumption). assert (RY : 0 < ry) by (apply Rdiv_lt_0_compat; assumption).
  assert (EX : rx * IZR (im_nx a) = IZR tx) by (unfold rx; field; lra). assert (EY : ry * IZR (im_ny a) = IZR ty) by (unfold ry; field; lra).
  assert (CR : (1 <= rx /\ 1 <= ry) \/ (rx <= 1 /\ ry <= 1)).
  { destruct C as [[C1 C2]|[C1 C2]]; [left|right]; (apply IZR_le in C1, C2; split; nra). }
  clearbody rx ry. unfold Rgtb. destruct (Rltb 1 (rx * ry)) eqn:U.
  - apply Rltb_true in U. destruct CR as [[C1 C2]|[C1 C2]]; [|nra].
    assert (W : same_as (each_axis repeat_axis [rx; ry] (array_of a)) (repeat1 (Rtrunc ry) (repeat0 (Rtrunc rx) a))) by (split; [reflexivity|intros i j _ _; reflexivity]).
    assert (T : forall r, 1 <= r -> (1 <= Rtrunc r)%Z).
    { intros r H. unfold Rtrunc. replace (Rltb r 0) with false by (symmetry; apply Rltb_false; lra). pose proof (Rfloor_spec r). enough (0 < Rfloor r)%Z by lia. apply lt_IZR. lra. }
    pose proof (T rx C1). pose proof (T ry C2). eexists. split; [reflexivity|]. destruct gauss; [|exact W].
    destruct radius as [r|]; cbn [map]; (apply gauss_two; [exact W|cbn [repeat0 repeat1 im_nx im_ny]; nia|cbn [repeat0 repeat1 im_nx im_ny]; nia]).
  - apply Rltb_false in U. destruct (Rltb (rx * ry) 1) eqn:D.
    + apply Rltb_true in D. assert (CR' : rx <= 1 /\ ry <= 1) by (destruct CR as [[C1 C2]|]; [nra|assumption]). destruct CR' as [C1 C2].
      assert (T : forall r, 0 < r <= 1 -> (1 <= Rtrunc (1 / r))%Z).
      { intros r H. assert (1 <= 1 / r) as H1 by (apply Rmult_le_reg_r with r; [lra|]; unfold Rdiv; rewrite Rmult_assoc, Rinv_l by lra; lra). unfold Rtrunc.
        replace (Rltb (1 / r) 0) with false by (symmetry; apply Rltb_false; lra). pose proof (Rfloor_spec (1 / r)). enough (0 < Rfloor (1 / r))%Z by lia. apply lt_IZR. lra. }
      pose proof (T rx (conj RX C1)) as K1. pose proof (T ry (conj RY C2)) as K2. cbn [map]. set (k1 := Rtrunc (1 / rx)) in *. set (k2 := Rtrunc (1 / ry)) in *. clearbody k1 k2.
      cbn [existsb]. replace (0 =? k1)%Z with false by lia. replace (0 =? k2)%Z with false by lia. cbn [orb]. eexists. split; [reflexivity|]. split; [reflexivity|].
      cbn [every0 every1 uniform0 uniform1 im_nx im_ny]. intros i j I J. apply ceil_count in I, J; try lia.
      unfold each_axis. cbn [length seq combine fold_left fst snd]. unfold every_axis at 1 2, along_axis at 1 2. cbn [nd_at nth M_Data.set_nth every0 every1 im_px].
      apply (uniform_two k1 k2 _ _ a); try assumption; apply half_one.
    + destruct radius as [r|].
      * eexists. split; [reflexivity|]. assert (W : same_as (array_of a) a) by (split; [reflexivity|intros i j _ _; reflexivity]). destruct gauss.
        -- cbn [map]. now apply gauss_two.
        -- specialize (G eq_refl r eq_refl). assert (1 <= Rtrunc r)%Z as K.
           { unfold Rtrunc. replace (Rltb r 0) with false by (symmetry; apply Rltb_false; lra). pose proof (Rfloor_spec r). enough (0 < Rfloor r)%Z by lia. apply lt_IZR. lra. }
           split; [reflexivity|]. cbn [uniform0 uniform1 im_nx im_ny]. intros i j I J. unfold each_axis. cbn [map length seq combine fold_left fst snd].
           apply (uniform_two (Rtrunc r) (Rtrunc r) 0 0 a); (assumption || reflexivity || lia).
      * eexists. split; [reflexivity|]. split; [reflexivity|]. intros i j _ _. reflexivity.
Qed.

(** twice as many rows and a quarter of the columns *)
Lemma mixed_nd f gauss radius : resample_nd (ND [2; 8]%Z f) (Some [4; 2]%Z) gauss radius = Raise ZeroDivisionError.
Proof.
  unfold resample_nd. rewrite ratios_eq by reflexivity. cbn [nd_shape combine map fst snd fold_right]. cbv zeta. unfold Rgtb.
  replace (Rltb 1 _) with false by (symmetry; apply Rltb_false; lra). replace (Rltb _ 1) with true by (symmetry; apply Rltb_true; lra).
  assert (Rtrunc (1 / (4 / 2)) = 0%Z) as ->; [|reflexivity]. unfold Rtrunc. replace (Rltb _ 0) with false by (symmetry; apply Rltb_false; lra). apply Rfloor_unique. lra.
Qed.
