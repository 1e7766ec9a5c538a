(** Proofs about digitised uv coordinates: uv2ij, uv2bin, bin2uv, sky bins *)
From Coq Require Import Lra Lia.
From Verif Require Import Base L_Base M_Translate S_Translate L_Concentric.
Local Open Scope R_scope.

Lemma uv2ij_range uv side aspect : (0 < side)%Z ->
  let '(i, j) := uv2ij uv side aspect in
  (0 <= i < (if Z.eqb aspect 2 then 2 * side else side))%Z /\ (0 <= j < side)%Z.
Proof.
  intros Hs. unfold uv2ij.
  pose proof (Z.mod_pos_bound (Rfloor (IZR side * fst uv)) side Hs).
  pose proof (Z.mod_pos_bound (Rfloor (IZR side * snd uv)) side Hs).
  destruct (Z.eqb aspect 2); [destruct (Rgeb (fst uv) 1)|]; lia.
Qed.

Lemma uv2bin_range uv side : (0 < side)%Z -> (0 <= uv2bin uv side < 2 * side * side)%Z.
Proof.
  intros Hs. unfold uv2bin. pose proof (uv2ij_range uv side 2 Hs) as H.
  destruct (uv2ij uv side 2) as [i j]. change (2 =? 2)%Z with true in H; cbv iota in H. destruct H as [Hi Hj].
  assert (i * side <= (2 * side - 1) * side)%Z by (apply Z.mul_le_mono_nonneg_r; lia). nia.
Qed.

Lemma bin2uv_eq b side off : (0 < side)%Z ->
  bin2uv b side off = ((IZR (b / side) + off) / IZR side, (IZR (b mod side) + off) / IZR side).
Proof.
  intros Hs. unfold bin2uv. assert (IZR side > 0) by (apply IZR_lt in Hs; lra).
  replace (b - b mod side)%Z with (b / side * side)%Z.
  2:{ pose proof (Z.div_mod b side ltac:(lia)); lia. }
  rewrite mult_IZR. apply pair_eq; [f_equal; f_equal; field; lra|reflexivity].
Qed.

(** cell characterisation: for 0 <= u < 2, 0 <= v < 1 *)
Lemma uv2ij_cell u v side i j : (0 < side)%Z -> 0 <= u < 2 -> 0 <= v < 1 ->
  uv2ij (u, v) side 2 = (i, j) <->
  (IZR i <= IZR side * u < IZR i + 1 /\ IZR j <= IZR side * v < IZR j + 1).
Proof.
  intros Hs Hu Hv. assert (HS : IZR side > 0) by (apply IZR_lt in Hs; lra).
  unfold uv2ij; cbn [fst snd]; change (2 =? 2)%Z with true; cbv iota.
  assert (Hj : (0 <= Rfloor (IZR side * v) < side)%Z).
  { split; [apply Rfloor_ge; simpl; nra|apply Rfloor_lt; nra]. }
  rewrite (Z.mod_small _ _ Hj).
  assert (Hi : ((Rfloor (IZR side * u) mod side) + (if Rgeb u 1 then side else 0))%Z = Rfloor (IZR side * u)).
  { unfold Rgeb. rcase.
    - assert (side <= Rfloor (IZR side * u) < 2 * side)%Z.
      { split; [apply Rfloor_ge; nra|apply Rfloor_lt; rewrite mult_IZR; nra]. }
      replace (Rfloor (IZR side * u)) with ((Rfloor (IZR side * u) - side) + 1 * side)%Z at 1 by ring.
      rewrite Z_mod_plus_full, Z.mod_small by lia. ring.
    - assert (0 <= Rfloor (IZR side * u) < side)%Z.
      { split; [apply Rfloor_ge; simpl; nra|apply Rfloor_lt; nra]. }
      rewrite Z.mod_small by lia. ring. }
  rewrite Hi. rewrite <- (Rfloor_iff (IZR side * u) i), <- (Rfloor_iff (IZR side * v) j). split.
  - intros E; inversion E; auto.
  - intros [-> ->]; reflexivity.
Qed.

Lemma uv2bin_cell u v side b : (0 < side)%Z -> 0 <= u < 2 -> 0 <= v < 1 ->
  uv2bin (u, v) side = b <->
  (let '(u0, v0) := bin2uv b side 0 in
   u0 <= u < u0 + 1 / IZR side /\ v0 <= v < v0 + 1 / IZR side).
Proof.
  intros Hs Hu Hv. assert (HS : IZR side > 0) by (apply IZR_lt in Hs; lra).
  assert (HI : IZR side * / IZR side = 1) by (field; lra).
  assert (HIp : / IZR side > 0) by (apply Rinv_0_lt_compat; lra).
  rewrite bin2uv_eq by auto. rewrite !Rplus_0_r.
  assert (Q : forall k x, (k / IZR side <= x < k / IZR side + 1 / IZR side) <-> (k <= IZR side * x < k + 1)).
  { intros k x. unfold Rdiv. rewrite <- Rmult_plus_distr_r. split; intros [H1 H2]; split.
    - apply Rmult_le_reg_r with (/ IZR side); auto. replace (IZR side * x * / IZR side) with x by (field; lra). lra.
    - apply Rmult_lt_reg_r with (/ IZR side); auto. replace (IZR side * x * / IZR side) with x by (field; lra). lra.
    - apply Rmult_le_reg_l with (IZR side); auto. replace (IZR side * (k * / IZR side)) with k by (field; lra). lra.
    - apply Rmult_lt_reg_l with (IZR side); auto. replace (IZR side * ((k + 1) * / IZR side)) with (k + 1) by (field; lra). lra. }
  rewrite !Q.
  unfold uv2bin. pose proof (uv2ij_range (u, v) side 2 Hs) as HR.
  destruct (uv2ij (u, v) side 2) as [i j] eqn:E. change (2 =? 2)%Z with true in HR; cbv iota in HR. destruct HR as [Hi Hj].
  pose proof E as E'. apply uv2ij_cell in E; auto. destruct E as [E1 E2].
  split.
  - intros <-. rewrite Z.div_add_l, Z.div_small, Z.add_0_r by lia.
    replace (i * side + j)%Z with (j + i * side)%Z by ring. rewrite Z_mod_plus_full, Z.mod_small by lia. auto.
  - intros H. apply (uv2ij_cell u v side) in H; auto. rewrite H in E'. inversion E'; subst.
    pose proof (Z.div_mod b side ltac:(lia)); lia.
Qed.

Lemma bin_roundtrip b side off : (0 < side)%Z -> (0 <= b < 2 * side * side)%Z -> 0 <= off < 1 ->
  uv2bin (bin2uv b side off) side = b.
Proof.
  intros Hs Hb Ho. assert (HS : IZR side > 0) by (apply IZR_lt in Hs; lra).
  assert (HIp : / IZR side > 0) by (apply Rinv_0_lt_compat; lra).
  rewrite bin2uv_eq by auto.
  assert (Hk : (0 <= b / side < 2 * side)%Z).
  { split; [apply Z.div_pos; lia|apply Z.div_lt_upper_bound; lia]. }
  pose proof (Z.mod_pos_bound b side Hs) as Hm.
  assert (K : forall k n : Z, (0 <= k < n)%Z -> 0 <= (IZR k + off) / IZR side < IZR n / IZR side).
  { intros k n [K1 K2]. apply IZR_le in K1. assert (K3 : (k + 1 <= n)%Z) by lia. apply IZR_le in K3; rewrite plus_IZR in K3.
    unfold Rdiv. split; [apply Rmult_le_pos; lra|apply Rmult_lt_compat_r; lra]. }
  apply uv2bin_cell; auto.
  - specialize (K _ _ Hk). rewrite mult_IZR in K. replace (2 * IZR side / IZR side) with 2 in K by (field; lra). exact K.
  - specialize (K _ _ Hm). replace (IZR side / IZR side) with 1 in K by (field; lra). exact K.
  - rewrite bin2uv_eq by auto. rewrite !Rplus_0_r. unfold Rdiv.
    assert (0 <= off * / IZR side < / IZR side) by (split; [apply Rmult_le_pos; lra|nra]).
    rewrite !Rmult_plus_distr_r. lra.
Qed.

Lemma uv2bin_wrap u side : (0 < side)%Z -> uv2bin (u, 1) side = uv2bin (u, 0) side.
Proof.
  intros Hs. unfold uv2bin, uv2ij; cbn [fst snd].
  rewrite Rmult_1_r, Rmult_0_r, Rfloor_IZR. change 0 with (IZR 0). rewrite Rfloor_IZR.
  rewrite Z_mod_same_full, Z.mod_0_l by lia. reflexivity.
Qed.

Lemma bin2uv_half b side : (0 < side)%Z -> (0 <= b < 2 * side * side)%Z ->
  let '(u, v) := bin2uv b side (1 / 2) in
  0 < v < 1 /\ ((b < side * side)%Z -> 0 < u < 1) /\ ((side * side <= b)%Z -> 1 < u < 2).
Proof.
  intros Hs Hb. assert (HS : IZR side > 0) by (apply IZR_lt in Hs; lra).
  assert (HIp : / IZR side > 0) by (apply Rinv_0_lt_compat; lra).
  rewrite bin2uv_eq by auto.
  pose proof (Z.mod_pos_bound b side Hs) as Hm.
  assert (K : forall l k n : Z, (l <= k < n)%Z -> IZR l / IZR side < (IZR k + 1/2) / IZR side < IZR n / IZR side).
  { intros l k n [K1 K2]. apply IZR_le in K1. assert (K3 : (k + 1 <= n)%Z) by lia. apply IZR_le in K3; rewrite plus_IZR in K3.
    unfold Rdiv. split; apply Rmult_lt_compat_r; lra. }
  assert (E0 : 0 / IZR side = 0) by (field; lra).
  assert (E1 : IZR side / IZR side = 1) by (field; lra).
  split; [|split].
  - specialize (K _ _ _ Hm). simpl in K. lra.
  - intros H. assert (Hk : (0 <= b / side < side)%Z).
    { split; [apply Z.div_pos; lia|apply Z.div_lt_upper_bound; lia]. }
    specialize (K _ _ _ Hk). simpl in K. lra.
  - intros H. assert (Hk : (side <= b / side < 2 * side)%Z).
    { split; [apply Z.div_le_lower_bound; lia|apply Z.div_lt_upper_bound; lia]. }
    specialize (K _ _ _ Hk). rewrite mult_IZR in K. replace (2 * IZR side / IZR side) with 2 in K by (field; lra). lra.
Qed.

Lemma uv2xyz_lower_strict u v : 1 < u < 2 -> 0 < v < 1 -> vz (uv2xyz xyz_axes 1 (u, v)) < 0.
Proof.
  intros Hu Hv. rewrite uv2xyz_eq; cbv zeta; simpl vz.
  assert (-1 < rr (2 * red_u u - 1) (2 * v - 1) < 1).
  { apply rr_lt1; unfold red_u, Rgtb; [rcase; lra|lra]. }
  unfold sgn_u, Rgtb; rcase; nra.
Qed.

Lemma skybin_roundtrip b side : (0 < side)%Z -> (0 <= b < side * side)%Z ->
  xyz2skybin (skybin2xyz b side) side false = b.
Proof.
  intros Hs Hb. assert (Hb2 : (0 <= b < 2 * side * side)%Z) by nia.
  unfold xyz2skybin, skybin2xyz.
  pose proof (bin2uv_half b side Hs Hb2) as H. pose proof (bin_roundtrip b side (1/2) Hs Hb2 ltac:(lra)) as RT.
  destruct (bin2uv b side (1 / 2)) as [u v]. destruct H as [Hv [Hu _]]. specialize (Hu ltac:(lia)).
  pose proof (uv2xyz_hemisphere xyz_axes 1 (u, v)) as [Hz _];
    [unfold axes_ok, xyz_axes; lia|split; simpl; lra|].
  assert (Hz' : 0 <= vz (uv2xyz xyz_axes 1 (u, v))) by (apply Hz; simpl; lra).
  rcase; [lra|]. rewrite uv_roundtrip_upper by lra. exact RT.
Qed.

Lemma skybin_lower b side : (0 < side)%Z -> (side * side <= b < 2 * side * side)%Z ->
  skybin2xyz b side = V3 0 0 (-1) /\ (side * side <= xyz2skybin (skybin2xyz b side) side false)%Z.
Proof.
  intros Hs Hb. assert (E : skybin2xyz b side = V3 0 0 (-1)).
  { unfold skybin2xyz. pose proof (bin2uv_half b side Hs ltac:(nia)) as H.
    destruct (bin2uv b side (1 / 2)) as [u v]. destruct H as [Hv [_ Hu]]. specialize (Hu ltac:(lia)).
    pose proof (uv2xyz_lower_strict u v Hu Hv). rcase; [reflexivity|lra]. }
  split; auto. rewrite E. unfold xyz2skybin, uv2bin.
  pose proof (xyz2uv_range0 false (V3 0 0 (-1))) as HR; cbv zeta in HR.
  destruct HR as [_ [HR _]]; [apply vnorm_1; unfold dot; simpl; ring|].
  simpl vz in HR. specialize (HR ltac:(lra)).
  destruct (xyz2uv false xyz_axes false (V3 0 0 (-1))) as [u v]. simpl in HR.
  unfold uv2ij; cbn [fst snd]; change (2 =? 2)%Z with true; cbv iota.
  pose proof (Z.mod_pos_bound (Rfloor (IZR side * u)) side Hs).
  pose proof (Z.mod_pos_bound (Rfloor (IZR side * v)) side Hs).
  unfold Rgeb; rcase; [|lra].
  set (m := (Rfloor (IZR side * u) mod side)%Z) in *. assert (0 <= m * side)%Z by (apply Z.mul_nonneg_nonneg; lia).
  rewrite Z.mul_add_distr_r; lia.
Qed.

Lemma bin2uv_injective b c side off :
  (0 < side)%Z -> (0 <= b < 2 * side * side)%Z -> (0 <= c < 2 * side * side)%Z -> 0 <= off < 1 ->
  bin2uv b side off = bin2uv c side off -> b = c.
Proof.
  intros Hs Hb Hc Ho E. rewrite <- (bin_roundtrip b side off), <- (bin_roundtrip c side off) by auto.
  rewrite E; reflexivity.
Qed.
