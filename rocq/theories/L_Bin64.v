(** Lemmas for Prop_Float.v: bins *)
From Coq Require Import ZArith Reals Floats.SpecFloat Lra Lia.
From Flocq Require Import Core BinarySingleNaN Relative.
From Verif Require Import M_Float S_Float M_Bin64 L_Float64.
Local Open Scope R_scope.

Local Instance Hprec' : FLX.Prec_gt_0 53 := eq_refl _.
Definition eps : R := / 9007199254740992.
Lemma eps_bpow : bpow radix2 (-53) = eps.
Proof. reflexivity. Qed.
Lemma tiny_le e : (-1022 <= e)%Z -> bpow radix2 (-1022) <= bpow radix2 e.
Proof. apply bpow_le. Qed.
Lemma rnd_near x : / 2 ^ 60 <= Rabs x -> Rabs (rnd x - x) <= eps * Rabs x.
Proof.
  intros H. rewrite <- eps_bpow. apply rnd_err. eapply Rle_trans; [apply (tiny_le (-60)); lia|]. change (bpow radix2 (-60)) with (/ IZR (2 ^ 60)). 
  rewrite pow_IZR in H. exact H.
Qed.
Lemma small_of x : Rabs x <= 2 ^ 60 -> small x.
Proof.
  intros H. unfold small. eapply Rle_trans; [exact H|]. rewrite pow_IZR. change (2 ^ Z.of_nat 60)%Z with (Zpower radix2 60). rewrite IZR_Zpower by lia. apply bpow_le. lia.
Qed.
(** the number comes back from its rounded division and multiplication *)
Lemma coord_back (k side : Z) o : (1 <= side <= 2 ^ 25)%Z -> (0 <= k < 2 * side)%Z -> / 2 ^ 24 <= o <= 1 - / 2 ^ 24 ->
  let a := rnd (IZR k + o) in let u := rnd (a / IZR side) in let w := rnd (IZR side * u) in
  Rabs a <= 2 ^ 60 /\ Rabs (a / IZR side) <= 2 ^ 60 /\ Rabs (IZR side * u) <= 2 ^ 60 /\ Zfloor w = k /\ (1 <= u <-> (side <= k)%Z).
Proof.
  intros S K O a u w.
  assert (1 <= IZR side <= 33554432) as SR by (split; [apply IZR_le; lia|change 33554432 with (IZR (2 ^ 25)); apply IZR_le; lia]).
  assert (0 <= IZR k <= 2 * IZR side - 1) as KR by (split; [apply IZR_le; lia|rewrite <- mult_IZR, <- minus_IZR; apply IZR_le; lia]).
  assert (2 ^ 24 = 16777216) as P24 by (cbn; lra). rewrite P24 in O.
  set (s := IZR k + o) in *. assert (/ 16777216 <= s <= 67108864) as Sb by (unfold s; lra).
  assert (/ 2 ^ 60 <= / 1152921504606846976) as P60 by (apply Req_le; f_equal; cbn; lra).
  assert (2 ^ 60 = 1152921504606846976) as Q60 by (cbn; lra).
  assert (Rabs (a - s) <= eps * s) as Ea. { unfold a. rewrite <- (Rabs_pos_eq s) at 3 by lra. apply rnd_near. rewrite Rabs_pos_eq by lra. lra. }
  apply Rabs_le_inv in Ea. unfold eps in *.
  assert (/ 33554432 <= a <= 67108865) as Ab by lra.
  assert (/ 33554432 / 33554432 <= a / IZR side <= 67108865) as Xb.
  { split; [|apply Rle_trans with (a / 1); [|lra]]; unfold Rdiv; (apply Rmult_le_compat; [lra|apply Rlt_le, Rinv_0_lt_compat; lra|lra|apply Rinv_le; lra]) || (apply Rmult_le_compat_l; [lra|apply Rinv_le; lra]). }
  assert (Rabs (u - a / IZR side) <= eps * (a / IZR side)) as Eu.
  { unfold u. rewrite <- (Rabs_pos_eq (a / IZR side)) at 3 by lra. apply rnd_near. rewrite Rabs_pos_eq by lra. lra. }
  apply Rabs_le_inv in Eu. unfold eps in *.
  assert (Rabs (IZR side * u - a) <= / 9007199254740992 * a) as Esu.
  { replace (IZR side * u - a) with (IZR side * (u - a / IZR side)) by (field; lra). rewrite Rabs_mult, (Rabs_pos_eq (IZR side)) by lra.
    replace (/ 9007199254740992 * a) with (IZR side * (/ 9007199254740992 * (a / IZR side))) by (field; lra). apply Rmult_le_compat_l; [lra|]. apply Rabs_le. lra. }
  apply Rabs_le_inv in Esu.
  assert (/ 67108864 <= IZR side * u <= 67108866) as SUb by lra.
  assert (Rabs (w - IZR side * u) <= eps * (IZR side * u)) as Ew.
  { unfold w. rewrite <- (Rabs_pos_eq (IZR side * u)) at 3 by lra. apply rnd_near. rewrite Rabs_pos_eq by lra. lra. }
  apply Rabs_le_inv in Ew. unfold eps in *.
  assert (Rabs (IZR side * u - s) <= / 33554433) as D1 by (apply Rabs_le; lra). apply Rabs_le_inv in D1.
  rewrite Q60. split; [rewrite Rabs_pos_eq by lra; lra|]. split; [rewrite Rabs_pos_eq by lra; lra|]. split; [rewrite Rabs_pos_eq by lra; lra|]. split.
  - apply Zfloor_imp. rewrite plus_IZR. unfold s in *. lra.
  - split; intros H.
    + destruct (Z_lt_le_dec k side) as [L|L]; [exfalso|exact L]. assert (IZR k <= IZR side - 1) by (rewrite <- minus_IZR; apply IZR_le; lia). unfold s in *. nra.
    + apply IZR_le in H. unfold s in *. nra.
Qed.
Lemma mod_upper i side : (0 < side)%Z -> (side <= i < 2 * side)%Z -> (i mod side + side = i)%Z.
Proof. intros S I. rewrite <- (Z.mod_unique i side 1 (i - side)); lia. Qed.
Lemma bin_back side b o : (1 <= side <= 2 ^ 25)%Z -> (0 <= b < 2 * side * side)%Z -> number o -> / 2 ^ 24 <= value o <= 1 - / 2 ^ 24 ->
  uv2bin_f64 (bin2uv_f64 b side o) side = b.
Proof.
  intros S B No O. pose proof (Z.div_mod b side ltac:(lia)) as DM. pose proof (Z.mod_pos_bound b side ltac:(lia)) as M.
  assert (0 <= b / side < 2 * side)%Z as D by (split; [apply Z.div_pos; lia|apply Z.div_lt_upper_bound; nia]).
  set (k := (b / side)%Z) in *. set (m := (b mod side)%Z) in *.
  assert (33554432 = 2 ^ 25)%Z as P25 by reflexivity.
  destruct (of_Z_val side) as [Ns Vs]; [lia|]. destruct (of_Z_val m) as [Nm Vm]; [lia|]. destruct (of_Z_val 1) as [N1 V1]; [lia|].
  destruct (of_Z_val (b - m)) as [Nb Vb]; [nia|].
  assert (1 <= IZR side) as Sp by (apply IZR_le; lia).
  assert (0 <= IZR k <= 2 ^ 60) as Kb. { split; [apply IZR_le; lia|]. rewrite pow_IZR. apply IZR_le. change (2 ^ Z.of_nat 60)%Z with (2 ^ 60)%Z. lia. }
  assert (IZR (b - m) / IZR side = IZR k) as Ek. { replace (b - m)%Z with (side * k)%Z by lia. rewrite mult_IZR. field. lra. }
  destruct (div_val (f_of_Z (b - m)) (f_of_Z side) Nb Ns) as [Nd Vd]; [rewrite Vs; lra|rewrite Vb, Vs, Ek; apply small_of; rewrite Rabs_pos_eq; lra|].
  rewrite Vb, Vs, Ek, rnd_id in Vd by (apply fits_Z; lia).
  assert (forall kk, (0 <= kk < 2 * side)%Z -> forall x, number x -> value x = IZR kk ->
    let u := f_div (f_add x o) (f_of_Z side) in number u /\ f_floor (f_mul (f_of_Z side) u) = kk /\ SFleb (f_of_Z 1) u = (side <=? kk)%Z) as G.
  { intros kk KK x Nx Vx u. destruct (coord_back kk side (value o) S KK O) as (A & A2 & A3 & A4 & A5).
    assert (0 <= IZR kk + value o) as P. { assert (0 <= IZR kk) by (apply IZR_le; lia). assert (0 < / 2 ^ 24) by (apply Rinv_0_lt_compat, pow_lt; lra). lra. }
    assert (small (IZR kk + value o)) as Sm.
    { apply small_of. rewrite Rabs_pos_eq by exact P. assert (IZR kk <= 67108864) by (change 67108864 with (IZR (2 ^ 26)); apply IZR_le; lia). assert (0 < / 2 ^ 24) by (apply Rinv_0_lt_compat, pow_lt; lra).
      assert (2 ^ 60 = 1152921504606846976) as Q60 by (cbn; lra). lra. }
    destruct (add_val x o Nx No) as [Na Va]; [now rewrite Vx|]. rewrite Vx in Va.
    destruct (div_val (f_add x o) (f_of_Z side) Na Ns) as [Nu Vu]; [rewrite Vs; lra|rewrite Va, Vs; now apply small_of|]. rewrite Va, Vs in Vu. fold u in Nu, Vu.
    destruct (mul_val (f_of_Z side) u Ns Nu) as [Nw Vw]; [rewrite Vs, Vu; now apply small_of|]. rewrite Vs, Vu in Vw.
    split; [exact Nu|]. split; [rewrite floor_val by exact Nw; now rewrite Vw|]. rewrite leb_val by assumption. rewrite V1, Vu.
    destruct (Z.leb_spec side kk) as [L|L]; [apply Rle_bool_true; now apply A5|apply Rle_bool_false]. apply Rnot_le_lt. intros H. apply A5 in H. lia. }
  destruct (G k D _ Nd Vd) as (_ & G1 & G2). destruct (G m ltac:(lia) _ Nm Vm) as (_ & G3 & _).
  unfold uv2bin_f64, uv2ij_f64, bin2uv_f64. cbn [fst snd]. fold m. rewrite G1, G2, G3. rewrite (Z.mod_small m) by lia.
  destruct (Z.leb_spec side k) as [L|L]; [rewrite mod_upper by lia|rewrite Z.mod_small by lia]; lia.
Qed.

(** * points to cells *)
Lemma below_one x : fits x -> x < 1 -> x <= 1 - eps.
Proof.
  intros F H. assert (1 - eps = pred radix2 fe 1) as ->; [|apply pred_ge_gt; try assumption; [apply FLT_exp_valid; reflexivity|apply (fits_Z 1); lia]].
  change 1 with (bpow radix2 0). rewrite pred_bpow by (apply FLT_exp_valid; reflexivity || apply FLT_exp_monotone). reflexivity.
Qed.
Lemma below_two x : fits x -> x < 2 -> x <= 2 * (1 - eps).
Proof.
  intros F H. assert (2 * (1 - eps) = pred radix2 fe 2) as ->; [|apply pred_ge_gt; try assumption; [apply FLT_exp_valid; reflexivity|apply (fits_Z 2); lia]].
  change 2 with (bpow radix2 1) at 2. rewrite pred_bpow by (apply FLT_exp_valid; reflexivity || apply FLT_exp_monotone). change (bpow radix2 (fe 1)) with (/ 4503599627370496). change (bpow radix2 1) with 2. unfold eps. lra.
Qed.
Lemma rnd_nearest x g : fits g -> Rabs (rnd x - x) <= Rabs (g - x).
Proof. intros F. destruct (round_N_pt radix2 fe (fun n => negb (Z.even n)) x) as [_ H]. now apply H. Qed.
Lemma no_wrap n t : (1 <= n <= 2 ^ 52)%Z -> 0 <= t <= 1 - eps -> rnd (IZR n * t) < IZR n.
Proof.
  intros N T. assert (1 <= IZR n) as N1 by (apply IZR_le; lia). unfold eps in T.
  apply Rle_lt_trans with (rnd (IZR n * (1 - eps))); [apply rnd_le, Rmult_le_compat_l; unfold eps; lra|].
  set (p := Z.log2 n). assert (0 <= p)%Z as P by apply Z.log2_nonneg. destruct (Z.log2_spec n ltac:(lia)) as [L1 L2]. fold p in L1, L2.
  assert (p <= 52)%Z as P52. { unfold p. change 52%Z with (Z.log2 (2 ^ 52)). apply Z.log2_le_mono. lia. }
  assert (IZR (2 ^ p) = bpow radix2 p) as Bp by (change (2 ^ p)%Z with (Zpower radix2 p); apply IZR_Zpower; exact P).
  assert (bpow radix2 (p - 52) = 2 * eps * bpow radix2 p) as B52.
  { replace (p - 52)%Z with (p + -52)%Z by lia. rewrite bpow_plus. change (bpow radix2 (-52)) with (/ 4503599627370496). unfold eps. lra. }
  assert (0 < bpow radix2 p) as Bp0 by apply bpow_gt_0.
  destruct (Z.eq_dec n (2 ^ p)) as [E|E].
  - rewrite rnd_id; [unfold eps; lra|]. rewrite E, Bp. replace (bpow radix2 p * (1 - eps)) with (IZR (2 ^ 53 - 1) * bpow radix2 (p + -53)).
    + apply fits_ints; lia.
    + rewrite bpow_plus, eps_bpow. rewrite minus_IZR. unfold eps. change (IZR (2 ^ 53)) with 9007199254740992. field.
  - assert (2 ^ p < n)%Z as E' by lia. apply IZR_lt in E'. rewrite Bp in E'.
    set (x := IZR n * (1 - eps)). set (g := IZR n - bpow radix2 (p - 52)).
    assert (fits g) as Fg.
    { unfold g. replace (IZR n - bpow radix2 (p - 52)) with (IZR (n * 2 ^ (52 - p) - 1) * bpow radix2 (p - 52)).
      - apply fits_ints; [|lia]. rewrite Z.abs_eq.
        + assert (2 ^ (p + 1) * 2 ^ (52 - p) = 2 ^ 53)%Z as Q by (rewrite <- Z.pow_add_r by lia; f_equal; lia).
          assert (0 < 2 ^ (52 - p))%Z by (apply Z.pow_pos_nonneg; lia). rewrite <- Z.add_1_r in L2. nia.
        + assert (0 < 2 ^ (52 - p))%Z by (apply Z.pow_pos_nonneg; lia). nia.
      - rewrite minus_IZR, mult_IZR. change (2 ^ (52 - p))%Z with (Zpower radix2 (52 - p)). rewrite IZR_Zpower by lia.
        replace ((IZR n * bpow radix2 (52 - p) - 1) * bpow radix2 (p - 52)) with (IZR n * (bpow radix2 (52 - p) * bpow radix2 (p - 52)) - bpow radix2 (p - 52)) by ring.
        rewrite <- bpow_plus. replace (52 - p + (p - 52))%Z with 0%Z by lia. cbn. ring. }
    pose proof (rnd_nearest x g Fg) as H.
    assert (Rabs (g - x) < IZR n - x) as H2.
    { apply Rabs_def1; unfold g, x; rewrite B52; unfold eps; lra. }
    assert (rnd x - x <= Rabs (rnd x - x)) by apply Rle_abs. lra.
Qed.
Lemma ij_floor u side : (1 <= side <= 2 ^ 25)%Z -> number u -> 0 <= value u < 2 ->
  let i := (if SFleb (f_of_Z 1) u then f_floor (f_mul (f_of_Z side) u) mod side + side else f_floor (f_mul (f_of_Z side) u) mod side)%Z in
  i = Zfloor (rnd (IZR side * value u)) /\ (0 <= i < 2 * side)%Z /\ (value u < 1 -> (i < side)%Z) /\ (1 <= value u -> (side <= i)%Z).
Proof.
  intros S N U. destruct (of_Z_val side) as [Ns Vs]; [lia|]. destruct (of_Z_val 1) as [N1 V1]; [lia|].
  assert (1 <= IZR side <= 33554432) as SR by (split; [apply IZR_le; lia|change 33554432 with (IZR (2 ^ 25)); apply IZR_le; lia]).
  destruct (mul_val (f_of_Z side) u Ns N) as [Nw Vw].
  { rewrite Vs. apply small_of. rewrite Rabs_pos_eq by nra. assert (2 ^ 60 = 1152921504606846976) as -> by (cbn; lra). nra. }
  rewrite Vs in Vw. rewrite floor_val, Vw, leb_val, V1 by assumption. pose proof (value_fits u N) as Fu.
  assert (0 <= rnd (IZR side * value u)) as Pw by (rewrite <- rnd_0; apply rnd_le; nra).
  assert (0 <= Zfloor (rnd (IZR side * value u)))%Z as Pf by (apply Zfloor_lub; exact Pw).
  cbv zeta. destruct (Rle_bool_spec 1 (value u)) as [H|H].
  - assert (IZR side <= rnd (IZR side * value u)) as Lw. { rewrite <- (rnd_id (IZR side)) at 1 by (apply fits_Z; lia). apply rnd_le. nra. }
    assert (rnd (IZR side * value u) < IZR (2 * side)) as Hw.
    { replace (IZR side * value u) with (IZR (2 * side) * (value u / 2)) by (rewrite mult_IZR; field). apply no_wrap; [lia|]. pose proof (below_two _ Fu (proj2 U)). lra. }
    assert (side <= Zfloor (rnd (IZR side * value u)) < 2 * side)%Z as B.
    { split; [apply Zfloor_lub; exact Lw|]. apply lt_IZR. eapply Rle_lt_trans; [apply Zfloor_lb|exact Hw]. }
    rewrite mod_upper by lia. split; [reflexivity|]. split; [lia|]. split; intros; [lra|lia].
  - assert (rnd (IZR side * value u) < IZR side) as Hw by (apply no_wrap; [lia|]; pose proof (below_one _ Fu H); lra).
    assert (Zfloor (rnd (IZR side * value u)) < side)%Z as B by (apply lt_IZR; eapply Rle_lt_trans; [apply Zfloor_lb|exact Hw]).
    rewrite Z.mod_small by lia. split; [reflexivity|]. split; [lia|]. split; intros; [lia|lra].
Qed.
Lemma rnd_close x : 0 <= x <= 67108864 -> Rabs (rnd x - x) <= / 2 ^ 26.
Proof.
  intros X. eapply Rle_trans; [apply rnd_err_any|]. rewrite eps_bpow, Rabs_pos_eq by lra.
  assert (bpow radix2 (-1075) <= eps) as B by (rewrite <- eps_bpow; apply bpow_le; lia).
  assert (2 ^ 26 = 67108864) as -> by (cbn; lra). unfold eps in *. lra.
Qed.
Lemma floor_close x y : Rabs (y - x) <= / 2 ^ 26 -> IZR (Zfloor y) - / 2 ^ 26 <= x < IZR (Zfloor y) + 1 + / 2 ^ 26.
Proof. intros H. apply Rabs_le_inv in H. pose proof (Zfloor_lb y). pose proof (Zfloor_ub y). lra. Qed.
Lemma cell_of u v side : (1 <= side <= 2 ^ 25)%Z -> number u -> number v -> 0 <= value u < 2 -> 0 <= value v < 1 ->
  let (i, j) := uv2ij_f64 (u, v) side in
  (0 <= i < 2 * side)%Z /\ (0 <= j < side)%Z /\ (1 <= value u <-> (side <= i)%Z) /\
  IZR i - / 2 ^ 26 <= IZR side * value u < IZR i + 1 + / 2 ^ 26 /\ IZR j - / 2 ^ 26 <= IZR side * value v < IZR j + 1 + / 2 ^ 26.
Proof.
  intros S Nu Nv U V. unfold uv2ij_f64. cbn [fst snd]. destruct (ij_floor u side S Nu U) as (Ei & Bi & Li & Hi). cbv zeta in Ei, Bi, Li, Hi.
  destruct (ij_floor v side S Nv ltac:(lra)) as (Ej & Bj & Lj & _). cbv zeta in Ej, Bj, Lj.
  assert (SFleb (f_of_Z 1) v = false) as Fv. { destruct (of_Z_val 1) as [N1 V1]; [lia|]. rewrite leb_val, V1 by assumption. apply Rle_bool_false. lra. }
  rewrite Fv in Ej, Bj, Lj. set (i := if SFleb (f_of_Z 1) u then _ else _) in *. set (j := (f_floor (f_mul (f_of_Z side) v) mod side)%Z) in *.
  assert (1 <= IZR side <= 33554432) as SR by (split; [apply IZR_le; lia|change 33554432 with (IZR (2 ^ 25)); apply IZR_le; lia]).
  split; [exact Bi|]. split; [split; [lia|now apply Lj]|]. split; [split; [exact Hi|intros H; apply Rnot_lt_le; intros L; apply Li in L; lia]|].
  split; [rewrite Ei|rewrite Ej]; apply floor_close, rnd_close; nra.
Qed.
Lemma cell_mono u u' v v' side : (1 <= side <= 2 ^ 25)%Z -> number u -> number u' -> number v -> number v' -> 0 <= value u -> value u <= value u' < 2 -> 0 <= value v -> value v <= value v' < 1 ->
  (fst (uv2ij_f64 (u, v) side) <= fst (uv2ij_f64 (u', v') side))%Z /\ (snd (uv2ij_f64 (u, v) side) <= snd (uv2ij_f64 (u', v') side))%Z.
Proof.
  intros S Nu Nu' Nv Nv' U U' V V'.
  assert (forall w, number w -> 0 <= value w < 1 -> SFleb (f_of_Z 1) w = false) as Fw.
  { intros w Nw W. destruct (of_Z_val 1) as [N1 V1]; [lia|]. rewrite leb_val, V1 by assumption. apply Rle_bool_false. lra. }
  unfold uv2ij_f64. cbn [fst snd]. destruct (ij_floor u side S Nu ltac:(lra)) as (E1 & _). destruct (ij_floor u' side S Nu' ltac:(lra)) as (E2 & _).
  destruct (ij_floor v side S Nv ltac:(lra)) as (E3 & _). destruct (ij_floor v' side S Nv' ltac:(lra)) as (E4 & _). cbv zeta in *.
  rewrite (Fw v Nv) in E3 by lra. rewrite (Fw v' Nv') in E4 by lra. rewrite E1, E2, E3, E4.
  assert (1 <= IZR side) by (apply IZR_le; lia).
  split; apply Zfloor_le, rnd_le; nra.
Qed.
Lemma bins_collide : uv2bin_f64 (bin2uv_f64 49 49 (f_of_Z 0)) 49 = 0%Z /\ uv2bin_f64 (bin2uv_f64 1 49 (f_of_Z 0)) 49 = 0%Z.
Proof. split; vm_compute; reflexivity. Qed.
