(** The derivative of what light takes from the pupil is positive up to the age of 38.2. *)
From Coq Require Import Lra Lia Psatz ZArith List.
From Verif Require Import Base L_Base M_Gss S_Gss L_Gss L_Gss2 L_Gss7 L_Expz L_Pupil L_Pupil2.
Local Open Scope R_scope.

Lemma ye_up y b : 0 <= y <= b -> b <= 1 -> y * exp (- y) <= b * exp (- b).
Proof.
  intros H B. pose proof (exp_ge1 (- (b - y))) as G. replace (- b) with (- y + - (b - y)) by ring. rewrite exp_plus.
  pose proof (exp_pos (- y)). pose proof (exp_pos (- (b - y))). assert (y <= b * exp (- (b - y))) by nra. nra.
Qed.
Lemma ye_down y a : 1 <= a <= y -> y * exp (- y) <= a * exp (- a).
Proof.
  intros H. pose proof (exp_ge1 (y - a)) as G. replace (- a) with (- y + (y - a)) by ring. rewrite exp_plus.
  pose proof (exp_pos (- y)). assert (y <= a * exp (y - a)) by nra. nra.
Qed.
Lemma ye_top y : 0 <= y -> y * exp (- y) <= 0.367880.
Proof.
  intros H. assert (exp (Ropp 1) <= 0.367880) as E.
  { replace (Ropp 1) with (IZR (-1000000) / 1000000) by lra. replace 0.367880 with (IZR 367880 / 1000000) by lra. apply exp_dec_below. vm_compute. reflexivity. }
  destruct (Rle_dec y 1) as [L|L].
  - pose proof (ye_up y 1 ltac:(lra) ltac:(lra)). lra.
  - pose proof (ye_down y 1 ltac:(lra)). lra.
Qed.
Lemma rz_mul_up a b : rz a * rz b <= rz (a * b / zsc + 1).
Proof.
  pose proof zsc_pos as P. pose proof (div_up (a * b) zsc ltac:(reflexivity)) as D. rewrite mult_IZR in D. unfold rz.
  apply (Rmult_le_reg_r (IZR zsc * IZR zsc)); [nra|]. replace (IZR a / IZR zsc * (IZR b / IZR zsc) * (IZR zsc * IZR zsc)) with (IZR a * IZR b) by (field; lra).
  replace (IZR (a * b / zsc + 1) / IZR zsc * (IZR zsc * IZR zsc)) with (IZR (a * b / zsc + 1) * IZR zsc) by (field; lra). exact D.
Qed.
Lemma rz_one : rz zsc = 1.
Proof. unfold rz. field. pose proof zsc_pos. lra. Qed.
Lemma rz_zero : rz 0 = 0.
Proof. unfold rz, Rdiv. ring. Qed.
Lemma zbound_ok yl yh y : 0 <= rz yl -> rz yl <= y <= rz yh -> (0 < elz (- - yh))%Z -> (0 < elz (- - yl))%Z -> y * exp (- y) <= rz (zbound yl yh).
Proof.
  intros H0 H A B. unfold zbound. destruct (Z.leb_spec yh zsc) as [C|C].
  - apply rz_le in C. rewrite rz_one in C. eapply Rle_trans; [apply (ye_up y (rz yh)); lra|]. rewrite <- rz_opp.
    eapply Rle_trans; [|apply rz_mul_up]. apply Rmult_le_compat_l; [lra|]. now apply euz_high.
  - destruct (Z.leb_spec zsc yl) as [D|D].
    + apply rz_le in D. rewrite rz_one in D. eapply Rle_trans; [apply (ye_down y (rz yl)); lra|]. rewrite <- rz_opp.
      eapply Rle_trans; [|apply rz_mul_up]. apply Rmult_le_compat_l; [lra|]. now apply euz_high.
    + rewrite (rz_dec 367880000000000 367880 eq_refl). pose proof (ye_top y ltac:(lra)). lra.
Qed.
Lemma mono_f A B x xl z zb : 0 < A -> 0 < B -> 0 < xl <= x -> x <= 1 -> z <= zb -> A * zb * ((xl + 1) * (xl + 1)) < B * xl -> A * z * ((x + 1) * (x + 1)) < B * x.
Proof.
  intros HA HB H X Z C. apply Rle_lt_trans with (A * zb * ((x + 1) * (x + 1))).
  { apply Rmult_le_compat_r; [nra|]. apply Rmult_le_compat_l; lra. }
  destruct (Rle_dec zb 0) as [N|N].
  { assert (0 <= (x + 1) * (x + 1)) by nra. assert (A * zb <= 0) by nra. assert (A * zb * ((x + 1) * (x + 1)) <= 0) by nra. nra. }
  assert (xl * ((x + 1) * (x + 1)) <= x * ((xl + 1) * (xl + 1))) as F.
  { assert (0 <= (x - xl) * (1 - x * xl)) by (apply Rmult_le_pos; nra). nra. }
  apply (Rmult_lt_reg_r xl); [lra|]. assert (0 < A * zb) as P by nra.
  apply Rle_lt_trans with (A * zb * (x * ((xl + 1) * (xl + 1)))); [|nra].
  replace (A * zb * ((x + 1) * (x + 1)) * xl) with (A * zb * (xl * ((x + 1) * (x + 1)))) by ring. apply Rmult_le_compat_l; lra.
Qed.
Lemma rz_hz k : rz (k * hz) = IZR k / 1000.
Proof. rewrite (rz_dec (k * hz) (k * 1000)) by (unfold hz; ring). rewrite mult_IZR. field. Qed.
Lemma rz_pk k : rz (- (347437 * k * 1000000)) = - (0.347437 * (IZR k / 1000)).
Proof.
  rewrite rz_opp. f_equal. unfold rz. rewrite !mult_IZR. replace (IZR zsc) with (1000000 * 1000000000) by (rewrite <- mult_IZR; reflexivity). lra.
Qed.
Lemma rz_frac_low a : rz (a * 1600 / 174) <= 1600 / 174 * rz a.
Proof.
  pose proof zsc_pos as P. pose proof (div_low (a * 1600) 174 ltac:(reflexivity)) as D. rewrite mult_IZR in D. unfold rz.
  apply (Rmult_le_reg_r (IZR zsc)); [lra|]. replace (IZR (a * 1600 / 174) / IZR zsc * IZR zsc) with (IZR (a * 1600 / 174)) by (field; lra).
  replace (1600 / 174 * (IZR a / IZR zsc) * IZR zsc) with (1600 / 174 * IZR a) by (field; lra). lra.
Qed.
Lemma rz_frac_up a : 1600 / 174 * rz a <= rz (a * 1600 / 174 + 1).
Proof.
  pose proof zsc_pos as P. pose proof (div_up (a * 1600) 174 ltac:(reflexivity)) as D. rewrite mult_IZR in D. unfold rz.
  apply (Rmult_le_reg_r (IZR zsc)); [lra|]. replace (IZR (a * 1600 / 174 + 1) / IZR zsc * IZR zsc) with (IZR (a * 1600 / 174 + 1)) by (field; lra).
  replace (1600 / 174 * (IZR a / IZR zsc) * IZR zsc) with (1600 / 174 * IZR a) by (field; lra). lra.
Qed.
(** the inequality at [t], the logarithm of 1600 over the illuminance *)
Definition steep (t : R) : Prop :=
  let x := exp (- (pk * t)) in let y := 1600 / 174 * exp (- t) in 1.2126 * (y * exp (- y)) * ((x + 1) * (x + 1)) < 2.084604 * x.
Lemma cell_num xl zb : (1212600 * zb * ((xl + zsc) * (xl + zsc)) < 2084604 * xl * (zsc * zsc))%Z -> 1.2126 * rz zb * ((rz xl + 1) * (rz xl + 1)) < 2.084604 * rz xl.
Proof.
  intros H. apply IZR_lt in H. rewrite !mult_IZR, !plus_IZR in H. pose proof zsc_pos as P. unfold rz. set (sc := IZR zsc) in *. clearbody sc.
  assert (1212600 * (IZR zb / sc) * ((IZR xl / sc + 1) * (IZR xl / sc + 1)) < 2084604 * (IZR xl / sc)); [|lra].
  apply (Rmult_lt_reg_r (sc * sc * sc)); [assert (0 < sc * sc) by nra; nra|].
  replace (1212600 * (IZR zb / sc) * ((IZR xl / sc + 1) * (IZR xl / sc + 1)) * (sc * sc * sc)) with (1212600 * IZR zb * ((IZR xl + sc) * (IZR xl + sc))) by (field; lra).
  replace (2084604 * (IZR xl / sc) * (sc * sc * sc)) with (2084604 * IZR xl * (sc * sc)) by (field; lra). exact H.
Qed.
Strategy 1000 [elz euz zbound zsc hz sqn].
Lemma cell_ok w k t : (0 <= k)%Z -> cell w k = true -> IZR k / 1000 <= t <= IZR (k + w) / 1000 -> steep t.
Proof.
  intros K C T. unfold cell in C. cbv zeta in C. rewrite !Bool.andb_true_iff in C. destruct C as (((((C1 & C2) & C3) & C4) & C5) & C6).
  apply Z.ltb_lt in C1, C3, C4, C5, C6. apply Z.leb_le in C2. apply cell_num in C6. pose proof pk_near as PK. apply IZR_le in K.
  unfold steep. cbv zeta. eapply mono_f; [lra|lra| | | |exact C6].
  - split; [rewrite <- rz_zero; now apply rz_lt|]. eapply Rle_trans; [apply elz_low|]. rewrite rz_pk. apply exp_le. nra.
  - rewrite <- exp_0. apply exp_le. nra.
  - apply zbound_ok; [rewrite <- rz_zero; now apply rz_le| |exact C3|exact C4]. split.
    + eapply Rle_trans; [apply rz_frac_low|]. apply Rmult_le_compat_l; [lra|]. eapply Rle_trans; [apply elz_low|]. rewrite rz_opp, rz_hz. apply exp_le. lra.
    + eapply Rle_trans; [|apply rz_frac_up]. apply Rmult_le_compat_l; [lra|]. eapply Rle_trans; [|apply euz_high; exact C1]. rewrite rz_opp, rz_hz. apply exp_le. lra.
Qed.
Lemma cells_steep n w : (0 <= w)%Z -> forall k t, (0 <= k)%Z -> cells n w k = true -> IZR k / 1000 <= t -> t < IZR (k + Z.of_nat n * w) / 1000 -> steep t.
Proof.
  intros W. induction n as [|n IH]; intros k t K C T1 T2.
  { replace (k + Z.of_nat 0 * w)%Z with k in T2 by lia. lra. }
  cbn [cells] in C. apply andb_prop in C as [C1 C2]. destruct (Rle_dec t (IZR (k + w) / 1000)) as [L|L].
  - eapply cell_ok; [exact K|exact C1|]. lra.
  - apply (IH (k + w)%Z); [lia|exact C2|lra|]. replace (k + w + Z.of_nat n * w)%Z with (k + Z.of_nat (S n) * w)%Z by lia. exact T2.
Qed.
Lemma and4 a b c d : (a && b && c && d)%bool = true -> a = true /\ b = true /\ c = true /\ d = true.
Proof. destruct a, b, c, d; try discriminate. auto. Qed.
Strategy 1000 [cells cell].
Lemma steep_mid t : 0 <= t < 3.5 -> steep t.
Proof.
  intros T. destruct (and4 _ _ _ _ cells_ok) as (C1 & C2 & C3 & C4).
  destruct (Rle_dec 2 t) as [A|A].
  2:{ apply (cells_steep 100 20 ltac:(lia) 0 t ltac:(lia) C1); simpl; lra. }
  destruct (Rle_dec 2.2 t) as [B|B].
  2:{ apply (cells_steep 40 5 ltac:(lia) 2000 t ltac:(lia) C2); simpl; lra. }
  destruct (Rle_dec 2.6 t) as [D|D].
  - apply (cells_steep 90 10 ltac:(lia) 2600 t ltac:(lia) C4); simpl; lra.
  - apply (cells_steep 200 2 ltac:(lia) 2200 t ltac:(lia) C3); simpl; lra.
Qed.
Lemma steep_low t : 3.5 <= t -> steep t.
Proof.
  intros T. unfold steep. cbv zeta. pose proof pk_near as PK. pose proof (exp_pos (- t)) as P1. pose proof (exp_pos (- (pk * t))) as P2.
  assert (exp (- (pk * t)) <= 0.30) as X.
  { apply Rle_trans with (exp (IZR (-1216000) / 1000000)); [apply exp_le; nra|].
    replace 0.30 with (IZR 300000 / 1000000) by lra. apply exp_dec_below. vm_compute. reflexivity. }
  assert (exp (- t) <= 0.102 * exp (- (pk * t))) as Y.
  { replace (- t) with (- ((1 - pk) * t) + - (pk * t)) by ring. rewrite exp_plus. apply Rmult_le_compat_r; [lra|].
    apply Rle_trans with (exp (IZR (-2283900) / 1000000)); [apply exp_le; nra|].
    replace 0.102 with (IZR 102000 / 1000000) by lra. apply exp_dec_below. vm_compute. reflexivity. }
  set (x := exp (- (pk * t))) in *. clearbody x. set (y := 1600 / 174 * exp (- t)) in *.
  assert (y * exp (- y) <= 0.93794 * x) as Z.
  { assert (0 < y) by (unfold y; lra). assert (exp (- y) <= 1) by (rewrite <- exp_0; apply exp_le; lra).
    apply Rle_trans with y; [nra|]. unfold y. lra. }
  apply Rle_lt_trans with (1.2126 * (0.93794 * x) * (1.3 * 1.3)); [|lra].
  apply Rmult_le_compat; [|nra|lra|nra]. assert (0 < y) by (unfold y; lra). pose proof (exp_pos (- y)). assert (0 < y * exp (- y)) by nra. lra.
Qed.
Lemma steep_pos e : 0 < e <= 1600 -> steep (- ln (e / 1600)).
Proof.
  intros H. assert (ln (e / 1600) <= 0).
  { destruct (Req_dec e 1600) as [->|N]; [replace (1600 / 1600) with 1 by field; rewrite ln_1; lra|]. rewrite <- ln_1. left. apply ln_increasing; lra. }
  destruct (Rlt_dec (- ln (e / 1600)) 3.5); [apply steep_mid|apply steep_low]; lra.
Qed.

Lemma ye_bright y : 0 < y -> y * exp (- y) <= 27 / (y * y).
Proof.
  intros H. pose proof (exp_ge1 (y / 3)) as A. pose proof (exp_pos y) as P. assert (y * y * y <= 27 * exp y) as B.
  { replace y with (y / 3 + (y / 3 + y / 3)) at 4 by field. rewrite !exp_plus. set (u := exp (y / 3)) in *. clearbody u.
    assert (y / 3 * (y / 3) <= u * u) by (apply Rmult_le_compat; lra). assert (y / 3 * (y / 3 * (y / 3)) <= u * (u * u)) by (apply Rmult_le_compat; nra). nra. }
  rewrite exp_Ropp. apply (Rmult_le_reg_r (y * y * exp y)); [assert (0 < y * y) by nra; nra|].
  replace (y * / exp y * (y * y * exp y)) with (y * y * y) by (field; lra). replace (27 / (y * y) * (y * y * exp y)) with (27 * exp y) by (field; lra). exact B.
Qed.
Lemma pg'_pos2 a e : a <= 1.2126 -> 0 < e -> 0 < pg' a e.
Proof.
  intros Ha H. pose proof pk_near as K. pose proof (exp_pos (pk * ln (e / 1600))) as P. fold (px e) in P.
  unfold pg'. pose proof (exp_pos (- e / 174)) as X.
  assert (1.2126 * (e / 174 * exp (- e / 174)) * ((px e + 1) * (px e + 1)) < 2.084604 * px e) as G.
  { destruct (Rle_dec e 1600) as [L|L].
    - pose proof (steep_pos e ltac:(lra)) as S. unfold steep in S. cbv zeta in S. rewrite Ropp_involutive, exp_ln in S by lra.
      replace (- (pk * - ln (e / 1600))) with (pk * ln (e / 1600)) in S by ring. fold (px e) in S.
      replace (1600 / 174 * (e / 1600)) with (e / 174) in S by field. replace (- (e / 174)) with (- e / 174) in S by field. exact S.
    - destruct (px_root e H) as (q & Q & E & L1 & L2). assert (1 <= q) as Q1.
      { destruct (Rle_dec 1 q); [assumption|]. exfalso. assert (q ^ 5 <= 1); [|lra].
        replace 1 with (1 ^ 5) by ring. apply pow_incr. lra. }
      specialize (L2 Q1). pose proof (ye_bright (e / 174) ltac:(lra)) as Y. replace (- (e / 174)) with (- e / 174) in Y by field.
      assert (0 < e / 174 * exp (- e / 174)) as Z0 by (apply Rmult_lt_0_compat; lra).
      set (x := px e) in *. clearbody x. set (z := e / 174 * exp (- e / 174)) in *. clearbody z.
      assert (q ^ 5 >= 1) as Q5 by (apply Rle_ge; now apply pow_R1_Rle).
      assert (x * x <= q ^ 5) as G2.
      { apply Rle_trans with (q * q * (q * q)); [nra|]. replace (q ^ 5) with (q * (q * q * (q * q))) by ring. assert (0 < q * q) by nra. assert (0 < q * q * (q * q)) by nra. nra. }
      assert (84 * (x * x) <= e / 174 * (e / 174)) as G3.
      { assert (9.19 * q ^ 5 <= e / 174) by (rewrite E; lra). set (c := q ^ 5) in *. clearbody c. set (d := e / 174) in *. clearbody d. nra. }
      assert (z * (84 * (x * x)) <= 27) as G4.
      { apply Rle_trans with (27 / (e / 174 * (e / 174)) * (e / 174 * (e / 174))); [apply Rmult_le_compat; nra|]. right. field. lra. }
      assert (1.2126 * z * ((x + 1) * (x + 1)) <= 1.2126 * z * (4 * (x * x))) by (apply Rmult_le_compat_l; nra). nra. }
  set (x := px e) in *. clearbody x. set (z := exp (- e / 174)) in *. clearbody z.
  assert (1.2126 * (e / 174 * z) < 6 * pk * x / ((x + 1) * (x + 1))) as F.
  { assert (0 < (x + 1) * (x + 1)) as D by nra. apply (Rmult_lt_reg_r ((x + 1) * (x + 1))); [exact D|].
    replace (6 * pk * x / ((x + 1) * (x + 1)) * ((x + 1) * (x + 1))) with (6 * pk * x) by (field; lra). nra. }
  assert (a * (e / 174 * z) <= 1.2126 * (e / 174 * z)) as F2 by (apply Rmult_le_compat_r; [apply Rmult_le_pos; lra|lra]).
  set (N := 6 * pk * x / ((x + 1) * (x + 1))) in *. clearbody N.
  replace (N / e - a / 174 * z) with ((N - a * (e / 174 * z)) / e) by (field; lra). apply Rdiv_lt_0_compat; lra.
Qed.
