(** Up to the age of 38.2 the pupil closes with light; from 38.3 on it does not. *)
From Coq Require Import Lra Lia Psatz ZArith List.
From Verif Require Import Base L_Base M_Gss S_Gss L_Gss L_Gss2 L_Gss7 L_Expz L_Pupil L_Pupil2 L_Pupil3.
Local Open Scope R_scope.

Lemma pg_incr2 a e1 e2 : a <= 1.2126 -> 0 < e1 < e2 -> pg a e1 < pg a e2.
Proof.
  intros Ha H. destruct (MVT_cor2 (pg a) (pg' a) e1 e2) as (c & E & C); [lra|intros c Hc; apply pg_lim; lra|].
  pose proof (pg'_pos2 a c Ha ltac:(lra)). nra.
Qed.
Lemma pg_dark2 a e : a <= 1.2126 -> 0 < e -> -3 + a < pg a e.
Proof.
  intros Ha H. destruct (px_root e H) as (q & Q & E & L1 & L2). unfold pg.
  pose proof (exp_pos (pk * ln (e / 1600))) as P. fold (px e) in P.
  assert (1 - e / 174 <= exp (- e / 174)) as X1 by (pose proof (exp_ineq1 (- e / 174) ltac:(lra)); lra).
  pose proof (exp_pos (- e / 174)) as X2. assert (exp (- e / 174) < 1) as X3 by (rewrite <- exp_0; apply exp_increasing; lra).
  set (z := exp (- e / 174)) in *. clearbody z.
  assert (1.2126 * (1 - z) < 6 * px e / (px e + 1)) as G.
  { set (x := px e) in *. clearbody x. apply (Rmult_lt_reg_r (x + 1)); [lra|]. replace (6 * x / (x + 1) * (x + 1)) with (6 * x) by (field; lra).
    destruct (Rle_dec q 1) as [C|C]; [|specialize (L2 ltac:(lra)); nra]. specialize (L1 C).
    destruct (Rle_dec 0.26 x) as [D|D]; [nra|].
    assert (q <= 0.51) by nra. assert (1 - z <= 9.2 * q ^ 5) by (rewrite E in X1; pose proof (pow_lt q 5 Q); lra).
    assert (q ^ 5 <= 0.133 * (q * q)) as F.
    { replace (q ^ 5) with (q * q * q * (q * q)) by ring. apply Rmult_le_compat_r; [nra|]. assert (q * q <= 0.2601) by nra. nra. }
    assert (1 - z <= 1.23 * x) by nra. nra. }
  replace (3 * (1 - 2 / (px e + 1))) with (-3 + 6 * px e / (px e + 1)) by (field; lra). nra.
Qed.
Lemma pupil_closes_38 age e1 e2 : age <= 38.2 -> 0 <= e1 < e2 ->
  exists p1 p2, pupil age e1 = Ok p1 /\ pupil age e2 = Ok p2 /\ snd p2 < snd p1 /\ fst p2 < fst p1.
Proof.
  intros Ha H. unfold pupil. unfold Rltb at 1 2. destruct (Rlt_dec e1 0); [lra|]. destruct (Rlt_dec e2 0); [lra|].
  eexists. eexists. split; [reflexivity|]. split; [reflexivity|]. cbn [fst snd].
  assert (5 - 3 * tanh_log e2 - 0.043 * (age - 10) * exp (- e2 / 174) < 5 - 3 * tanh_log e1 - 0.043 * (age - 10) * exp (- e1 / 174)) as G.
  { rewrite (tanh_px e2) by lra. destruct (Req_dec e1 0) as [->|N].
    - pose proof (pg_dark2 (0.043 * (age - 10)) e2 ltac:(lra) ltac:(lra)) as P. unfold pg in P. unfold tanh_log, Rltb. destruct (Rlt_dec 0 0); [lra|].
      replace (- 0 / 174) with 0 by field. rewrite exp_0. lra.
    - rewrite (tanh_px e1) by lra. pose proof (pg_incr2 (0.043 * (age - 10)) e1 e2 ltac:(lra) ltac:(lra)) as P. unfold pg in P. lra. }
  split; [exact G|]. apply Rmult_lt_compat_l; [apply PI_RGT_0|].
  assert (0 < 5 - 3 * tanh_log e2 - 0.043 * (age - 10) * exp (- e2 / 174)) as Pos.
  { pose proof (exp_pos (- e2 / 174)) as X2. assert (exp (- e2 / 174) < 1) as X3 by (rewrite <- exp_0; apply exp_increasing; lra).
    assert (tanh_log e2 < 1) by (unfold tanh_log; replace (Rltb 0 e2) with true by (symmetry; apply Rltb_true; lra); apply tanh_bound).
    assert (0.043 * (age - 10) * exp (- e2 / 174) <= 1.2126 * 1) by nra. lra. }
  revert G Pos. generalize (5 - 3 * tanh_log e2 - 0.043 * (age - 10) * exp (- e2 / 174)) (5 - 3 * tanh_log e1 - 0.043 * (age - 10) * exp (- e1 / 174)).
  intros u v G Pos. unfold square. nra.
Qed.

(** * the ages at which it opens *)
Lemma ln_140 : - 2.436122 <= ln (140 / 1600).
Proof.
  left. apply exp_lt_inv. rewrite exp_ln by lra. apply Rle_lt_trans with (IZR 87499 / 1000000 + 0.0000009); [|lra].
  replace (- 2.436122) with (IZR (- 2436122) * 1000000000 / (1000000 * 1000000000)) by lra.
  pose proof (exp_below (-2436122 * 1000000000) 87499850000000) as B. rewrite (rz_dec _ (-2436122) eq_refl) in B.
  replace (IZR (- 2436122) * 1000000000 / (1000000 * 1000000000)) with (IZR (-2436122) / 1000000) by lra.
  eapply Rle_trans; [apply B; vm_compute; reflexivity|]. unfold rz. replace (IZR zsc) with (1000000 * 1000000000) by (rewrite <- mult_IZR; reflexivity). lra.
Qed.
Lemma ln_165 : ln (165 / 1600) <= - 2.271808.
Proof.
  left. apply exp_lt_inv. rewrite exp_ln by lra. apply Rlt_le_trans with (IZR 103125 / 1000000 + 0.0000001); [lra|].
  pose proof (exp_above (-2271808 * 1000000000) 103125200000000) as B. rewrite (rz_dec _ (-2271808) eq_refl) in B.
  replace (- 2.271808) with (IZR (-2271808) / 1000000) by lra.
  eapply Rle_trans; [|apply B; vm_compute; reflexivity]. unfold rz. replace (IZR zsc) with (1000000 * 1000000000) by (rewrite <- mult_IZR; reflexivity). lra.
Qed.
Lemma px_140 : 0.428955 <= px 140.
Proof.
  unfold px. pose proof ln_140. pose proof pk_near. assert (ln (140 / 1600) < 0) by (rewrite <- ln_1; apply ln_increasing; lra).
  apply Rle_trans with (exp (IZR (-846400) / 1000000)); [|apply exp_le; nra].
  replace 0.428955 with (IZR 428955 / 1000000) by lra. apply exp_dec_above. vm_compute. reflexivity.
Qed.
Lemma px_165 : px 165 <= 0.454163.
Proof.
  unfold px. pose proof ln_165. pose proof pk_near. 
  apply Rle_trans with (exp (IZR (-789302) / 1000000)); [apply exp_le; nra|].
  replace 0.454163 with (IZR 454163 / 1000000) by lra. apply exp_dec_below. vm_compute. reflexivity.
Qed.
Lemma exp_140 : 0.447266 <= exp (Ropp 140 / 174).
Proof.
  apply Rle_trans with (exp (IZR (-804598) / 1000000)); [|apply exp_le; lra].
  replace 0.447266 with (IZR 447266 / 1000000) by lra. apply exp_dec_above. vm_compute. reflexivity.
Qed.
Lemma exp_165 : exp (Ropp 165 / 174) <= 0.387411.
Proof.
  apply Rle_trans with (exp (IZR (-948275) / 1000000)); [apply exp_le; lra|].
  replace 0.387411 with (IZR 387411 / 1000000) by lra. apply exp_dec_below. vm_compute. reflexivity.
Qed.
Lemma pupil_opens_38 age : 38.3 <= age <= 100 ->
  exists p1 p2, pupil age 140 = Ok p1 /\ pupil age 165 = Ok p2 /\ snd p1 < snd p2 /\ fst p1 < fst p2.
Proof.
  intros Ha. pose proof (pupil_spec age 140 ltac:(lra) ltac:(lra)) as (pd & Epd & Bpd). revert Epd.
  unfold pupil. unfold Rltb at 1 2 3. destruct (Rlt_dec 140 0); [lra|]. destruct (Rlt_dec 165 0); [lra|].
  rewrite !tanh_px by lra. pose proof px_140 as X1. pose proof px_165 as X2. pose proof exp_140 as E1. pose proof exp_165 as E2.
  revert X1 X2 E1 E2. pose proof (exp_pos (pk * ln (165 / 1600))) as X3. fold (px 165) in X3. revert X3.
  generalize (px 140) (px 165) (exp (Ropp 140 / 174)) (exp (Ropp 165 / 174)). intros a b c d X3 X1 X2 E1 E2 Epd.
  eexists. eexists. split; [reflexivity|]. split; [reflexivity|]. cbn [fst snd].
  assert (2 / (a + 1) <= 1.399625) as A.
  { apply (Rmult_le_reg_r (a + 1)); [lra|]. replace (2 / (a + 1) * (a + 1)) with 2 by (field; lra). lra. }
  assert (1.375361 <= 2 / (b + 1)) as B.
  { apply (Rmult_le_reg_r (b + 1)); [lra|]. replace (2 / (b + 1) * (b + 1)) with 2 by (field; lra). lra. }
  assert (5 - 3 * (1 - 2 / (a + 1)) - 0.043 * (age - 10) * c < 5 - 3 * (1 - 2 / (b + 1)) - 0.043 * (age - 10) * d) as L.
  { revert A B. generalize (2 / (a + 1)) (2 / (b + 1)). intros u v A B. assert (1.2169 * (c - d) <= 0.043 * (age - 10) * (c - d)) by (apply Rmult_le_compat_r; lra). lra. }
  split; [exact L|].
  apply Rmult_lt_compat_l; [apply PI_RGT_0|]. injection Epd as _ Epd. rewrite <- Epd in Bpd. clear Epd pd.
  revert L Bpd. generalize (5 - 3 * (1 - 2 / (a + 1)) - 0.043 * (age - 10) * c) (5 - 3 * (1 - 2 / (b + 1)) - 0.043 * (age - 10) * d). intros p q L Bpd. unfold square. nra.
Qed.
