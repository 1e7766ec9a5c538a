(** Trigonometric inequalities used by the mapper and retina proofs *)
From Coq Require Import Reals Lra Psatz.
From Verif Require Import Base L_Base.
Local Open Scope R_scope.

Lemma sin_mvt a b : a < b -> exists c, a < c < b /\ sin b - sin a = cos c * (b - a).
Proof.
  intros H.
  destruct (MVT_cor2 sin cos a b H) as [c [E Hc]]; [|exists c; auto].
  intros c _. apply derivable_pt_lim_sin.
Qed.

Lemma cos_decr a b : 0 <= a -> a < b -> b <= PI -> cos b < cos a.
Proof. intros; apply cos_decreasing_1; lra. Qed.

(** sin is strictly concave on [0, pi]: chord slopes from 0 decrease *)
Lemma sin_chord x y : 0 < x -> x < y -> y <= PI -> x * sin y < y * sin x.
Proof.
  intros H0 H1 H2.
  destruct (sin_mvt 0 x H0) as [c1 [Hc1 E1]]. destruct (sin_mvt x y H1) as [c2 [Hc2 E2]].
  rewrite sin_0 in E1. assert (cos c2 < cos c1) by (apply cos_decr; lra).
  assert (sin x = cos c1 * x) by lra. assert (sin y = sin x + cos c2 * (y - x)) by lra.
  assert (cos c2 * (y - x) < cos c1 * (y - x)) by (apply Rmult_lt_compat_r; lra). nra.
Qed.
Lemma sin_chord_le x y : 0 <= x -> x <= y -> y <= PI -> x * sin y <= y * sin x.
Proof.
  intros [H| <-] [H1| <-] H2; try lra.
  - left; apply sin_chord; auto.
  - rewrite sin_0; lra.
Qed.

(** Jordan *)
Lemma sin_jordan x : 0 <= x <= PI / 2 -> 2 / PI * x <= sin x.
Proof.
  intros H. pose proof PI_pos. pose proof (sin_chord_le x (PI / 2)) as S. rewrite sin_PI2 in S.
  assert (x * 1 <= PI / 2 * sin x) by (apply S; lra).
  apply Rmult_le_reg_l with (PI / 2); [lra|]. replace (PI / 2 * (2 / PI * x)) with x by (field; lra). lra.
Qed.

Lemma sqrt2_pos : 0 < sqrt 2. Proof. apply sqrt_lt_R0; lra. Qed.
Lemma sqrt2_sqr : sqrt 2 * sqrt 2 = 2. Proof. apply sqrt_sqrt; lra. Qed.
Lemma sqrt2_bound : 1.4 < sqrt 2 < 1.5.
Proof. pose proof sqrt2_pos; pose proof sqrt2_sqr; split; nra. Qed.
Lemma inv_sqrt2 : 1 / sqrt 2 = sqrt 2 / 2.
Proof.
  pose proof sqrt2_sqr. pose proof sqrt2_pos. apply Rmult_eq_reg_r with (sqrt 2); [|lra].
  unfold Rdiv. rewrite Rmult_assoc, Rinv_l by lra. nra.
Qed.
Lemma sin_PI4' : sin (PI / 4) = sqrt 2 / 2. Proof. rewrite sin_PI4; apply inv_sqrt2. Qed.
Lemma cos_PI4' : cos (PI / 4) = sqrt 2 / 2. Proof. rewrite cos_PI4; apply inv_sqrt2. Qed.

Lemma asin_0' : asin 0 = 0. Proof. exact asin_0. Qed.
Lemma asin_mono x y : -1 <= x -> x <= y -> y <= 1 -> asin x <= asin y.
Proof.
  intros H0 [H1| ->] H2; [|lra]. destruct (Rle_lt_dec (asin x) (asin y)) as [|C]; auto. exfalso.
  pose proof (asin_bound x). pose proof (asin_bound y).
  pose proof (sin_increasing_1 (asin y) (asin x)) as S. rewrite !sin_asin in S by lra.
  assert (y < x) by (apply S; lra). lra.
Qed.
Lemma asin_nonneg x : 0 <= x <= 1 -> 0 <= asin x <= PI / 2.
Proof. intros. split; [rewrite <- asin_0; apply asin_mono; lra|apply asin_bound]. Qed.
Lemma asin_sin' x : - (PI / 2) <= x <= PI / 2 -> asin (sin x) = x.
Proof. apply asin_sin. Qed.
Lemma asin_le_lin x : 0 <= x <= 1 -> asin x <= PI / 2 * x.
Proof.
  intros H. pose proof (asin_nonneg x H) as B. pose proof (sin_jordan _ B) as J.
  rewrite sin_asin in J by lra. pose proof PI_pos.
  apply Rmult_le_reg_l with (2 / PI); [apply Rdiv_lt_0_compat; lra|].
  replace (2 / PI * (PI / 2 * x)) with x by (field; lra). lra.
Qed.
Lemma asin_ge x : 0 <= x <= 1 -> x <= asin x.
Proof.
  intros H. pose proof (asin_nonneg x H) as B. destruct (Rle_lt_or_eq_dec 0 (asin x)) as [L|E]; [lra| |].
  - pose proof (sin_lt_x _ L) as S. rewrite sin_asin in S by lra. lra.
  - rewrite <- E. assert (sin (asin x) = x) as S by (apply sin_asin; lra). rewrite <- E, sin_0 in S. lra.
Qed.
(** asin x / x is increasing *)
Lemma asin_ratio x y : 0 < x -> x <= y -> y <= 1 -> y * asin x <= x * asin y.
Proof.
  intros H0 H1 H2. pose proof (asin_nonneg x ltac:(lra)). pose proof (asin_nonneg y ltac:(lra)).
  pose proof (asin_mono x y ltac:(lra) H1 H2). pose proof PI_pos.
  pose proof (sin_chord_le (asin x) (asin y) ltac:(lra) ltac:(lra) ltac:(lra)) as S.
  rewrite !sin_asin in S by lra. lra.
Qed.

(** sin grows at least with slope sqrt 2 / 2 on [0, pi/4] *)
Lemma sin_slope x y : 0 <= x -> x <= y -> y <= PI / 4 -> sqrt 2 / 2 * (y - x) <= sin y - sin x.
Proof.
  intros H0 [H1| ->] H2; [|lra]. destruct (sin_mvt x y H1) as [c [Hc E]]. rewrite E.
  apply Rmult_le_compat_r; [lra|]. rewrite <- cos_PI4'. pose proof PI_pos.
  left; apply cos_decr; lra.
Qed.
Lemma asin_slope x y : 0 <= x -> x <= y -> y <= sqrt 2 / 2 -> asin y - asin x <= sqrt 2 * (y - x).
Proof.
  intros H0 H1 H2. pose proof sqrt2_bound. pose proof sqrt2_sqr. pose proof PI_pos.
  assert (asin y <= PI / 4).
  { rewrite <- (asin_sin' (PI / 4)) by lra. rewrite sin_PI4'. apply asin_mono; lra. }
  pose proof (asin_nonneg x ltac:(lra)). pose proof (asin_mono x y ltac:(lra) H1 ltac:(lra)).
  pose proof (sin_slope (asin x) (asin y) ltac:(lra) ltac:(lra) ltac:(lra)) as S.
  rewrite !sin_asin in S by lra. nra.
Qed.

(** 3.14 < pi < 3.15 *)
Lemma INR_fact_S n : INR (fact (S n)) = (INR n + 1) * INR (fact n).
Proof. rewrite fact_simpl, mult_INR, S_INR; reflexivity. Qed.
Lemma fact_vals : INR (fact 0) = 1 /\ INR (fact 2) = 2 /\ INR (fact 4) = 24 /\ INR (fact 6) = 720
  /\ INR (fact 8) = 40320 /\ INR (fact 10) = 3628800.
Proof. rewrite !INR_fact_S. change (INR (fact 0)) with 1. repeat split; simpl INR; ring. Qed.
Ltac cos_terms U :=
  unfold cos_approx, cos_term in U; cbn [sum_f_R0] in U;
  change (2 * 0)%nat with 0%nat in U; change (2 * 1)%nat with 2%nat in U; change (2 * 2)%nat with 4%nat in U;
  change (2 * 3)%nat with 6%nat in U; change (2 * 4)%nat with 8%nat in U; change (2 * 5)%nat with 10%nat in U;
  destruct fact_vals as [F0 [F2 [F4 [F6 [F8 F10]]]]];
  rewrite ?F0, ?F2, ?F4, ?F6, ?F8, ?F10 in U; cbn [pow] in U.
Lemma PI_hi : PI < 3.15.
Proof.
  destruct (Rlt_le_dec PI 3.15) as [|C]; auto. exfalso.
  assert (P : 0 <= cos 1.575) by (apply cos_ge_0; lra).
  destruct (pre_cos_bound 1.575 1) as [_ U]; [lra|lra|].
  change (2 * (1 + 1))%nat with 4%nat in U. cos_terms U. lra.
Qed.
Lemma PI_lo : 3.14 < PI.
Proof.
  destruct (Rlt_le_dec 3.14 PI) as [|C]; auto. exfalso.
  assert (P : cos 1.57 <= 0) by (apply cos_le_0; pose proof PI2_3_2; lra).
  destruct (pre_cos_bound 1.57 2) as [U _]; [lra|lra|].
  change (2 * 2 + 1)%nat with 5%nat in U. cos_terms U. lra.
Qed.
