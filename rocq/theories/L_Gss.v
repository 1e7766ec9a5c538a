(** Lemmas about the scalar functions of the glare sensation score. *)
From Coq Require Import Lra Lia Psatz.
From Verif Require Import Base L_Base M_Mapper M_Io M_Gss.
Local Open Scope R_scope.

(** * powers *)
Lemma pow0_nonneg r p : 0 <= pow0 r p.
Proof. unfold pow0. destruct (Rltb 0 r); [left; apply exp_pos|lra]. Qed.
Lemma pow0_pos r p : 0 < r -> pow0 r p = Rpower r p /\ 0 < pow0 r p.
Proof. intros H. unfold pow0. replace (Rltb 0 r) with true by (symmetry; now apply Rltb_true). split; [reflexivity|apply exp_pos]. Qed.
Lemma pow0_0 p : pow0 0 p = 0.
Proof. unfold pow0, Rltb. destruct (Rlt_dec 0 0); [lra|reflexivity]. Qed.
Lemma pow0_lt r s p : 0 < p -> 0 <= r < s -> pow0 r p < pow0 s p.
Proof.
  intros Hp [Hr Hs]. destruct (pow0_pos s p ltac:(lra)) as [Es Ps]. destruct Hr as [Hr|Hr].
  - destruct (pow0_pos r p Hr) as [Er _]. rewrite Er, Es. unfold Rpower. apply exp_increasing, Rmult_lt_compat_l; [exact Hp|].
    now apply ln_increasing.
  - subst r. rewrite pow0_0. exact Ps.
Qed.
Lemma pow0_le r s p : 0 < p -> 0 <= r <= s -> pow0 r p <= pow0 s p.
Proof. intros Hp [Hr [Hs|Hs]]; [left; now apply pow0_lt|subst; lra]. Qed.
Lemma pow0_1 p : pow0 1 p = 1.
Proof. destruct (pow0_pos 1 p ltac:(lra)) as [-> _]. unfold Rpower. rewrite ln_1, Rmult_0_r. apply exp_0. Qed.

(** * point spread coefficients *)
Lemma pow4_nonneg x : 0 <= x ^ 4.
Proof. replace (x ^ 4) with ((x * x) * (x * x)) by ring. apply Rmult_le_pos; nra. Qed.
Lemma agefactor_ge_1 age : 1 <= 1 + (age / 70) ^ 4.
Proof. pose proof (pow4_nonneg (age / 70)). lra. Qed.

Lemma inv_sum q : 0 < q -> 1 / (1 + q) + 1 / (1 + / q) = 1.
Proof. intros H. field. split; lra. Qed.

Lemma cs_spec age pigment pupd : 0 < pigment < 1 -> 0 < pupd ->
  Forall (fun c => 0 < c) (snd (psf_coef age pigment pupd)) /\ Rsum (snd (psf_coef age pigment pupd)) = 1 /\
  length (snd (psf_coef age pigment pupd)) = 4%nat.
Proof.
  intros Hp Hd. unfold psf_coef. cbv zeta. cbn [snd length Rsum fold_right].
  pose proof (agefactor_ge_1 age) as Ha. set (af := 1 + (age / 70) ^ 4) in *. clearbody af.
  assert (0 < 1 / pigment - 1) as Hf.
  { assert (1 < 1 / pigment); [|lra]. apply (Rmult_lt_reg_r pigment); [lra|]. unfold Rdiv. rewrite Rmult_assoc, Rinv_l by lra. lra. }
  set (pf := 1 / pigment - 1) in *. clearbody pf.
  assert (0 < af / pf) as Hq by (apply Rdiv_lt_0_compat; lra).
  set (csa := 1 / (1 + af / pf)). set (cla := 1 / (1 + pf / af)).
  assert (0 < csa) as Hcsa by (apply Rdiv_lt_0_compat; lra).
  assert (0 < pf / af) as Hq' by (apply Rdiv_lt_0_compat; lra).
  assert (0 < cla) as Hcla by (apply Rdiv_lt_0_compat; lra).
  assert (csa + cla = 1) as S1.
  { unfold csa, cla. replace (pf / af) with (/ (af / pf)) by (field; lra). now apply inv_sum. }
  set (k := square (pupd / 3.2)). set (k' := square (3.2 / pupd)).
  assert (0 < pupd / 3.2) as P by lra.
  assert (0 < k) as Hk by (unfold k, square; now apply Rmult_lt_0_compat).
  assert (k' = / k) as Ek by (unfold k, k', square; field; lra).
  assert (0 < k') as Hk' by (rewrite Ek; now apply Rinv_0_lt_compat).
  assert (1 / (1 + k) + 1 / (1 + k') = 1) as S2 by (rewrite Ek; now apply inv_sum).
  clearbody k k' csa cla.
  assert (1 < (1 + 25 * pigment) * (1 + 1 / af)) as D.
  { assert (0 < 1 / af) by (apply Rdiv_lt_0_compat; lra). nra. }
  set (den := (1 + 25 * pigment) * (1 + 1 / af)) in *. clearbody den.
  assert (0 < cla / den < cla) as C2.
  { split; [apply Rdiv_lt_0_compat; lra|]. apply (Rmult_lt_reg_r den); [lra|]. unfold Rdiv. rewrite Rmult_assoc, Rinv_l by lra. nra. }
  split; [|split; [|reflexivity]].
  - repeat apply Forall_cons; try apply Forall_nil; try (apply Rdiv_lt_0_compat; lra); lra.
  - replace (csa / (1 + k)) with (csa * (1 / (1 + k))) by (field; lra).
    replace (csa / (1 + k')) with (csa * (1 / (1 + k'))) by (field; lra). nra.
Qed.

(** the widths are positive for every age up to 100 and a pupil of at least a quarter of a millimetre *)
Lemma bs_spec age pigment pupd : 0 <= age <= 100 -> 0 < pigment < 1 -> 1 / 4 <= pupd ->
  Forall (fun b => 0 < b) (fst (psf_coef age pigment pupd)).
Proof.
  intros Ha Hp Hd. unfold psf_coef. cbv zeta. cbn [fst].
  pose proof (agefactor_ge_1 age) as Hl.
  assert (1 + (age / 70) ^ 4 <= 9) as Hu.
  { assert (0 <= age / 70 <= 1.5) as B by lra. set (t := age / 70) in *. clearbody t.
    replace (t ^ 4) with ((t * t) * (t * t)) by ring. assert (0 <= t * t <= 2.25) by nra. nra. }
  set (af := 1 + (age / 70) ^ 4) in *. clearbody af.
  assert (1 <= sqrt af <= 3) as Hs.
  { split; [rewrite <- sqrt_1; now apply sqrt_le_1_alt|]. replace 3 with (sqrt (3 * 3)) by (rewrite sqrt_square; lra).
    apply sqrt_le_1_alt. lra. }
  set (s := sqrt af) in *. clearbody s.
  set (b := 9000 - 936 * s). assert (0 < b) as Hb by (unfold b; lra).
  assert (0 < b * pupd) as Hbp by (apply Rmult_lt_0_compat; lra).
  assert (0 < 1 + square (pupd / 3.2)) as K1 by (pose proof (Rle_0_sqr (pupd / 3.2)) as Q; unfold Rsqr in Q; unfold square; lra).
  assert (0 < 1 + square (3.2 / pupd)) as K2 by (pose proof (Rle_0_sqr (3.2 / pupd)) as Q; unfold Rsqr in Q; unfold square; lra).
  assert (1 / (b * pupd) < s / 2000) as E.
  { apply (Rmult_lt_reg_r (b * pupd)); [exact Hbp|]. unfold Rdiv at 1. rewrite Rmult_assoc, Rinv_l by lra.
    assert (8064 <= s * b) as M by (unfold b; nra).
    replace (s / 2000 * (b * pupd)) with (s * b * pupd / 2000) by field.
    assert (8064 * pupd <= s * b * pupd) by (apply Rmult_le_compat_r; lra). lra. }
  assert (0 < 1 / af <= 1) as A.
  { split; [apply Rdiv_lt_0_compat; lra|]. apply (Rmult_le_reg_r af); [lra|]. unfold Rdiv. rewrite Rmult_assoc, Rinv_l by lra. lra. }
  assert (0 < 10 + 60 * pigment - 5 / af) as F by (unfold Rdiv in *; lra).
  repeat apply Forall_cons; try apply Forall_nil; try lra.
  - now apply Rdiv_lt_0_compat.
  - apply Rmult_lt_0_compat; lra.
  - apply Rdiv_lt_0_compat; lra.
Qed.

(** below that the second width can be negative *)
Lemma bs_negative : exists b, nth_error (fst (psf_coef 0 0.1 0.1)) 1 = Some b /\ b < 0.
Proof.
  eexists. split; [unfold psf_coef; cbv zeta; cbn [fst nth_error]; reflexivity|].
  replace (1 + (0 / 70) ^ 4) with 1 by field. rewrite sqrt_1.
  assert (0 < 1 + square (3.2 / 0.1)) as K2 by (pose proof (Rle_0_sqr (3.2 / 0.1)) as Q; unfold Rsqr in Q; unfold square; lra).
  assert (1 / 2000 - 1 / ((9000 - 936 * 1) * 0.1) < 0) as N by lra. nra.
Qed.

Lemma spread_den b phi : b <> 0 -> 0 < square (sin phi) + square b * square (cos phi).
Proof.
  intros H. pose proof (sin2_cos2 phi) as E. unfold Rsqr in E. unfold square.
  assert (0 < b * b) as B by nra. destruct (Req_dec (sin phi) 0) as [S|S].
  - rewrite S in *. assert (cos phi * cos phi = 1) as C by lra. rewrite C. lra.
  - assert (0 < sin phi * sin phi) by nra. assert (0 <= b * b * (cos phi * cos phi)) by (apply Rmult_le_pos; nra). lra.
Qed.
Lemma f_b_pos b c phi : 0 < b -> 0 < c -> 0 < f_b b c phi.
Proof.
  intros Hb Hc. unfold f_b. apply Rdiv_lt_0_compat; [now apply Rmult_lt_0_compat|]. pose proof PI_RGT_0.
  apply Rmult_lt_0_compat; [lra|apply exp_pos].
Qed.
Lemma l_b_pos b c phi : 0 < b -> 0 < c -> 0 < l_b b c phi.
Proof.
  intros Hb Hc. unfold l_b. apply Rdiv_lt_0_compat; [now apply Rmult_lt_0_compat|]. pose proof PI_RGT_0.
  apply Rmult_lt_0_compat; [lra|apply spread_den; lra].
Qed.

Lemma spread_pos f age pigment pupd phi : (forall b c p, 0 < b -> 0 < c -> 0 < f b c p) ->
  0 <= age <= 100 -> 0 < pigment < 1 -> 1 / 4 <= pupd -> 0 < spread f (psf_coef age pigment pupd) phi.
Proof.
  intros Hf Ha Hp Hd. destruct (cs_spec age pigment pupd Hp ltac:(lra)) as (C & _ & _).
  pose proof (bs_spec age pigment pupd Ha Hp Hd) as B. unfold spread, Rsumf.
  assert (forall bs cs, Forall (fun b => 0 < b) bs -> Forall (fun c => 0 < c) cs ->
    0 <= Rsum (map (fun bc => f (fst bc) (snd bc) phi) (combine bs cs))) as G.
  { induction bs as [|b bs IH]; intros [|c cs] H1 H2; cbn [combine map Rsum fold_right]; try lra.
    inversion H1; inversion H2; subst. cbn [fst snd]. pose proof (Hf b c phi ltac:(assumption) ltac:(assumption)).
    specialize (IH cs ltac:(assumption) ltac:(assumption)). unfold Rsum in IH. lra. }
  assert (exists b bs c cs, fst (psf_coef age pigment pupd) = b :: bs /\ snd (psf_coef age pigment pupd) = c :: cs) as (b & bs & c & cs & E1 & E2).
  { unfold psf_coef. cbv zeta. cbn [fst snd]. eexists _, _, _, _. split; reflexivity. }
  rewrite E1, E2 in *. inversion B; inversion C; subst. cbn [combine map Rsum fold_right fst snd].
  pose proof (Hf b c phi ltac:(assumption) ltac:(assumption)).
  pose proof (G bs cs ltac:(assumption) ltac:(assumption)) as P. unfold Rsum in P. lra.
Qed.

(** * pupil *)
Lemma tanh_form x : tanh x = 1 - 2 / (exp (2 * x) + 1).
Proof.
  unfold tanh, sinh, cosh. pose proof (exp_pos x). pose proof (exp_pos (- x)).
  replace (exp (2 * x)) with (exp x * exp x) by (rewrite <- exp_plus; f_equal; ring).
  rewrite exp_Ropp. field. repeat split; try lra; nra.
Qed.
Lemma tanh_bound x : -1 < tanh x < 1.
Proof.
  rewrite tanh_form. pose proof (exp_pos (2 * x)) as E. set (e := exp (2 * x)) in *. clearbody e.
  assert (0 < 2 / (e + 1)) by (apply Rdiv_lt_0_compat; lra).
  assert (2 / (e + 1) < 2); [|lra]. apply (Rmult_lt_reg_r (e + 1)); [lra|]. unfold Rdiv. rewrite Rmult_assoc, Rinv_l by lra. lra.
Qed.
Lemma tanh_neg x : x <= 0 -> tanh x <= 0.
Proof.
  intros H. rewrite tanh_form. assert (exp (2 * x) <= 1) as E.
  { rewrite <- exp_0. destruct H as [H|H]; [left; apply exp_increasing; lra|subst; rewrite Rmult_0_r; lra]. }
  pose proof (exp_pos (2 * x)). set (e := exp (2 * x)) in *. clearbody e.
  assert (1 <= 2 / (e + 1)); [|lra]. apply (Rmult_le_reg_r (e + 1)); [lra|]. unfold Rdiv. rewrite Rmult_assoc, Rinv_l by lra. lra.
Qed.
Lemma tanh_incr x y : x < y -> tanh x < tanh y.
Proof.
  intros H. rewrite !tanh_form. pose proof (exp_pos (2 * x)). assert (exp (2 * x) < exp (2 * y)) by (apply exp_increasing; lra).
  assert (/ (exp (2 * y) + 1) < / (exp (2 * x) + 1)) by (apply Rinv_lt_contravar; [apply Rmult_lt_0_compat; lra|lra]). unfold Rdiv. lra.
Qed.
Lemma ln10_pos : 0 < ln 10.
Proof. rewrite <- ln_1. apply ln_increasing; lra. Qed.
Lemma log10_neg x : 0 < x <= 1 -> log10 x <= 0.
Proof.
  intros H. unfold log10. assert (ln x <= 0) by (rewrite <- ln_1; destruct H as [H1 [H2|H2]]; [left; now apply ln_increasing|subst; lra]).
  pose proof ln10_pos as P. apply Rinv_0_lt_compat in P. unfold Rdiv. nra.
Qed.

Lemma pupil_spec age ev : 10 <= age <= 100 -> 0 <= ev ->
  exists pd, pupil age ev = Ok (PI * square (pd / 2), pd) /\ 1.1 < pd <= 8.
Proof.
  intros Ha He. unfold pupil. unfold Rltb at 1. destruct (Rlt_dec ev 0); [lra|]. eexists. split; [reflexivity|].
  assert (0 <= 0.043 * (age - 10) <= 3.87) as A by lra. pose proof (exp_pos (- ev / 174)) as E0.
  assert (exp (- ev / 174) <= 1) as E1.
  { rewrite <- exp_0. destruct (Req_dec ev 0) as [Z|Z]; [subst; replace (- 0 / 174) with 0 by field; lra|]. left. apply exp_increasing.
    unfold Rdiv. assert (0 < / 174) by lra. nra. }
  assert (-1 <= tanh_log ev < 1) as T.
  { unfold tanh_log, Rltb. destruct (Rlt_dec 0 ev); [|lra]. pose proof (tanh_bound (0.4 * log10 (ev / 1600))). lra. }
  split; [|nra].
  destruct (Rle_dec ev 1600) as [C|C].
  - assert (tanh_log ev <= 0) as T0.
    { unfold tanh_log, Rltb. destruct (Rlt_dec 0 ev); [|lra]. apply tanh_neg. pose proof (log10_neg (ev / 1600) ltac:(lra)). lra. }
    set (t := tanh_log ev) in *. set (e := exp (- ev / 174)) in *. clearbody t e. nra.
  - assert (exp (- ev / 174) <= 0.125) as E2.
    { replace (- ev / 174) with (- (ev / 174)) by field. rewrite exp_Ropp.
      assert (8 <= exp (ev / 174)) as X. { pose proof (exp_ineq1 (ev / 174) ltac:(lra)). lra. }
      replace 0.125 with (/ 8) by lra. apply Rinv_le_contravar; lra. }
    set (t := tanh_log ev) in *. set (e := exp (- ev / 174)) in *. clearbody t e. nra.
Qed.
