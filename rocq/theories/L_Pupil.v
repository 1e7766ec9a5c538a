(** The ages at which the pupil closes with light, and those at which it does not. *)
From Coq Require Import Lra Lia Psatz.
From Verif Require Import Base L_Base M_Gss S_Gss L_Gss L_Gss2 L_Gss7.
Local Open Scope R_scope.

Lemma ln10_low : 2 < ln 10.
Proof.
  apply exp_lt_inv. rewrite exp_ln by lra. replace 2 with (1 + 1) by ring. rewrite exp_plus. pose proof exp_le_3. pose proof (exp_pos 1). nra.
Qed.
Lemma exp_sq a b : 0 <= a -> a <= exp b -> a * a <= exp (2 * b).
Proof. intros H L. replace (2 * b) with (b + b) by ring. rewrite exp_plus. nra. Qed.
Lemma exp_236 : 10 < exp 2.36.
Proof.
  assert (1.036875 <= exp 0.036875) as A by (pose proof (exp_ineq1 0.036875 ltac:(lra)); lra).
  apply exp_sq in A; [|lra]. assert (1.0751 <= exp (2 * 0.036875)) as B by lra. clear A.
  apply exp_sq in B; [|lra]. assert (1.1558 <= exp (2 * (2 * 0.036875))) as A by lra. clear B.
  apply exp_sq in A; [|lra]. assert (1.3358 <= exp (2 * (2 * (2 * 0.036875)))) as B by lra. clear A.
  apply exp_sq in B; [|lra]. assert (1.784 <= exp (2 * (2 * (2 * (2 * 0.036875))))) as A by lra. clear B.
  apply exp_sq in A; [|lra]. assert (3.18 <= exp (2 * (2 * (2 * (2 * (2 * 0.036875)))))) as B by lra. clear A.
  apply exp_sq in B; [|lra]. replace 2.36 with (2 * (2 * (2 * (2 * (2 * (2 * 0.036875)))))) by lra. lra.
Qed.
Lemma ln10_high : ln 10 < 2.36.
Proof. apply exp_lt_inv. rewrite exp_ln by lra. exact exp_236. Qed.

(** the exponent of the illuminance *)
Definition pk : R := 0.8 / ln 10.
Lemma pk_bound : 0.338 < pk < 0.4.
Proof.
  unfold pk. pose proof ln10_low. pose proof ln10_high. split.
  - apply (Rmult_lt_reg_r (ln 10)); [lra|]. replace (0.8 / ln 10 * ln 10) with 0.8 by (field; lra). lra.
  - apply (Rmult_lt_reg_r (ln 10)); [lra|]. replace (0.8 / ln 10 * ln 10) with 0.8 by (field; lra). lra.
Qed.
Definition px (e : R) : R := exp (pk * ln (e / 1600)).
Lemma tanh_px e : 0 < e -> tanh_log e = 1 - 2 / (px e + 1).
Proof.
  intros H. unfold tanh_log. replace (Rltb 0 e) with true by (symmetry; apply Rltb_true; lra). rewrite tanh_form.
  unfold px. replace (2 * (0.4 * log10 (e / 1600))) with (pk * ln (e / 1600)); [reflexivity|].
  unfold pk, log10, Rdiv. lra.
Qed.
(** what is subtracted from the diameter 5 *)
Definition pg (a e : R) : R := 3 * (1 - 2 / (px e + 1)) + a * exp (- e / 174).
Definition pg' (a e : R) : R := 6 * pk * px e / ((px e + 1) * (px e + 1)) / e - a / 174 * exp (- e / 174).

Lemma lim_ext e l l' (f g : R -> R) : (forall x, f x = g x) -> l = l' -> derivable_pt_lim f e l -> derivable_pt_lim g e l'.
Proof. intros E -> P eps He. destruct (P eps He) as (d & Q). exists d. intros h Hh Hd. rewrite <- !E. now apply Q. Qed.
Lemma px_lim e : 0 < e -> derivable_pt_lim px e (px e * pk / e).
Proof.
  intros H.
  assert (derivable_pt_lim (fun x => x / 1600) e (/ 1600)) as A.
  { replace (/ 1600) with (/ 1600 * 1) by ring. pose proof (derivable_pt_lim_scal id (/ 1600) e 1 (derivable_pt_lim_id e)) as P.
    intros eps He. destruct (P eps He) as (d & Q). exists d. intros h Hh Hd. specialize (Q h Hh Hd). unfold mult_real_fct, id in Q.
    unfold Rdiv in *. replace ((e + h) * / 1600) with (/ 1600 * (e + h)) by ring. replace (e * / 1600) with (/ 1600 * e) by ring. exact Q. }
  pose proof (derivable_pt_lim_ln (e / 1600) ltac:(lra)) as B.
  pose proof (derivable_pt_lim_comp _ _ _ _ _ A B) as C.
  pose proof (derivable_pt_lim_scal _ pk _ _ C) as D.
  pose proof (derivable_pt_lim_comp _ _ _ _ _ D (derivable_pt_lim_exp _)) as F.
  eapply lim_ext; [..|exact F].
  - intros x. unfold comp, mult_real_fct, px. reflexivity.
  - unfold mult_real_fct, comp, px. field. lra.
Qed.
Lemma pg_lim a e : 0 < e -> derivable_pt_lim (pg a) e (pg' a e).
Proof.
  intros H. pose proof (exp_pos (pk * ln (e / 1600))) as P. fold (px e) in P.
  assert (derivable_pt_lim (fun x => px x + 1) e (px e * pk / e)) as A.
  { replace (px e * pk / e) with (px e * pk / e + 0) by ring. apply (derivable_pt_lim_plus px (fun _ => 1)); [now apply px_lim|apply derivable_pt_lim_const]. }
  assert (derivable_pt_lim (fun x => / (px x + 1)) e (- (px e * pk / e) / Rsqr (px e + 1))) as B.
  { pose proof (derivable_pt_lim_div (fun _ => 1) (fun x => px x + 1) e 0 _ (derivable_pt_lim_const 1 e) A ltac:(lra)) as Q.
    eapply lim_ext; [..|exact Q].
    - intros x. unfold div_fct. unfold Rdiv. ring.
    - unfold Rsqr. field. lra. }
  assert (derivable_pt_lim (fun x => - x / 174) e (- / 174)) as C.
  { replace (- / 174) with ((- / 174) * 1) by ring. pose proof (derivable_pt_lim_scal id (- / 174) e 1 (derivable_pt_lim_id e)) as Q.
    intros eps He. destruct (Q eps He) as (d & QQ). exists d. intros h Hh Hd. specialize (QQ h Hh Hd). unfold mult_real_fct, id in QQ.
    replace (- (e + h) / 174) with (- / 174 * (e + h)) by field. replace (- e / 174) with (- / 174 * e) by field. exact QQ. }
  pose proof (derivable_pt_lim_comp _ _ _ _ _ C (derivable_pt_lim_exp _)) as D.
  pose proof (derivable_pt_lim_plus _ _ _ _ _ (derivable_pt_lim_scal _ (-6) _ _ B) (derivable_pt_lim_scal _ a _ _ D)) as S.
  pose proof (derivable_pt_lim_plus _ _ _ _ _ (derivable_pt_lim_const 3 e) S) as T.
  eapply lim_ext; [..|exact T].
  - intros x. unfold plus_fct, mult_real_fct, comp, fct_cte, pg. unfold Rdiv. ring.
  - unfold pg', Rsqr. field. lra.
Qed.

(** a fifth root of the illuminance: [px] lies between its square and one *)
Lemma px_root e : 0 < e -> exists q, 0 < q /\ e = 1600 * q ^ 5 /\ (q <= 1 -> q * q <= px e <= 1) /\ (1 <= q -> 1 <= px e <= q * q).
Proof.
  intros H. exists (exp (0.2 * ln (e / 1600))). pose proof pk_bound as K. pose proof (exp_pos (0.2 * ln (e / 1600))) as P.
  split; [exact P|]. split.
  { rewrite <- exp_pow. replace (INR 5 * (0.2 * ln (e / 1600))) with (ln (e / 1600)) by (simpl; lra). rewrite exp_ln by lra. field. }
  rewrite <- exp_plus. unfold px.
  assert (M : forall u v, u <= v -> exp u <= exp v) by (intros u v [L|L]; [left; now apply exp_increasing|subst; lra]).
  set (l := ln (e / 1600)) in *. clearbody l. split; intros Q.
  - assert (l <= 0) as L by (destruct (Rle_dec l 0); [lra|]; exfalso; assert (exp 0 < exp (0.2 * l)) by (apply exp_increasing; lra); rewrite exp_0 in *; lra).
    split; [apply M; nra|]. rewrite <- exp_0. apply M. nra.
  - assert (0 <= l) as L by (destruct (Rle_dec 0 l); [lra|]; exfalso; assert (exp (0.2 * l) < exp 0) by (apply exp_increasing; lra); rewrite exp_0 in *; lra).
    split; [|apply M; nra]. rewrite <- exp_0. apply M. nra.
Qed.

Lemma ye_bound y : 0 < y -> y * exp (- y) <= 0.375 /\ y * exp (- y) <= y /\ y * exp (- y) <= 4 / y.
Proof.
  intros H. pose proof (exp_pos (- y)) as P. repeat split.
  - assert (y <= exp (y - 1)) as A.
    { destruct (Req_dec y 1) as [->|N]; [replace (1 - 1) with 0 by ring; rewrite exp_0; lra|]. pose proof (exp_ineq1 (y - 1) ltac:(lra)). lra. }
    apply Rle_trans with (exp (y - 1) * exp (- y)); [apply Rmult_le_compat_r; lra|]. rewrite <- exp_plus. replace (y - 1 + - y) with (Ropp 1) by ring.
    rewrite exp_Ropp. replace 0.375 with (/ (8 / 3)) by lra. apply Rinv_le_contravar; [lra|].
    assert (1.03125 <= exp 0.03125) as B by (pose proof (exp_ineq1 0.03125 ltac:(lra)); lra).
    do 5 (apply exp_sq in B; [|lra]). replace (2 * (2 * (2 * (2 * (2 * 0.03125))))) with 1 in B by lra. lra.
  - assert (exp (- y) <= 1) by (rewrite <- exp_0; left; apply exp_increasing; lra). nra.
  - assert (y / 2 <= exp (y / 2)) as A by (pose proof (exp_ineq1 (y / 2) ltac:(lra)); lra).
    apply exp_sq in A; [|lra]. replace (2 * (y / 2)) with y in A by field. rewrite exp_Ropp.
    apply (Rmult_le_reg_r (y * exp y)); [apply Rmult_lt_0_compat; [lra|apply exp_pos]|].
    pose proof (exp_pos y). replace (y * / exp y * (y * exp y)) with (y * y) by (field; lra). replace (4 / y * (y * exp y)) with (4 * exp y) by (field; lra). lra.
Qed.

Lemma pg'_pos a e : a <= 0.86 -> 0 < e -> 0 < pg' a e.
Proof.
  intros Ha H. destruct (px_root e H) as (q & Q & E & L1 & L2). pose proof pk_bound as K.
  pose proof (exp_pos (pk * ln (e / 1600))) as P. fold (px e) in P.
  destruct (ye_bound (e / 174) ltac:(lra)) as (Y1 & Y2 & Y3). replace (- (e / 174)) with (- e / 174) in * by field.
  unfold pg'. pose proof (exp_pos (- e / 174)) as X.
  assert (0.86 * (e / 174 * exp (- e / 174)) < 6 * pk * px e / ((px e + 1) * (px e + 1))) as G.
  2:{ assert (a * (e / 174 * exp (- e / 174)) <= 0.86 * (e / 174 * exp (- e / 174))) as F.
      { apply Rmult_le_compat_r; [|lra]. apply Rmult_le_pos; lra. }
      set (N := 6 * pk * px e / ((px e + 1) * (px e + 1))) in *. clearbody N. set (z := exp (- e / 174)) in *. clearbody z.
      replace (N / e - a / 174 * z) with ((N - a * (e / 174 * z)) / e) by (field; lra). apply Rdiv_lt_0_compat; lra. }
  set (x := px e) in *. clearbody x. set (z := e / 174 * exp (- e / 174)) in *. clearbody z. clear X.
  assert (0 < (x + 1) * (x + 1)) as D by nra.
  apply (Rmult_lt_reg_r ((x + 1) * (x + 1))); [exact D|].
  replace (6 * pk * x / ((x + 1) * (x + 1)) * ((x + 1) * (x + 1))) with (6 * pk * x) by (field; lra).
  assert (2.028 * x < 6 * pk * x) as K2 by nra.
  destruct (Rle_dec q 1) as [C|C].
  - specialize (L1 C). destruct (Rle_dec 0.25 x) as [C2|C2].
    + assert (0.86 * z * ((x + 1) * (x + 1)) <= 0.3225 * ((x + 1) * (x + 1))) by nra. nra.
    + assert (q < 0.5) as Q5 by nra. assert (z <= 9.2 * q ^ 5) as Z by (rewrite E in Y2; pose proof (pow_lt q 5 Q); lra).
      assert (q ^ 5 <= 0.125 * (q * q)) as F.
      { replace (q ^ 5) with (q * q * q * (q * q)) by ring. apply Rmult_le_compat_r; [nra|]. assert (q * q <= 0.25) by nra. nra. }
      assert (z <= 1.15 * x) by nra. assert ((x + 1) * (x + 1) <= 1.5625) by nra.
      assert (0.86 * z * ((x + 1) * (x + 1)) <= 0.86 * (1.15 * x) * 1.5625) as G.
      { apply Rle_trans with (0.86 * (1.15 * x) * ((x + 1) * (x + 1))); [apply Rmult_le_compat_r; lra|apply Rmult_le_compat_l; lra]. }
      lra.
  - specialize (L2 ltac:(lra)). assert (e / 174 >= 9 * q ^ 5) as G1 by (rewrite E; pose proof (pow_lt q 5 Q); lra).
    assert (x * x <= q ^ 5) as G2.
    { apply Rle_trans with (q * q * (q * q)); [nra|]. replace (q ^ 5) with (q * (q * q * (q * q))) by ring. assert (0 < q * q) by nra. assert (0 < q * q * (q * q)) by nra. nra. }
    assert (4 / (e / 174) <= 4 / (9 * (x * x))) as G3 by (apply Rmult_le_compat_l; [lra|]; apply Rinv_le_contravar; nra).
    assert (z * (x * x) <= 4 / 9) as G4.
    { apply (Rmult_le_compat_r (x * x)) in G3; [|nra]. apply (Rmult_le_compat_r (x * x)) in Y3; [|nra].
      replace (4 / (9 * (x * x)) * (x * x)) with (4 / 9) in G3 by (field; nra). lra. }
    destruct (Rle_dec z 0) as [Z|Z]; [nra|].
    assert (0.86 * z * ((x + 1) * (x + 1)) <= 0.86 * z * (4 * (x * x))) by (apply Rmult_le_compat_l; nra). nra.
Qed.
Lemma pg_incr a e1 e2 : a <= 0.86 -> 0 < e1 < e2 -> pg a e1 < pg a e2.
Proof.
  intros Ha H. destruct (MVT_cor2 (pg a) (pg' a) e1 e2) as (c & E & C); [lra|intros c Hc; apply pg_lim; lra|].
  pose proof (pg'_pos a c Ha ltac:(lra)). nra.
Qed.
Lemma pg_dark a e : a <= 0.86 -> 0 < e -> -3 + a < pg a e.
Proof.
  intros Ha H. destruct (px_root e H) as (q & Q & E & L1 & L2). unfold pg.
  pose proof (exp_pos (pk * ln (e / 1600))) as P. fold (px e) in P.
  assert (1 - e / 174 <= exp (- e / 174)) as X1 by (pose proof (exp_ineq1 (- e / 174) ltac:(lra)); lra).
  pose proof (exp_pos (- e / 174)) as X2. assert (exp (- e / 174) < 1) as X3 by (rewrite <- exp_0; apply exp_increasing; lra).
  set (z := exp (- e / 174)) in *. clearbody z.
  assert (0.86 * (1 - z) < 6 * px e / (px e + 1)) as G.
  { set (x := px e) in *. clearbody x. apply (Rmult_lt_reg_r (x + 1)); [lra|]. replace (6 * x / (x + 1) * (x + 1)) with (6 * x) by (field; lra).
    destruct (Rle_dec q 1) as [C|C]; [|specialize (L2 ltac:(lra)); nra]. specialize (L1 C).
    destruct (Rle_dec q 0.7) as [D|D].
    - assert (1 - z <= 9.2 * q ^ 5) by (rewrite E in X1; pose proof (pow_lt q 5 Q); lra).
      assert (q ^ 5 <= 0.343 * (q * q)) as F.
      { replace (q ^ 5) with (q * q * q * (q * q)) by ring. apply Rmult_le_compat_r; [nra|]. assert (q * q <= 0.49) by nra. nra. }
      assert (1 - z <= 3.16 * x) by nra. nra.
    - assert (0.49 < x) by nra. nra. }
  replace (3 * (1 - 2 / (px e + 1))) with (-3 + 6 * px e / (px e + 1)) by (field; lra). nra.
Qed.
Lemma pupil_closes_young age e1 e2 : age <= 30 -> 0 <= e1 < e2 ->
  exists p1 p2, pupil age e1 = Ok p1 /\ pupil age e2 = Ok p2 /\ snd p2 < snd p1 /\ fst p2 < fst p1.
Proof.
  intros Ha H. unfold pupil. unfold Rltb at 1 2. destruct (Rlt_dec e1 0); [lra|]. destruct (Rlt_dec e2 0); [lra|].
  eexists. eexists. split; [reflexivity|]. split; [reflexivity|]. cbn [fst snd].
  assert (5 - 3 * tanh_log e2 - 0.043 * (age - 10) * exp (- e2 / 174) < 5 - 3 * tanh_log e1 - 0.043 * (age - 10) * exp (- e1 / 174)) as G.
  { rewrite (tanh_px e2) by lra. destruct (Req_dec e1 0) as [->|N].
    - pose proof (pg_dark (0.043 * (age - 10)) e2 ltac:(lra) ltac:(lra)) as P. unfold pg in P. unfold tanh_log, Rltb. destruct (Rlt_dec 0 0); [lra|].
      replace (- 0 / 174) with 0 by field. rewrite exp_0. lra.
    - rewrite (tanh_px e1) by lra. pose proof (pg_incr (0.043 * (age - 10)) e1 e2 ltac:(lra) ltac:(lra)) as P. unfold pg in P. lra. }
  split; [exact G|]. apply Rmult_lt_compat_l; [apply PI_RGT_0|].
  assert (0 < 5 - 3 * tanh_log e2 - 0.043 * (age - 10) * exp (- e2 / 174)) as Pos.
  { pose proof (exp_pos (- e2 / 174)) as X2. assert (exp (- e2 / 174) < 1) as X3 by (rewrite <- exp_0; apply exp_increasing; lra).
    assert (tanh_log e2 < 1) by (unfold tanh_log; replace (Rltb 0 e2) with true by (symmetry; apply Rltb_true; lra); apply tanh_bound).
    assert (0.043 * (age - 10) * exp (- e2 / 174) <= 0.86 * 1) by nra. lra. }
  revert G Pos. generalize (5 - 3 * tanh_log e2 - 0.043 * (age - 10) * exp (- e2 / 174)) (5 - 3 * tanh_log e1 - 0.043 * (age - 10) * exp (- e1 / 174)).
  intros u v G Pos. unfold square. nra.
Qed.

(** * the pupils that open *)
Lemma tanh_04' : tanh 0.4 <= 0.386.
Proof.
  rewrite tanh_form. assert (0.975 <= exp (Ropp 0.025)) as B by (pose proof (exp_ineq1 (Ropp 0.025) ltac:(lra)); lra).
  do 5 (apply exp_sq in B; [|lra]). replace (2 * (2 * (2 * (2 * (2 * (Ropp 0.025)))))) with (- (2 * 0.4)) in B by lra.
  rewrite exp_Ropp in B. pose proof (exp_pos (2 * 0.4)) as P. set (e := exp (2 * 0.4)) in *. clearbody e.
  assert (0.4443 <= / e) as H2 by lra. assert (e * / e = 1) by (apply Rinv_r; lra). assert (e <= 2.2508) by nra.
  assert (0.614 <= 2 / (e + 1)); [|lra].
  apply (Rmult_le_reg_r (e + 1)); [lra|]. replace (2 / (e + 1) * (e + 1)) with 2 by (field; lra). lra.
Qed.
Lemma tanh_02' : 0.195 <= tanh 0.2.
Proof.
  rewrite tanh_form. assert (1.0125 <= exp 0.0125) as B by (pose proof (exp_ineq1 0.0125 ltac:(lra)); lra).
  do 5 (apply exp_sq in B; [|lra]). replace (2 * (2 * (2 * (2 * (2 * 0.0125))))) with (2 * 0.2) in B by lra.
  set (e := exp (2 * 0.2)) in *. clearbody e. assert (1.4875 <= e) by lra.
  assert (2 / (e + 1) <= 0.805); [|lra].
  apply (Rmult_le_reg_r (e + 1)); [lra|]. replace (2 / (e + 1) * (e + 1)) with 2 by (field; lra). lra.
Qed.
Lemma pupil_opens_old age : 50 <= age <= 100 ->
  exists p1 p2, pupil age 160 = Ok p1 /\ pupil age (160 * sqrt 10) = Ok p2 /\ snd p1 < snd p2 /\ fst p1 < fst p2.
Proof.
  intros Ha. assert (3.1622 < sqrt 10) as S.
  { apply Rsqr_incrst_0; [|lra|apply sqrt_pos]. rewrite Rsqr_sqrt by lra. unfold Rsqr. lra. }
  pose proof (pupil_spec age 160 ltac:(lra) ltac:(lra)) as (pd & Epd & Bpd). revert Epd.
  unfold pupil. unfold Rltb at 1 2 3. destruct (Rlt_dec 160 0); [lra|]. destruct (Rlt_dec (160 * sqrt 10) 0); [lra|].
  unfold tanh_log. replace (Rltb 0 160) with true by (symmetry; apply Rltb_true; lra). replace (Rltb 0 (160 * sqrt 10)) with true by (symmetry; apply Rltb_true; lra).
  replace (160 / 1600) with (Rpower 10 (Ropp 1)) by (rewrite Rpower_Ropp, Rpower_1 by lra; lra).
  replace (160 * sqrt 10 / 1600) with (Rpower 10 (- / 2)).
  2:{ rewrite Rpower_Ropp, Rpower_sqrt by lra. assert (sqrt 10 * sqrt 10 = 10) by (apply sqrt_sqrt; lra).
      apply (Rmult_eq_reg_r (sqrt 10)); [|lra]. rewrite Rinv_l by lra. lra. }
  rewrite !log10_pow10. replace (0.4 * Ropp 1) with (Ropp 0.4) by lra. replace (0.4 * - / 2) with (Ropp 0.2) by lra. rewrite !tanh_opp.
  pose proof tanh_04' as T4. pose proof tanh_02' as T2.
  assert (0.395 <= exp (Ropp 160 / 174)) as E1.
  { apply Rle_trans with (exp (Ropp 0.92)); [|left; apply exp_increasing; lra].
    assert (0.985625 <= exp (Ropp 0.014375)) as B by (pose proof (exp_ineq1 (Ropp 0.014375) ltac:(lra)); lra).
    apply exp_sq in B; [|lra]. apply (Rle_trans 0.9714) in B; [|lra]. apply exp_sq in B; [|lra]. apply (Rle_trans 0.9436) in B; [|lra].
    do 4 (apply exp_sq in B; [|lra]). replace (2 * (2 * (2 * (2 * (2 * (2 * Ropp 0.014375)))))) with (Ropp 0.92) in B by lra. lra. }
  assert (exp (- (160 * sqrt 10) / 174) <= 0.059) as E2.
  { apply Rle_trans with (exp (Ropp 2.9)); [left; apply exp_increasing; lra|]. rewrite exp_Ropp.
    assert (1.0453125 <= exp 0.0453125) as B by (pose proof (exp_ineq1 0.0453125 ltac:(lra)); lra).
    apply exp_sq in B; [|lra]. apply (Rle_trans 1.0926) in B; [|lra]. apply exp_sq in B; [|lra]. apply (Rle_trans 1.1937) in B; [|lra].
    do 4 (apply exp_sq in B; [|lra]). replace (2 * (2 * (2 * (2 * (2 * (2 * 0.0453125)))))) with 2.9 in B by lra.
    apply Rle_trans with (/ 16.96); [apply Rinv_le_contravar; lra|lra]. }
  assert (0 < exp (- (160 * sqrt 10) / 174)) by apply exp_pos.
  revert T4 T2 E1 E2 H. generalize (tanh 0.4) (tanh 0.2) (exp (Ropp 160 / 174)) (exp (- (160 * sqrt 10) / 174)). intros a b c d ? ? ? ? ? Epd.
  eexists. eexists. split; [reflexivity|]. split; [reflexivity|]. cbn [fst snd].
  assert (5 - 3 * - a - 0.043 * (age - 10) * c < 5 - 3 * - b - 0.043 * (age - 10) * d) as L by nra. split; [exact L|].
  apply Rmult_lt_compat_l; [apply PI_RGT_0|]. injection Epd as _ Epd. rewrite <- Epd in Bpd. clear Epd pd.
  revert L Bpd. generalize (5 - 3 * - a - 0.043 * (age - 10) * c) (5 - 3 * - b - 0.043 * (age - 10) * d). intros p q L Bpd. unfold square. nra.
Qed.
Lemma pupil_opens_more age : 50 <= age <= 100 -> exists p1 p2, pupil age 160 = Ok p1 /\ pupil age (160 * sqrt 10) = Ok p2 /\
  160 < 160 * sqrt 10 /\ snd p1 < snd p2 /\ fst p1 < fst p2.
Proof.
  intros H. destruct (pupil_opens_old age H) as (p1 & p2 & A & B & C). exists p1, p2. split; [exact A|]. split; [exact B|]. split; [|exact C].
  assert (1 < sqrt 10); [|lra]. rewrite <- sqrt_1. apply sqrt_lt_1; lra.
Qed.
