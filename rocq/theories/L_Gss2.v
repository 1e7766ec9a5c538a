(** Lemmas about adaptation, cone response, field response limits and the score. *)
From Coq Require Import Lra Lia Psatz.
From Verif Require Import Base L_Base M_Mapper M_Io M_Gss L_Gss.
Local Open Scope R_scope.

(** * cone response *)
Lemma half_sat_pos e_a : 0 <= e_a -> 0 < half_saturation e_a.
Proof.
  intros H. unfold half_saturation. apply pow0_pos. pose proof (pow0_nonneg e_a (1 / 2.55)).
  assert (0 < Rpower 5.701055 (1 / 2.55)) by apply exp_pos. lra.
Qed.
Lemma half_sat_incr a b : 0 <= a < b -> half_saturation a < half_saturation b.
Proof.
  intros H. unfold half_saturation. apply pow0_lt; [lra|]. pose proof (pow0_nonneg a (1 / 2.55)).
  assert (0 < Rpower 5.701055 (1 / 2.55)) by apply exp_pos. pose proof (pow0_lt a b (1 / 2.55) ltac:(lra) H). lra.
Qed.
Lemma half_sat_0 : half_saturation 0 = 5.701055.
Proof.
  unfold half_saturation. rewrite pow0_0, Rplus_0_r. destruct (pow0_pos (Rpower 5.701055 (1 / 2.55)) 2.55 (exp_pos _)) as [-> _].
  rewrite Rpower_mult. replace (1 / 2.55 * 2.55) with 1 by lra. apply Rpower_1. lra.
Qed.

Lemma ratio_mono x y s : 0 <= x < y -> 0 < s -> x / (x + s) < y / (y + s).
Proof.
  intros H Hs. apply (Rmult_lt_reg_r ((x + s) * (y + s))); [apply Rmult_lt_0_compat; lra|].
  replace (x / (x + s) * ((x + s) * (y + s))) with (x * (y + s)) by (field; lra).
  replace (y / (y + s) * ((x + s) * (y + s))) with (y * (x + s)) by (field; lra). nra.
Qed.
Lemma ratio_anti x s t : 0 < x -> 0 < s < t -> x / (x + t) < x / (x + s).
Proof.
  intros H Hs. unfold Rdiv. apply Rmult_lt_compat_l; [exact H|]. apply Rinv_lt_contravar; [apply Rmult_lt_0_compat; lra|lra].
Qed.

Lemma cone_ok e_r e_a : 0 <= e_r -> 0 <= e_a -> exists v, cone_response e_r e_a = Ok v /\ 0 <= v < 1 /\ (v = 0 <-> e_r = 0).
Proof.
  intros Hr Ha. unfold cone_response. unfold Rltb. destruct (Rlt_dec e_r 0); [lra|]. eexists. split; [reflexivity|].
  pose proof (pow0_pos (half_saturation e_a) 0.74 (half_sat_pos e_a Ha)) as [_ S]. pose proof (pow0_nonneg e_r 0.74) as X.
  set (x := pow0 e_r 0.74) in *. set (s := pow0 (half_saturation e_a) 0.74) in *.
  assert (x = 0 <-> e_r = 0) as Z.
  { unfold x. split; [|intros ->; apply pow0_0]. intros E. destruct Hr as [Hr|Hr]; [|auto]. pose proof (pow0_pos e_r 0.74 Hr). lra. }
  split; [split|].
  - apply Rmult_le_pos; [exact X|left; apply Rinv_0_lt_compat; lra].
  - apply (Rmult_lt_reg_r (x + s)); [lra|]. unfold Rdiv. rewrite Rmult_assoc, Rinv_l by lra. lra.
  - rewrite <- Z. split; intros E.
    + apply (f_equal (fun v => v * (x + s))) in E. unfold Rdiv in E. rewrite Rmult_assoc, Rinv_l in E by lra. lra.
    + rewrite E. unfold Rdiv. ring.
Qed.
Lemma cone_incr r1 r2 e_a v1 v2 : 0 <= e_a -> r1 < r2 ->
  cone_response r1 e_a = Ok v1 -> cone_response r2 e_a = Ok v2 -> v1 < v2.
Proof.
  intros Ha Hr. unfold cone_response. unfold Rltb. destruct (Rlt_dec r1 0); [discriminate|]. destruct (Rlt_dec r2 0); [discriminate|].
  intros E1 E2. injection E1 as <-. injection E2 as <-.
  pose proof (pow0_pos (half_saturation e_a) 0.74 (half_sat_pos e_a Ha)) as [_ S].
  apply ratio_mono; [|exact S]. split; [apply pow0_nonneg|]. apply pow0_lt; lra.
Qed.
Lemma cone_decr e_r a1 a2 v1 v2 : 0 < e_r -> 0 <= a1 < a2 ->
  cone_response e_r a1 = Ok v1 -> cone_response e_r a2 = Ok v2 -> v2 < v1.
Proof.
  intros Hr Ha. unfold cone_response. unfold Rltb. destruct (Rlt_dec e_r 0); [discriminate|].
  intros E1 E2. injection E1 as <-. injection E2 as <-.
  pose proof (half_sat_pos a1 ltac:(lra)) as S1.
  apply ratio_anti; [now apply pow0_pos|]. split; [now apply pow0_pos|]. apply pow0_lt; [lra|]. split; [lra|]. now apply half_sat_incr.
Qed.
Lemma cone_half e_a : 0 <= e_a -> cone_response (half_saturation e_a) e_a = Ok (1 / 2).
Proof.
  intros Ha. pose proof (half_sat_pos e_a Ha) as S. unfold cone_response. unfold Rltb. destruct (Rlt_dec _ 0); [lra|]. f_equal.
  pose proof (pow0_pos (half_saturation e_a) 0.74 S) as [_ P]. set (x := pow0 _ _) in *. field. lra.
Qed.

(** * local adaptation *)
Lemma Rpower_10_log10 x : 0 < x -> Rpower 10 (log10 x) = x.
Proof.
  intros H. unfold Rpower, log10. pose proof ln10_pos. replace (ln x / ln 10 * ln 10) with (ln x) by (field; lra). now apply exp_ln.
Qed.
Lemma log10_incr x y : 0 < x < y -> log10 x < log10 y.
Proof.
  intros H. unfold log10, Rdiv. apply Rmult_lt_compat_r; [apply Rinv_0_lt_compat, ln10_pos|]. apply ln_increasing; lra.
Qed.
Lemma Rpower_incr x y : x < y -> Rpower 10 x < Rpower 10 y.
Proof. intros H. unfold Rpower. apply exp_increasing, Rmult_lt_compat_r; [apply ln10_pos|exact H]. Qed.

Lemma adapt_form e_r e_g : 0 < e_r -> 0 < e_g ->
  local_eye_adaptation e_r e_g = Rpower e_r contrast * Rpower e_g (1 - contrast).
Proof.
  intros Hr Hg. unfold local_eye_adaptation, Rgtb. replace (Rltb 0 e_r) with true by (symmetry; now apply Rltb_true).
  replace (Rltb 0 e_g) with true by (symmetry; now apply Rltb_true). unfold Rpower, log10. rewrite <- exp_plus. f_equal.
  pose proof ln10_pos. field. lra.
Qed.
Lemma adapt_pos e_r e_g : 0 < e_g -> 0 < local_eye_adaptation e_r e_g.
Proof.
  intros Hg. unfold local_eye_adaptation, Rgtb. replace (Rltb 0 e_g) with true by (symmetry; now apply Rltb_true). apply exp_pos.
Qed.
Lemma adapt_nonneg e_r e_g : 0 <= local_eye_adaptation e_r e_g.
Proof. unfold local_eye_adaptation. destruct (Rgtb e_g 0); [left; apply exp_pos|lra]. Qed.
Lemma adapt_mono r1 r2 g1 g2 : 0 < r1 <= r2 -> 0 < g1 <= g2 -> r1 < r2 \/ g1 < g2 ->
  local_eye_adaptation r1 g1 < local_eye_adaptation r2 g2.
Proof.
  intros Hr Hg Hs. unfold local_eye_adaptation, Rgtb.
  replace (Rltb 0 r1) with true by (symmetry; apply Rltb_true; lra). replace (Rltb 0 r2) with true by (symmetry; apply Rltb_true; lra).
  replace (Rltb 0 g1) with true by (symmetry; apply Rltb_true; lra). replace (Rltb 0 g2) with true by (symmetry; apply Rltb_true; lra).
  apply Rpower_incr. unfold contrast.
  assert (log10 r1 <= log10 r2) by (destruct (Req_dec r1 r2) as [->|]; [lra|left; apply log10_incr; lra]).
  assert (log10 g1 <= log10 g2) by (destruct (Req_dec g1 g2) as [->|]; [lra|left; apply log10_incr; lra]).
  destruct Hs as [Hs|Hs]; [pose proof (log10_incr r1 r2 ltac:(lra))|pose proof (log10_incr g1 g2 ltac:(lra))]; lra.
Qed.
Lemma adapt_same e : 0 < e -> local_eye_adaptation e e = e.
Proof.
  intros H. rewrite adapt_form by assumption. rewrite <- Rpower_plus. unfold contrast. replace (0.8 + (1 - 0.8)) with 1 by lra.
  now apply Rpower_1.
Qed.
(** between the local and the global value *)
Lemma adapt_between e_r e_g : 0 < e_r -> 0 < e_g -> Rmin e_r e_g <= local_eye_adaptation e_r e_g <= Rmax e_r e_g.
Proof.
  intros Hr Hg. destruct (Rtotal_order e_r e_g) as [L|[E|G]].
  - rewrite Rmin_left, Rmax_right by lra.
    pose proof (adapt_mono e_r e_r e_r e_g ltac:(lra) ltac:(lra) ltac:(lra)) as A. rewrite adapt_same in A by lra.
    pose proof (adapt_mono e_r e_g e_g e_g ltac:(lra) ltac:(lra) ltac:(lra)) as B. rewrite (adapt_same e_g) in B by lra. lra.
  - subst. rewrite Rmin_left, Rmax_left by lra. rewrite adapt_same by lra. lra.
  - rewrite Rmin_right, Rmax_left by lra.
    pose proof (adapt_mono e_g e_r e_g e_g ltac:(lra) ltac:(lra) ltac:(lra)) as A. rewrite adapt_same in A by lra.
    pose proof (adapt_mono e_r e_r e_g e_r ltac:(lra) ltac:(lra) ltac:(lra)) as B. rewrite (adapt_same e_r) in B by lra. lra.
Qed.
(** without local light the local factor is 1, more than for a little light *)
Lemma adapt_dark e_g : 0 < e_g -> local_eye_adaptation 0 e_g = local_eye_adaptation 1 e_g /\
  forall e_r, 0 < e_r < 1 -> local_eye_adaptation e_r e_g < local_eye_adaptation 0 e_g.
Proof.
  intros Hg. assert (local_eye_adaptation 0 e_g = local_eye_adaptation 1 e_g) as E.
  { unfold local_eye_adaptation, Rgtb. replace (Rltb 0 1) with true by (symmetry; apply Rltb_true; lra).
    replace (Rltb 0 0) with false by (symmetry; unfold Rltb; destruct (Rlt_dec 0 0); [lra|reflexivity]).
    replace (log10 1) with 0 by (unfold log10; rewrite ln_1; unfold Rdiv; ring). reflexivity. }
  split; [exact E|]. intros e_r H. rewrite E. apply adapt_mono; lra.
Qed.

(** * normalised responses *)
Lemma logistic e : 0 < e -> 0 < 1 / (1 + e) < 1.
Proof.
  intros H. split; [apply Rdiv_lt_0_compat; lra|]. apply (Rmult_lt_reg_r (1 + e)); [lra|]. unfold Rdiv. rewrite Rmult_assoc, Rinv_l by lra. lra.
Qed.
Lemma response_in r : let p := normalized_field_response true r in
  0 < fst p < 1 /\ 0 < snd p < 1 /\ fst p + snd p < 1.
Proof.
  cbn [normalized_field_response fst snd]. set (a := exp (- fr_a * (r - fr_b))). set (g := exp (fr_a * (r + fr_b))).
  assert (0 < a) as Ha by apply exp_pos. assert (0 < g) as Hg by apply exp_pos.
  assert (1 < a * g) as P.
  { unfold a, g. rewrite <- exp_plus. unfold fr_a, fr_b. replace (- (22) * (r - 0.25) + 22 * (r + 0.25)) with 11 by lra.
    pose proof (exp_ineq1 11 ltac:(lra)). lra. }
  split; [now apply logistic|]. split; [now apply logistic|].
  clearbody a g. apply (Rmult_lt_reg_r ((1 + a) * (1 + g))); [nra|].
  replace ((1 / (1 + a) + 1 / (1 + g)) * ((1 + a) * (1 + g))) with (2 + a + g) by (field; lra). nra.
Qed.
Lemma response_out r : normalized_field_response false r = (0, 0).
Proof. reflexivity. Qed.
Lemma response_mono r1 r2 : r1 < r2 ->
  fst (normalized_field_response true r1) < fst (normalized_field_response true r2) /\
  snd (normalized_field_response true r2) < snd (normalized_field_response true r1).
Proof.
  intros H. cbn [normalized_field_response fst snd]. unfold fr_a, fr_b.
  assert (exp (- (22) * (r2 - 0.25)) < exp (- (22) * (r1 - 0.25))) as A by (apply exp_increasing; lra).
  assert (exp (22 * (r1 + 0.25)) < exp (22 * (r2 + 0.25))) as B by (apply exp_increasing; lra).
  pose proof (exp_pos (- (22) * (r2 - 0.25))). pose proof (exp_pos (22 * (r1 + 0.25))).
  unfold Rdiv. rewrite !Rmult_1_l. split; apply Rinv_lt_contravar; try (apply Rmult_lt_0_compat); lra.
Qed.

(** * the score *)
Lemma pow4_sum x y : 0 <= x -> 0 <= y -> x + y <= 1 -> x ^ 4 + y ^ 4 <= 1.
Proof.
  intros Hx Hy H. replace (x ^ 4) with (x * x * (x * x)) by ring. replace (y ^ 4) with (y * y * (y * y)) by ring.
  assert (0 <= x * x <= x) by nra. assert (0 <= y * y <= y) by nra. nra.
Qed.
Lemma pow4_mono x y : 0 <= x <= y -> x ^ 4 <= y ^ 4.
Proof. intros H. now apply pow_incr. Qed.

Lemma gss_raw_nonneg r_g omega : 0 <= gss_raw r_g omega.
Proof. apply pow0_nonneg. Qed.

Definition energy4 (r_g : list (R * R)) (omega : list R) : R :=
  Rsumf (fun p => (fst (fst p)) ^ 4 * snd p) (combine r_g omega) + Rsumf (fun p => (snd (fst p)) ^ 4 * snd p) (combine r_g omega).
Lemma energy4_cons a r_g w omega : energy4 (a :: r_g) (w :: omega) = (fst a ^ 4 + snd a ^ 4) * w + energy4 r_g omega.
Proof. unfold energy4, Rsumf. cbn [combine map Rsum fold_right fst snd]. unfold Rsum. ring. Qed.
Lemma energy4_nonneg r_g omega : Forall (fun w => 0 <= w) omega -> 0 <= energy4 r_g omega.
Proof.
  intros Hw. revert r_g. induction Hw as [|w omega Hw Hws IH]; intros [|a r_g]; try (unfold energy4, Rsumf; cbn [combine map Rsum fold_right]; lra).
  rewrite energy4_cons. specialize (IH r_g). pose proof (pow4_nonneg (fst a)). pose proof (pow4_nonneg (snd a)).
  assert (0 <= (fst a ^ 4 + snd a ^ 4) * w) by (apply Rmult_le_pos; lra). lra.
Qed.
Lemma energy4_le r_g omega : Forall (fun w => 0 <= w) omega ->
  Forall (fun p => 0 <= fst p /\ 0 <= snd p /\ fst p + snd p <= 1) r_g -> energy4 r_g omega <= Rsum omega.
Proof.
  intros Hw. revert r_g. induction Hw as [|w omega Hw Hws IH]; intros r_g Hr.
  - destruct r_g; unfold energy4, Rsumf; cbn [combine map Rsum fold_right]; lra.
  - destruct r_g as [|a r_g].
    + unfold energy4, Rsumf. cbn [combine map Rsum fold_right].
      assert (0 <= Rsum omega) by (clear -Hws; induction Hws; cbn [Rsum fold_right]; [lra|unfold Rsum in *; lra]). unfold Rsum in *. lra.
    + inversion Hr as [|? ? (A & B & C) Hr']; subst. rewrite energy4_cons. specialize (IH r_g Hr').
      pose proof (pow4_sum (fst a) (snd a) A B C). cbn [Rsum fold_right]. unfold Rsum in *. nra.
Qed.
Lemma energy4_mono r_g r_g' omega : Forall (fun w => 0 <= w) omega ->
  Forall2 (fun p q => 0 <= fst p <= fst q /\ 0 <= snd p <= snd q) r_g r_g' -> energy4 r_g omega <= energy4 r_g' omega.
Proof.
  intros Hw H. revert omega Hw. induction H as [|p q r_g r_g' (A & B) H IH]; intros omega Hw; [lra|].
  destruct Hw as [|w omega Hw Hws]; [unfold energy4, Rsumf; cbn [combine map Rsum fold_right]; lra|].
  rewrite !energy4_cons. specialize (IH omega Hws). pose proof (pow4_mono _ _ A). pose proof (pow4_mono _ _ B). nra.
Qed.
Lemma gss_raw_le r_g omega : Forall (fun w => 0 <= w) omega ->
  Forall (fun p => 0 <= fst p /\ 0 <= snd p /\ fst p + snd p <= 1) r_g -> gss_raw r_g omega <= pow0 (Rsum omega) (1 / 4).
Proof.
  intros Hw Hr. unfold gss_raw. fold (energy4 r_g omega). apply pow0_le; [lra|]. split; [now apply energy4_nonneg|now apply energy4_le].
Qed.
Lemma gss_raw_mono r_g r_g' omega : Forall (fun w => 0 <= w) omega ->
  Forall2 (fun p q => 0 <= fst p <= fst q /\ 0 <= snd p <= snd q) r_g r_g' -> gss_raw r_g omega <= gss_raw r_g' omega.
Proof.
  intros Hw H. unfold gss_raw. fold (energy4 r_g omega) (energy4 r_g' omega). apply pow0_le; [lra|].
  split; [now apply energy4_nonneg|now apply energy4_mono].
Qed.

(** Bernstein form of a polynomial of degree 7 *)
Lemma bernstein a0 a1 a2 a3 a4 a5 a6 a7 x :
  a0 + x * (a1 + x * (a2 + x * (a3 + x * (a4 + x * (a5 + x * (a6 + x * a7)))))) =
  (1 * a0) * (x ^ 0 * (1 - x) ^ 7)
  + (7 * a0 + 1 * a1) * (x ^ 1 * (1 - x) ^ 6)
  + (21 * a0 + 6 * a1 + 1 * a2) * (x ^ 2 * (1 - x) ^ 5)
  + (35 * a0 + 15 * a1 + 5 * a2 + 1 * a3) * (x ^ 3 * (1 - x) ^ 4)
  + (35 * a0 + 20 * a1 + 10 * a2 + 4 * a3 + 1 * a4) * (x ^ 4 * (1 - x) ^ 3)
  + (21 * a0 + 15 * a1 + 10 * a2 + 6 * a3 + 3 * a4 + 1 * a5) * (x ^ 5 * (1 - x) ^ 2)
  + (7 * a0 + 6 * a1 + 5 * a2 + 4 * a3 + 3 * a4 + 2 * a5 + 1 * a6) * (x ^ 6 * (1 - x) ^ 1)
  + (1 * a0 + 1 * a1 + 1 * a2 + 1 * a3 + 1 * a4 + 1 * a5 + 1 * a6 + 1 * a7) * (x ^ 7 * (1 - x) ^ 0).
Proof. ring. Qed.
Lemma bernstein1 x : 1 = 1 * (x ^ 0 * (1 - x) ^ 7) + 7 * (x ^ 1 * (1 - x) ^ 6) + 21 * (x ^ 2 * (1 - x) ^ 5) + 35 * (x ^ 3 * (1 - x) ^ 4) + 35 * (x ^ 4 * (1 - x) ^ 3) + 21 * (x ^ 5 * (1 - x) ^ 2) + 7 * (x ^ 6 * (1 - x) ^ 1) + 1 * (x ^ 7 * (1 - x) ^ 0).
Proof. ring. Qed.

Lemma weight_range ecc : emin <= ecc <= emax -> 9.8 <= weight ecc <= 33.5.
Proof.
  intros H. unfold emin, emax in H. unfold weight. cbv zeta. set (x := (ecc - 0.009) / (0.12 - 0.009)).
  assert (0 <= x <= 1) as Hx by (unfold x; lra). clearbody x. rewrite bernstein. pose proof (bernstein1 x) as E1.
  assert (forall k j, 0 <= x ^ k * (1 - x) ^ j) as P by (intros; apply Rmult_le_pos; apply pow_le; lra).
  pose proof (P 0%nat 7%nat) as P0. set (q0 := x ^ 0 * (1 - x) ^ 7) in *. clearbody q0.
  pose proof (P 1%nat 6%nat) as P1. set (q1 := x ^ 1 * (1 - x) ^ 6) in *. clearbody q1.
  pose proof (P 2%nat 5%nat) as P2. set (q2 := x ^ 2 * (1 - x) ^ 5) in *. clearbody q2.
  pose proof (P 3%nat 4%nat) as P3. set (q3 := x ^ 3 * (1 - x) ^ 4) in *. clearbody q3.
  pose proof (P 4%nat 3%nat) as P4. set (q4 := x ^ 4 * (1 - x) ^ 3) in *. clearbody q4.
  pose proof (P 5%nat 2%nat) as P5. set (q5 := x ^ 5 * (1 - x) ^ 2) in *. clearbody q5.
  pose proof (P 6%nat 1%nat) as P6. set (q6 := x ^ 6 * (1 - x) ^ 1) in *. clearbody q6.
  pose proof (P 7%nat 0%nat) as P7. set (q7 := x ^ 7 * (1 - x) ^ 0) in *. clearbody q7.
  clear P. lra.
Qed.
