(** Lemmas on the widths of the receptive fields and on the odds of the responses. *)
From Coq Require Import Lra Lia.
From Verif Require Import Base L_Base M_Mapper M_Gss S_Gss L_Gss L_Gss2.
Local Open Scope R_scope.

Lemma step_nth i : (i < 31)%nat -> nth i steps 0 = 0.009 * Rpower (0.12 / 0.009) (INR i / 30).
Proof.
  intros H. unfold steps. rewrite (nth_indep _ 0 (exp (ln emin + INR 0 * ((ln emax - ln emin) / 30)))) by now rewrite map_length, seq_length.
  rewrite (map_nth (fun i => exp (ln emin + INR i * ((ln emax - ln emin) / 30)))), seq_nth by lia. cbn [Nat.add].
  unfold emin, emax, Rpower. rewrite exp_plus, exp_ln by lra. f_equal. f_equal. unfold Rdiv at 3. rewrite ln_mult, ln_Rinv by lra. field.
Qed.
Lemma step_ratio i : (i < 30)%nat -> nth (S i) steps 0 / nth i steps 0 = Rpower (0.12 / 0.009) (1 / 30).
Proof.
  intros H. rewrite !step_nth, S_INR by lia.
  replace ((INR i + 1) / 30) with (INR i / 30 + 1 / 30) by field. rewrite Rpower_plus. 
  assert (0 < Rpower (0.12 / 0.009) (INR i / 30)) by apply exp_pos. field. lra.
Qed.
Lemma logistic u : / (1 + exp u) / (1 - / (1 + exp u)) = exp (- u).
Proof. assert (H := exp_pos u). rewrite exp_Ropp. field. lra. Qed.
Lemma response_odds r : let p := normalized_field_response true r in
  fst p / (1 - fst p) = exp (22 * (r - 0.25)) /\ snd p / (1 - snd p) = exp (- (22 * (r + 0.25))).
Proof.
  cbn [normalized_field_response fst snd]. unfold fr_a, fr_b, Rdiv. rewrite !Rmult_1_l.
  split; (eapply eq_trans; [apply logistic|]); f_equal; ring.
Qed.
Lemma cone_odds e_r e_a v : 0 < e_r -> 0 <= e_a -> cone_response e_r e_a = Ok v ->
  v / (1 - v) = Rpower (e_r / half_saturation e_a) 0.74.
Proof.
  intros Hr Ha. unfold cone_response. case_Rltb e_r 0; [lra|]. intros [= <-].
  pose proof (half_sat_pos e_a Ha) as S. destruct (pow0_pos e_r 0.74 Hr) as [E1 P1]. destruct (pow0_pos _ 0.74 S) as [E2 P2].
  set (x := pow0 e_r 0.74) in *. set (y := pow0 (half_saturation e_a) 0.74) in *.
  transitivity (x / y); [field; split; lra|]. rewrite E1, E2.
  unfold Rdiv. rewrite <- Rpower_mult_distr by (try assumption; now apply Rinv_0_lt_compat). f_equal.
  unfold Rpower. rewrite ln_Rinv by exact S. rewrite <- exp_Ropp. f_equal. ring.
Qed.
