(** Rational lower bounds of the exponential, computed with whole numbers. *)
From Coq Require Import Lra Lia Psatz ZArith Reals.
From Verif Require Import Base L_Base.
Local Open Scope R_scope.

Definition zsc : Z := (10 ^ 15)%Z.
Definition rz (a : Z) : R := IZR a / IZR zsc.
Lemma zsc_pos : 0 < IZR zsc.
Proof. apply IZR_lt. reflexivity. Qed.
Lemma div_low a b : (0 < b)%Z -> IZR (a / b) * IZR b <= IZR a.
Proof. intros H. rewrite <- mult_IZR. apply IZR_le. pose proof (Z.mul_div_le a b H). lia. Qed.
Definition sqz (a : Z) : Z := (a * a / zsc)%Z.
Lemma sqz_low a t : (0 <= a)%Z -> rz a <= exp t -> (0 <= sqz a)%Z /\ rz (sqz a) <= exp (t + t).
Proof.
  intros H L. split; [apply Z.div_pos; [nia|reflexivity]|]. pose proof zsc_pos as P.
  pose proof (div_low (a * a) zsc ltac:(reflexivity)) as D. fold (sqz a) in D. rewrite mult_IZR in D.
  rewrite exp_plus. apply IZR_le in H. unfold rz in *.
  assert (0 <= IZR a / IZR zsc) as N by (apply Rmult_le_pos; [lra|left; apply Rinv_0_lt_compat; lra]).
  apply Rle_trans with (IZR a / IZR zsc * (IZR a / IZR zsc)); [|apply Rmult_le_compat; lra].
  apply (Rmult_le_reg_r (IZR zsc * IZR zsc)); [nra|].
  replace (IZR (sqz a) / IZR zsc * (IZR zsc * IZR zsc)) with (IZR (sqz a) * IZR zsc) by (field; lra).
  replace (IZR a / IZR zsc * (IZR a / IZR zsc) * (IZR zsc * IZR zsc)) with (IZR a * IZR a) by (field; lra). exact D.
Qed.
Fixpoint sqn (n : nat) (a : Z) : Z := match n with O => a | S m => sqn m (sqz a) end.
Lemma sqn_low n : forall a t, (0 <= a)%Z -> rz a <= exp t -> (0 <= sqn n a)%Z /\ rz (sqn n a) <= exp (2 ^ n * t).
Proof.
  induction n as [|n IH]; intros a t H L; [simpl; replace (1 * t) with t by ring; now split|].
  destruct (sqz_low a t H L) as [A B]. destruct (IH _ _ A B) as [C D]. split; [exact C|].
  cbn [sqn pow]. replace (2 * 2 ^ n * t) with (2 ^ n * (t + t)) by ring. exact D.
Qed.
(** a lower bound of [exp (y / zsc)] *)
Definition elz (y : Z) : Z := sqn 20 (Z.max 0 (zsc + y / 2 ^ 20)).
Lemma exp_ge1 t : 1 + t <= exp t.
Proof. destruct (Req_dec t 0) as [->|N]; [rewrite exp_0; lra|]. left. now apply exp_ineq1. Qed.
Lemma elz_low y : (0 <= elz y)%Z /\ rz (elz y) <= exp (rz y).
Proof.
  unfold elz. destruct (sqn_low 20 (Z.max 0 (zsc + y / 2 ^ 20)) (rz y / 2 ^ 20)) as [A B].
  - lia.
  - destruct (Z.max_spec 0 (zsc + y / 2 ^ 20)) as [[_ E]|[_ E]]; rewrite E.
    + eapply Rle_trans; [|apply exp_ge1]. unfold rz. pose proof zsc_pos as P. pose proof (div_low y (2 ^ 20) ltac:(reflexivity)) as D.
      rewrite plus_IZR. replace (IZR (2 ^ 20)) with (2 ^ 20) in D by (change (2 ^ 20)%Z with 1048576%Z; simpl; ring).
      assert (0 < 2 ^ 20) as Q by (apply pow_lt; lra). set (w := IZR (y / 2 ^ 20)) in *. clearbody w. set (m := 2 ^ 20) in *. clearbody m.
      replace ((IZR zsc + w) / IZR zsc) with (1 + w / IZR zsc) by (field; lra). apply Rplus_le_compat_l.
      apply (Rmult_le_reg_r (IZR zsc * m)); [nra|]. replace (w / IZR zsc * (IZR zsc * m)) with (w * m) by (field; lra).
      replace (IZR y / IZR zsc / m * (IZR zsc * m)) with (IZR y) by (field; lra). exact D.
    + unfold rz. replace (0 / IZR zsc) with 0 by (unfold Rdiv; ring). left. apply exp_pos.
  - split; [exact A|]. replace (2 ^ 20 * (rz y / 2 ^ 20)) with (rz y) in B by (field; apply pow_nonzero; lra). exact B.
Qed.
(** an upper bound of [exp (y / zsc)], where the lower bound of [exp (- y / zsc)] is not nought *)
Definition euz (y : Z) : Z := (zsc * zsc / elz (- y) + 1)%Z.
Lemma rz_opp y : rz (- y) = - rz y.
Proof. unfold rz. rewrite opp_IZR. unfold Rdiv. ring. Qed.
Lemma inv_high (l d : Z) (e sc : R) : 0 < sc -> 0 < e -> 0 < IZR l -> sc * sc <= IZR d * IZR l -> IZR l / sc <= / e -> e <= IZR d / sc.
Proof.
  intros P X H D B. apply (Rmult_le_compat_r (e * sc)) in B; [|nra]. replace (IZR l / sc * (e * sc)) with (IZR l * e) in B by (field; lra).
  replace (/ e * (e * sc)) with sc in B by (field; lra).
  apply (Rmult_le_reg_r (IZR l * sc)); [nra|]. replace (IZR d / sc * (IZR l * sc)) with (IZR d * IZR l) by (field; lra).
  apply Rle_trans with (sc * sc); [|exact D]. replace (e * (IZR l * sc)) with (IZR l * e * sc) by ring. nra.
Qed.
Lemma div_up a b : (0 < b)%Z -> IZR a <= IZR (a / b + 1) * IZR b.
Proof. intros H. rewrite <- mult_IZR. apply IZR_le. pose proof (Z.mul_succ_div_gt a b H). nia. Qed.
Lemma euz_high y : (0 < elz (- y))%Z -> exp (rz y) <= rz (euz y).
Proof.
  intros H. destruct (elz_low (- y)) as [_ B]. rewrite rz_opp, exp_Ropp in B.
  apply (inv_high (elz (- y)) _ _ (IZR zsc) zsc_pos (exp_pos _)); [now apply IZR_lt| |exact B].
  rewrite <- mult_IZR. now apply div_up.
Qed.
Lemma rz_le a b : (a <= b)%Z -> rz a <= rz b.
Proof. intros H. apply IZR_le in H. unfold rz. pose proof zsc_pos. apply Rmult_le_compat_r; [left; now apply Rinv_0_lt_compat|exact H]. Qed.
Lemma rz_lt a b : (a < b)%Z -> rz a < rz b.
Proof. intros H. apply IZR_lt in H. unfold rz. pose proof zsc_pos. apply Rmult_lt_compat_r; [now apply Rinv_0_lt_compat|exact H]. Qed.
Lemma exp_le u v : u <= v -> exp u <= exp v.
Proof. intros [L|L]; [left; now apply exp_increasing|subst; lra]. Qed.
(** one bound for a given number *)
Lemma exp_above y b : Z.leb b (elz y) = true -> rz b <= exp (rz y).
Proof. intros H. apply Z.leb_le in H. eapply Rle_trans; [apply rz_le; exact H|apply elz_low]. Qed.
Lemma exp_below y b : andb (Z.ltb 0 (elz (- y))) (Z.leb (euz y) b) = true -> exp (rz y) <= rz b.
Proof. intros H. apply andb_prop in H as [H1 H2]. apply Z.ltb_lt in H1. apply Z.leb_le in H2. eapply Rle_trans; [now apply euz_high|now apply rz_le]. Qed.
