(** Lemmas on the light scattered in the eye. *)
From Coq Require Import Lra Lia.
From Verif Require Import Base L_Base M_Mapper M_Gss S_Gss L_Gss L_Gss2.
Local Open Scope R_scope.

Lemma widths_below age pigment pupd : 0 <= age <= 100 -> 0 < pigment < 1 -> 1 / 4 <= pupd <= 100 ->
  exists b1 b2 b3, fst (psf_coef age pigment pupd) = [b1; b2; b3; 1] /\ b1 < 1 /\ b2 < 1 /\ b3 < 1.
Proof.
  intros Ha Hp Hd. unfold psf_coef. cbv zeta. cbn [fst].
  pose proof (agefactor_ge_1 age) as Hl.
  assert (1 + (age / 70) ^ 4 <= 9) as Hu.
  { assert (0 <= age / 70 <= 1.5) as B by lra. set (t := age / 70) in *. clearbody t.
    replace (t ^ 4) with ((t * t) * (t * t)) by ring. assert (0 <= t * t <= 2.25) by nra. nra. }
  set (af := 1 + (age / 70) ^ 4) in *. clearbody af.
  assert (1 <= sqrt af <= 3) as Hs.
  { split; [rewrite <- sqrt_1; now apply sqrt_le_1_alt|]. replace 3 with (sqrt (3 * 3)) by (rewrite sqrt_square; lra).
    apply sqrt_le_1_alt. lra. }
  set (s := sqrt af) in *. clearbody s.
  set (b := 9000 - 936 * s). assert (6192 <= b) as Hb by (unfold b; lra). clearbody b.
  assert (1548 <= b * pupd) as Hbp by nra.
  assert (0 < 1 / af <= 1) as A.
  { split; [apply Rdiv_lt_0_compat; lra|]. apply (Rmult_le_reg_r af); [lra|]. unfold Rdiv. rewrite Rmult_assoc, Rinv_l by lra. lra. }
  do 3 eexists. split; [reflexivity|].
  assert (0 < 1 / (b * pupd)) as Q by (apply Rdiv_lt_0_compat; lra).
  split; [|split].
  - apply (Rmult_lt_reg_r (b * pupd)); [lra|]. unfold Rdiv at 1. rewrite Rmult_assoc, Rinv_l by lra. unfold square. nra.
  - assert (1 / pupd <= 4) as V by (apply (Rmult_le_reg_r pupd); [lra|]; unfold Rdiv; rewrite Rmult_assoc, Rinv_l by lra; lra).
    assert (0 < 1 / pupd) as V0 by (apply Rdiv_lt_0_compat; lra).
    replace (3.2 / pupd) with (3.2 * (1 / pupd)) by (field; lra). set (v := 1 / pupd) in *. clearbody v.
    set (q := 1 / (b * pupd)) in *. clearbody q.
    assert (0 <= square (3.2 * v) <= 164) as S by (unfold square; nra). set (w := square (3.2 * v)) in *. clearbody w. nra.
  - apply (Rmult_lt_reg_r (10 + 60 * pigment - 5 / af)); [unfold Rdiv in *; lra|]. unfold Rdiv at 1. rewrite Rmult_assoc, Rinv_l by (unfold Rdiv in *; lra).
    unfold Rdiv in *. lra.
Qed.

(** the denominators grow with the angle *)
Definition spot (b phi : R) : R := square (sin phi) + square b * square (cos phi).
Lemma spot_form b phi : spot b phi = square b + (1 - square b) * square (sin phi).
Proof. unfold spot, square. pose proof (sin2_cos2 phi) as E. unfold Rsqr in E. replace (cos phi * cos phi) with (1 - sin phi * sin phi) by lra. ring. Qed.
Lemma sin_grows p q : 0 <= p < q -> q <= PI / 2 -> square (sin p) < square (sin q).
Proof.
  intros H Hq. pose proof PI_RGT_0. assert (sin p < sin q) by (apply sin_increasing_1; lra).
  assert (0 <= sin p) by (apply sin_ge_0; lra). unfold square. nra.
Qed.
Lemma spot_pos b phi : 0 < b <= 1 -> 0 < spot b phi.
Proof. intros H. rewrite spot_form. assert (0 <= square (sin phi)) by (unfold square; nra). assert (0 < square b <= 1) by (unfold square; nra). set (t := square (sin phi)) in *. set (d := square b) in *. clearbody t d. nra. Qed.
Lemma spot_le b p q : 0 < b <= 1 -> 0 <= p < q -> q <= PI / 2 -> spot b p <= spot b q.
Proof. intros H Hp Hq. rewrite !spot_form. pose proof (sin_grows p q Hp Hq). assert (0 <= 1 - square b) by (unfold square; nra). nra. Qed.
Lemma spot_lt b p q : 0 < b < 1 -> 0 <= p < q -> q <= PI / 2 -> spot b p < spot b q.
Proof. intros H Hp Hq. rewrite !spot_form. pose proof (sin_grows p q Hp Hq). assert (0 < 1 - square b) by (unfold square; nra). nra. Qed.
Lemma spot_even b phi : spot b (- phi) = spot b phi.
Proof. unfold spot, square. rewrite sin_neg, cos_neg. ring. Qed.

Lemma quot_lt a x y : 0 < a -> 0 < x -> x < y -> a / y < a / x.
Proof. intros A X Y. unfold Rdiv. apply Rmult_lt_compat_l; [exact A|]. apply Rinv_lt_contravar; [nra|exact Y]. Qed.
Lemma quot_le a x y : 0 < a -> 0 < x -> x <= y -> a / y <= a / x.
Proof. intros A X [Y| ->]; [left; now apply quot_lt|lra]. Qed.
Lemma power_lt x y : 0 < x < y -> 0 < Rpower x 1.5 < Rpower y 1.5.
Proof. intros H. split; [apply exp_pos|]. unfold Rpower. apply exp_increasing. pose proof (ln_increasing x y). lra. Qed.
Definition falls (f : R -> R -> R -> R) : Prop := forall b c p q, 0 < b -> 0 < c -> 0 <= p < q -> q <= PI / 2 ->
  (b <= 1 -> f b c q <= f b c p) /\ (b < 1 -> f b c q < f b c p).
Lemma f_b_falls : falls f_b.
Proof.
  intros b c p q B C P Q. pose proof PI_RGT_0 as HPI. unfold f_b. change (square (sin ?x) + square b * square (cos ?x)) with (spot b x).
  assert (BC : 0 < c * b) by nra.
  assert (D : forall x, 0 < 2 * PI * Rpower (spot b x) 1.5) by (intros x; pose proof (exp_pos (1.5 * ln (spot b x))); unfold Rpower; nra).
  split; intros B1.
  - destruct (spot_le b p q ltac:(lra) P Q) as [L|E]; [|rewrite E; lra].
    apply quot_le; [exact BC|apply D|]. destruct (power_lt _ _ (conj (spot_pos b p ltac:(lra)) L)). nra.
  - pose proof (spot_lt b p q ltac:(lra) P Q) as L.
    apply quot_lt; [exact BC|apply D|]. destruct (power_lt _ _ (conj (spot_pos b p ltac:(lra)) L)). nra.
Qed.
Lemma l_b_falls : falls l_b.
Proof.
  intros b c p q B C P Q. pose proof PI_RGT_0 as HPI. unfold l_b. change (square (sin ?x) + square b * square (cos ?x)) with (spot b x).
  assert (BC : 0 < c * b) by nra.
  split; intros B1.
  - pose proof (spot_le b p q ltac:(lra) P Q). pose proof (spot_pos b p ltac:(lra)). apply quot_le; [exact BC|nra|nra].
  - pose proof (spot_lt b p q ltac:(lra) P Q). pose proof (spot_pos b p ltac:(lra)). apply quot_lt; [exact BC|nra|nra].
Qed.
Lemma spread_falls f age pigment pupd p q : falls f -> 0 <= age <= 100 -> 0 < pigment < 1 -> 1 / 4 <= pupd <= 100 ->
  0 <= p < q -> q <= PI / 2 -> spread f (psf_coef age pigment pupd) q < spread f (psf_coef age pigment pupd) p.
Proof.
  intros F Ha Hg Hd P Q.
  destruct (widths_below age pigment pupd Ha Hg Hd) as (b1 & b2 & b3 & E & B1 & B2 & B3).
  pose proof (bs_spec age pigment pupd Ha Hg (proj1 Hd)) as PB. destruct (cs_spec age pigment pupd Hg ltac:(lra)) as (PC & _ & LC).
  unfold spread. rewrite E in *. destruct (snd (psf_coef age pigment pupd)) as [|c1 [|c2 [|c3 [|c4 [|? ?]]]]]; try discriminate LC.
  repeat match goal with H : Forall _ (_ :: _) |- _ => inversion H; clear H; subst end.
  unfold Rsumf. cbn [combine map Rsum fold_right fst snd].
  destruct (F b1 c1 p q) as [_ F1]; try assumption. destruct (F b2 c2 p q) as [_ F2]; try assumption.
  destruct (F b3 c3 p q) as [_ F3]; try assumption. destruct (F 1 c4 p q) as [F4 _]; try assumption.
  specialize (F1 B1). specialize (F2 B2). specialize (F3 B3). specialize (F4 (Rle_refl 1)). lra.
Qed.
Lemma spread_even age pigment pupd phi :
  spread f_b (psf_coef age pigment pupd) (- phi) = spread f_b (psf_coef age pigment pupd) phi /\
  spread l_b (psf_coef age pigment pupd) (- phi) = spread l_b (psf_coef age pigment pupd) phi.
Proof.
  split; unfold spread, Rsumf; f_equal; apply map_ext; intros bc.
  - unfold f_b. change (square (sin ?x) + square ?b * square (cos ?x)) with (spot b x). now rewrite spot_even.
  - unfold l_b. change (square (sin ?x) + square ?b * square (cos ?x)) with (spot b x). now rewrite spot_even.
Qed.

(** the part of the light in the two wide components *)
Lemma wide_form age pigment pupd : 0 < pigment < 1 ->
  nth 2 (snd (psf_coef age pigment pupd)) 0 + nth 3 (snd (psf_coef age pigment pupd)) 0 = 1 / (1 + (1 / pigment - 1) / (1 + (age / 70) ^ 4)).
Proof. intros H. unfold psf_coef. cbv zeta. cbn [snd nth]. ring. Qed.
Lemma wide_pos pigment : 0 < pigment < 1 -> 0 < 1 / pigment - 1.
Proof. intros H. assert (1 < 1 / pigment); [|lra]. apply (Rmult_lt_reg_r pigment); [lra|]. unfold Rdiv. rewrite Rmult_assoc, Rinv_l by lra. lra. Qed.
Lemma wide_age a1 a2 pigment pupd : 0 <= a1 < a2 -> 0 < pigment < 1 ->
  nth 2 (snd (psf_coef a1 pigment pupd)) 0 + nth 3 (snd (psf_coef a1 pigment pupd)) 0 <
  nth 2 (snd (psf_coef a2 pigment pupd)) 0 + nth 3 (snd (psf_coef a2 pigment pupd)) 0.
Proof.
  intros Ha Hp. rewrite !wide_form by exact Hp. pose proof (wide_pos pigment Hp). pose proof (agefactor_ge_1 a1). pose proof (agefactor_ge_1 a2).
  assert ((a1 / 70) ^ 4 < (a2 / 70) ^ 4).
  { assert (0 <= a1 / 70 < a2 / 70) as B by lra. set (x := a1 / 70) in *. set (y := a2 / 70) in *. clearbody x y.
    replace (x ^ 4) with ((x * x) * (x * x)) by ring. replace (y ^ 4) with ((y * y) * (y * y)) by ring. assert (x * x < y * y) by nra. nra. }
  set (u := 1 + (a1 / 70) ^ 4) in *. set (w := 1 + (a2 / 70) ^ 4) in *. set (k := 1 / pigment - 1) in *.
  assert (u < w) by (unfold u, w; lra). clearbody u w k.
  assert (0 < k / w) by (apply Rdiv_lt_0_compat; lra). pose proof (quot_lt k u w). apply quot_lt; lra.
Qed.
Lemma wide_pigment age p1 p2 pupd : 0 < p1 < p2 -> p2 < 1 ->
  nth 2 (snd (psf_coef age p1 pupd)) 0 + nth 3 (snd (psf_coef age p1 pupd)) 0 <
  nth 2 (snd (psf_coef age p2 pupd)) 0 + nth 3 (snd (psf_coef age p2 pupd)) 0.
Proof.
  intros Hp H1. rewrite !wide_form by lra. pose proof (wide_pos p2 ltac:(lra)). pose proof (agefactor_ge_1 age) as A.
  pose proof (quot_lt 1 p1 p2 ltac:(lra) ltac:(lra) ltac:(lra)).
  set (u := 1 + (age / 70) ^ 4) in *. set (k := 1 / p1 - 1) in *. set (l := 1 / p2 - 1) in *. assert (l < k) by (unfold k, l; lra). clearbody u k l.
  assert (0 < / u) by (apply Rinv_0_lt_compat; lra). unfold Rdiv at 2 4. apply quot_lt; nra.
Qed.
