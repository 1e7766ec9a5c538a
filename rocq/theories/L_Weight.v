(** Lemmas on the position weighting of the score. *)
From Coq Require Import Lra Lia.
From Verif Require Import Base L_Base M_Mapper M_Gss S_Gss L_Gss L_Gss2.
Local Open Scope R_scope.

(** a polynomial of degree 7, its derivative, and the derivative about another point *)
Definition poly7 (a0 a1 a2 a3 a4 a5 a6 a7 x : R) : R :=
  a0 + x * (a1 + x * (a2 + x * (a3 + x * (a4 + x * (a5 + x * (a6 + x * a7)))))).
Definition slope7 (a1 a2 a3 a4 a5 a6 a7 x : R) : R :=
  a1 + x * (2 * a2 + x * (3 * a3 + x * (4 * a4 + x * (5 * a5 + x * (6 * a6 + x * (7 * a7)))))).
Lemma horner_step f c x l : derivable_pt_lim f x l -> derivable_pt_lim (fun y => c + y * f y) x (f x + x * l).
Proof.
  intros H. replace (f x + x * l) with (0 + (1 * f x + x * l)) by ring.
  apply (derivable_pt_lim_plus (fun _ => c) (fun y => y * f y)); [apply derivable_pt_lim_const|].
  apply (derivable_pt_lim_mult (fun y => y) f); [apply derivable_pt_lim_id|exact H].
Qed.
Lemma poly7_slope a0 a1 a2 a3 a4 a5 a6 a7 x :
  derivable_pt_lim (poly7 a0 a1 a2 a3 a4 a5 a6 a7) x (slope7 a1 a2 a3 a4 a5 a6 a7 x).
Proof.
  unfold poly7. eassert (D : derivable_pt_lim _ x _).
  { apply (horner_step (fun x => a1 + x * (a2 + x * (a3 + x * (a4 + x * (a5 + x * (a6 + x * a7)))))) a0).
    apply (horner_step (fun x => a2 + x * (a3 + x * (a4 + x * (a5 + x * (a6 + x * a7)))))).
    apply (horner_step (fun x => a3 + x * (a4 + x * (a5 + x * (a6 + x * a7))))).
    apply (horner_step (fun x => a4 + x * (a5 + x * (a6 + x * a7)))).
    apply (horner_step (fun x => a5 + x * (a6 + x * a7))).
    apply (horner_step (fun x => a6 + x * a7)).
    apply (horner_step (fun x => a7)).
    apply derivable_pt_lim_const. }
  match type of D with derivable_pt_lim _ _ ?v => replace (slope7 a1 a2 a3 a4 a5 a6 a7 x) with v end; [exact D|].
  unfold slope7. ring.
Qed.
Lemma slope7_shift a1 a2 a3 a4 a5 a6 a7 l s : slope7 a1 a2 a3 a4 a5 a6 a7 (l + s) =
  (1 * a1 + 2 * a2 * l ^ 1 + 3 * a3 * l ^ 2 + 4 * a4 * l ^ 3 + 5 * a5 * l ^ 4 + 6 * a6 * l ^ 5 + 7 * a7 * l ^ 6) + s * ((2 * a2 + 6 * a3 * l ^ 1 + 12 * a4 * l ^ 2 + 20 * a5 * l ^ 3 + 30 * a6 * l ^ 4 + 42 * a7 * l ^ 5) + s * ((3 * a3 + 12 * a4 * l ^ 1 + 30 * a5 * l ^ 2 + 60 * a6 * l ^ 3 + 105 * a7 * l ^ 4) + s * ((4 * a4 + 20 * a5 * l ^ 1 + 60 * a6 * l ^ 2 + 140 * a7 * l ^ 3) + s * ((5 * a5 + 30 * a6 * l ^ 1 + 105 * a7 * l ^ 2) + s * ((6 * a6 + 42 * a7 * l ^ 1) + s * ((7 * a7))))))).
Proof. unfold slope7. ring. Qed.
Lemma bound_step d s w e E E' : 0 <= s <= w -> e <= E -> d + w * E <= E' -> d <= E' -> d + s * e <= E'.
Proof. intros. destruct (Rle_dec 0 E); nra. Qed.

Definition wslope : R -> R := slope7 2.28728777265947 (- 104.614198351476) (- 275.450102180091) 1587.82553529394 (- 2570.6813747583033) 1837.1741161137818 (- 499.849190278).
Lemma wslope_0 x : 117 / 10000 <= x <= 2117 / 10000 -> wslope x < 0.
Proof.
  intros H. unfold wslope. replace x with (117 / 10000 + (x - 117 / 10000)) by ring. rewrite slope7_shift.
  set (s := x - 117 / 10000) in *. assert (S : 0 <= s <= 1 / 5) by (unfold s; lra). clearbody s. apply Rle_lt_trans with (- 1319 / 5000); [|lra].
  apply (bound_step _ _ (1 / 5) _ (- 591043 / 5000)); [exact S| |lra|lra].
  apply (bound_step _ _ (1 / 5) _ (539147 / 1000)); [exact S| |lra|lra].
  apply (bound_step _ _ (1 / 5) _ (57647401 / 10000)); [exact S| |lra|lra].
  apply (bound_step _ _ (1 / 5) _ (- 20120519 / 2000)); [exact S| |lra|lra].
  apply (bound_step _ _ (1 / 5) _ (107774189 / 10000)); [exact S| |lra|lra].
  apply (bound_step _ _ (1 / 5) _ (- 34989443 / 10000)); [exact S| |lra|lra].
  lra.
Qed.
Lemma wslope_1 x : 2117 / 10000 <= x <= 4117 / 10000 -> wslope x < 0.
Proof.
  intros H. unfold wslope. replace x with (2117 / 10000 + (x - 2117 / 10000)) by ring. rewrite slope7_shift.
  set (s := x - 2117 / 10000) in *. assert (S : 0 <= s <= 1 / 5) by (unfold s; lra). clearbody s. apply Rle_lt_trans with (- 6161 / 200); [|lra].
  apply (bound_step _ _ (1 / 5) _ (471047 / 10000)); [exact S| |lra|lra].
  apply (bound_step _ _ (1 / 5) _ (1382967 / 2000)); [exact S| |lra|lra].
  apply (bound_step _ _ (1 / 5) _ (- 2567181 / 10000)); [exact S| |lra|lra].
  apply (bound_step _ _ (1 / 5) _ (- 22219539 / 10000)); [exact S| |lra|lra].
  apply (bound_step _ _ (1 / 5) _ (65786857 / 10000)); [exact S| |lra|lra].
  apply (bound_step _ _ (1 / 5) _ (- 34989443 / 10000)); [exact S| |lra|lra].
  lra.
Qed.
Lemma wslope_2 x : 4117 / 10000 <= x <= 6117 / 10000 -> wslope x < 0.
Proof.
  intros H. unfold wslope. replace x with (4117 / 10000 + (x - 4117 / 10000)) by ring. rewrite slope7_shift.
  set (s := x - 4117 / 10000) in *. assert (S : 0 <= s <= 1 / 5) by (unfold s; lra). clearbody s. apply Rle_lt_trans with (- 69743 / 5000); [|lra].
  apply (bound_step _ _ (1 / 5) _ (56723 / 500)); [exact S| |lra|lra].
  apply (bound_step _ _ (1 / 5) _ (1307269 / 10000)); [exact S| |lra|lra].
  apply (bound_step _ _ (1 / 5) _ (- 3658521 / 5000)); [exact S| |lra|lra].
  apply (bound_step _ _ (1 / 5) _ (1772023 / 1250)); [exact S| |lra|lra].
  apply (bound_step _ _ (1 / 5) _ (951981 / 400)); [exact S| |lra|lra].
  apply (bound_step _ _ (1 / 5) _ (- 34989443 / 10000)); [exact S| |lra|lra].
  lra.
Qed.
Lemma wslope_3 x : 6117 / 10000 <= x <= 8117 / 10000 -> wslope x < 0.
Proof.
  intros H. unfold wslope. replace x with (6117 / 10000 + (x - 6117 / 10000)) by ring. rewrite slope7_shift.
  set (s := x - 6117 / 10000) in *. assert (S : 0 <= s <= 1 / 5) by (unfold s; lra). clearbody s. apply Rle_lt_trans with (- 39913 / 5000); [|lra].
  apply (bound_step _ _ (1 / 5) _ (602177 / 10000)); [exact S| |lra|lra].
  apply (bound_step _ _ (1 / 5) _ (- 355321 / 5000)); [exact S| |lra|lra].
  apply (bound_step _ _ (1 / 5) _ (3746671 / 10000)); [exact S| |lra|lra].
  apply (bound_step _ _ (1 / 5) _ (6111069 / 5000)); [exact S| |lra|lra].
  apply (bound_step _ _ (1 / 5) _ (- 18187807 / 10000)); [exact S| |lra|lra].
  apply (bound_step _ _ (1 / 5) _ (- 34989443 / 10000)); [exact S| |lra|lra].
  lra.
Qed.
Lemma wslope_4 x : 8117 / 10000 <= x <= 1 / 1 -> wslope x < 0.
Proof.
  intros H. unfold wslope. replace x with (8117 / 10000 + (x - 8117 / 10000)) by ring. rewrite slope7_shift.
  set (s := x - 8117 / 10000) in *. assert (S : 0 <= s <= 1883 / 10000) by (unfold s; lra). clearbody s. apply Rle_lt_trans with (- 6233 / 1250); [|lra].
  apply (bound_step _ _ (1883 / 10000) _ (176441 / 5000)); [exact S| |lra|lra].
  apply (bound_step _ _ (1883 / 10000) _ (- 40089 / 10000)); [exact S| |lra|lra].
  apply (bound_step _ _ (1883 / 10000) _ (- 1793481 / 10000)); [exact S| |lra|lra].
  apply (bound_step _ _ (1883 / 10000) _ (- 3369917 / 1250)); [exact S| |lra|lra].
  apply (bound_step _ _ (1883 / 10000) _ (- 60175139 / 10000)); [exact S| |lra|lra].
  apply (bound_step _ _ (1883 / 10000) _ (- 34989443 / 10000)); [exact S| |lra|lra].
  lra.
Qed.
Lemma wslope_neg x : 117 / 10000 <= x <= 1 -> wslope x < 0.
Proof.
  intros H.
  destruct (Rle_dec x (2117 / 10000)); [apply wslope_0; lra|].
  destruct (Rle_dec x (4117 / 10000)); [apply wslope_1; lra|].
  destruct (Rle_dec x (6117 / 10000)); [apply wslope_2; lra|].
  destruct (Rle_dec x (8117 / 10000)); [apply wslope_3; lra|].
  apply wslope_4; lra.
Qed.
Lemma weight_poly ecc : weight ecc = poly7 33.12797281708 2.28728777265947 (- 104.614198351476) (- 275.450102180091) 1587.82553529394 (- 2570.6813747583033) 1837.1741161137818 (- 499.849190278) ((ecc - 0.009) / (0.12 - 0.009)).
Proof. unfold weight, poly7. cbv zeta. ring. Qed.
Lemma weight_falls a b : 0.0103 <= a -> a < b -> b <= 0.12 -> weight b < weight a.
Proof.
  intros Ha Hab Hb. rewrite !weight_poly.
  set (x := (a - 0.009) / (0.12 - 0.009)). set (y := (b - 0.009) / (0.12 - 0.009)).
  assert (X : 117 / 10000 <= x /\ x < y /\ y <= 1) by (unfold x, y; lra). clearbody x y. destruct X as (X & XY & Y).
  destruct (MVT_cor2 (poly7 33.12797281708 2.28728777265947 (- 104.614198351476) (- 275.450102180091) 1587.82553529394 (- 2570.6813747583033) 1837.1741161137818 (- 499.849190278)) wslope x y XY (fun c _ => poly7_slope _ _ _ _ _ _ _ _ c)) as (c & E & C).
  pose proof (wslope_neg c ltac:(lra)). nra.
Qed.
Lemma weight_start a : 0.009 <= a <= 0.0103 -> 33.127 <= weight a <= 33.141.
Proof.
  intros Ha. rewrite weight_poly. set (x := (a - 0.009) / (0.12 - 0.009)).
  assert (X : 0 <= x <= 0.01172) by (unfold x; lra). clearbody x. unfold poly7.
  set (t := 1587.82553529394 + x * (- 2570.6813747583033 + x * (1837.1741161137818 + x * - 499.849190278))).
  assert (T : 0 <= t <= 1600) by (unfold t; clear t; nra). clearbody t.
  set (u := - 275.450102180091 + x * t). assert (U : -280 <= u <= -250) by (unfold u; nra). clearbody u.
  set (v := - 104.614198351476 + x * u). assert (V : -108 <= v <= -104.614) by (unfold v; nra). clearbody v.
  pose proof (Rle_0_sqr (x - 0.0109)) as Q. unfold Rsqr in Q. split; nra.
Qed.
Lemma weight_nearly a b : 0.009 <= a -> a < b -> b <= 0.12 -> weight b <= 1.0005 * weight a.
Proof.
  intros Ha Hab Hb. destruct (Rle_dec 0.0103 a) as [H|H].
  - pose proof (weight_falls a b H Hab Hb). pose proof (weight_range a ltac:(unfold emin, emax; lra)). lra.
  - pose proof (weight_start a ltac:(lra)) as A. destruct (Rle_dec b 0.0103) as [B|B].
    + pose proof (weight_start b ltac:(lra)). lra.
    + pose proof (weight_falls 0.0103 b ltac:(lra) ltac:(lra) Hb). pose proof (weight_start 0.0103 ltac:(lra)). lra.
Qed.
Lemma weight_ends : weight 0.009 = 33.12797281708 /\ Rabs (weight 0.12 - 9.82) < 0.0001.
Proof. rewrite !weight_poly. unfold poly7. split; [lra|]. apply Rabs_def1; lra. Qed.
Lemma weight_rises : weight 0.009 < weight 0.01.
Proof. rewrite !weight_poly. unfold poly7. lra. Qed.
Lemma gss_falls r_g omega a b : 0 < gss_raw r_g omega -> 0.0103 <= a -> a < b -> b <= 0.12 -> gss false b r_g omega < gss false a r_g omega.
Proof. intros P Ha Hab Hb. unfold gss. apply Rmult_lt_compat_l; [exact P|]. now apply weight_falls. Qed.
Lemma gss_nearly r_g omega a b : 0.009 <= a -> a < b -> b <= 0.12 -> gss false b r_g omega <= 1.0005 * gss false a r_g omega.
Proof.
  intros Ha Hab Hb. unfold gss. pose proof (gss_raw_nonneg r_g omega) as P. pose proof (weight_nearly a b Ha Hab Hb) as W.
  pose proof (Rmult_le_compat_l _ _ _ P W). lra.
Qed.
Lemma gss_rises r_g omega : 0 < gss_raw r_g omega -> gss false 0.009 r_g omega < gss false 0.01 r_g omega.
Proof. intros P. unfold gss. apply Rmult_lt_compat_l; [exact P|apply weight_rises]. Qed.
Lemma raw_pos p w : 0 < fst p -> 0 < w -> 0 < gss_raw [p] [w].
Proof.
  intros P W. unfold gss_raw, Rsumf. cbn [combine map Rsum fold_right fst snd].
  apply pow0_pos. assert (0 < fst p ^ 4) by now apply pow_lt. pose proof (pow4_nonneg (snd p)). nra.
Qed.
