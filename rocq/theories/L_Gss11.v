(** The part of the point spread function within the window is at most 1. *)
From Coq Require Import Lra Lia Psatz.
From Verif Require Import Base L_Base L_Trig M_Translate S_Translate L_Angles M_Mapper S_Mapper L_Mapper L_Draw M_Io L_Io M_Gss S_Gss L_Gss L_Gss2 L_Gss3 L_Gss4 L_Gss5 L_Gss6 L_Gss8 L_Gss9.
Local Open Scope R_scope.

(** * One component of the line spread function *)
Definition prim (b c x : R) : R := c / PI * atan (/ b * tan x).
Lemma prim_deriv b c x : 0 < b -> - PI / 2 < x < PI / 2 -> derivable_pt_lim (prim b c) x (l_b b c x).
Proof.
  intros Hb Hx. assert (0 < cos x) as C by (apply cos_gt_0; lra). pose proof PI_RGT_0 as P.
  assert (derivable_pt_lim tan x (1 + tan x ^ 2)) as T by exact (derive_pt_eq_1 _ _ _ (derivable_pt_tan x Hx) (derive_pt_tan x Hx)).
  pose proof (derivable_pt_lim_scal tan (/ b) x _ T) as S.
  pose proof (derivable_pt_lim_comp (mult_real_fct (/ b) tan) atan x _ _ S (derivable_pt_lim_atan _)) as A.
  pose proof (derivable_pt_lim_scal _ (c / PI) x _ A) as D. unfold prim.
  replace (l_b b c x) with (c / PI * (/ (1 + mult_real_fct (/ b) tan x ^ 2) * (/ b * (1 + tan x ^ 2)))); [exact D|].
  unfold l_b, mult_real_fct, square, Rsqr, tan. pose proof (spread_den b x ltac:(lra)) as Q. unfold square in Q.
  assert (1 + (/ b * (sin x / cos x)) ^ 2 = (sin x * sin x + b * b * (cos x * cos x)) / (b * b * (cos x * cos x))) as -> by (field; lra).
  assert (1 + (sin x / cos x) ^ 2 = / (cos x * cos x)) as ->.
  { pose proof (sin2_cos2 x) as E. unfold Rsqr in E. replace (1 + (sin x / cos x) ^ 2) with ((sin x * sin x + cos x * cos x) / (cos x * cos x)) by (field; lra). rewrite E. field. lra. }
  field. repeat split; lra.
Qed.
Lemma den_mono b x y : 0 < b <= 1 -> 0 <= x <= y -> y <= PI / 2 ->
  square (sin x) + square b * square (cos x) <= square (sin y) + square b * square (cos y).
Proof.
  intros Hb Hx Hy. pose proof (sin2_cos2 x) as Ex. pose proof (sin2_cos2 y) as Ey. unfold Rsqr in *. unfold square.
  assert (0 <= sin x) by (apply sin_ge_0; pose proof PI_RGT_0; lra). assert (sin x <= sin y) by (apply sin_incr_1; pose proof PI_RGT_0; lra).
  replace (cos x * cos x) with (1 - sin x * sin x) by lra. replace (cos y * cos y) with (1 - sin y * sin y) by lra.
  assert (sin x * sin x <= sin y * sin y) by nra. assert (b * b <= 1) by nra. generalize dependent (sin x * sin x). generalize dependent (sin y * sin y). intros. nra.
Qed.
Lemma l_b_mono b c x y : 0 < b <= 1 -> 0 <= c -> 0 <= x <= y -> y <= PI / 2 -> l_b b c y <= l_b b c x.
Proof.
  intros Hb Hc Hx Hy. unfold l_b. pose proof PI_RGT_0. pose proof (den_mono b x y Hb Hx Hy). pose proof (spread_den b x ltac:(lra)).
  unfold Rdiv. apply Rmult_le_compat_l; [nra|]. apply Rinv_le_contravar; nra.
Qed.
Lemma l_b_even b c x : l_b b c (- x) = l_b b c x.
Proof. unfold l_b, square. rewrite sin_neg, cos_neg. f_equal. f_equal. ring. Qed.
Lemma prim_odd b c x : prim b c (- x) = - prim b c x.
Proof. unfold prim. rewrite tan_neg. replace (/ b * - tan x) with (- (/ b * tan x)) by ring. rewrite atan_opp. ring. Qed.
Lemma l_b_step b c x d : 0 < b <= 1 -> 0 <= c -> 0 <= x -> 0 < d -> x + d < PI / 2 -> l_b b c (x + d) * d <= prim b c (x + d) - prim b c x.
Proof.
  intros Hb Hc Hx Hd Hy. destruct (MVT_cor2 (prim b c) (l_b b c) x (x + d)) as (u & E & U); [lra| |].
  - intros u U. apply prim_deriv; lra.
  - rewrite E. replace (x + d - x) with d by ring. apply Rmult_le_compat_r; [lra|]. apply l_b_mono; lra.
Qed.
(** the sum over 2k+1 points *)
Lemma l_b_sum b c d k : 0 < b <= 1 -> 0 <= c -> 0 < d -> IZR k * d < PI / 2 -> (0 <= k)%Z ->
  forall n, (Z.of_nat n <= 2 * k + 1)%Z ->
  Rsumf (fun i => l_b b c (IZR (i - k) * d) * d) (map Z.of_nat (seq 0 n)) <=
  if (Z.of_nat n <=? k)%Z then prim b c (IZR (Z.of_nat n - k) * d) + prim b c (IZR k * d)
  else prim b c (IZR (Z.of_nat n - 1 - k) * d) + prim b c (IZR k * d) + c * d / (PI * b).
Proof.
  intros Hb Hc Hd Hk K. pose proof PI_RGT_0 as P. induction n as [|n IH]; intros Hn.
  - unfold Rsumf. cbn [seq map Rsum fold_right Z.of_nat]. replace (0 <=? k)%Z with true by (symmetry; apply Z.leb_le; lia).
    replace (IZR (0 - k) * d) with (- (IZR k * d)) by (rewrite minus_IZR; ring). rewrite prim_odd. lra.
  - specialize (IH ltac:(lia)). rewrite seq_S, map_app, Rsumf_app. cbn [plus map]. rewrite Rsumf_cons.
    replace (Rsumf _ []) with 0 by reflexivity. rewrite Rplus_0_r. set (m := Z.of_nat n) in *. replace (Z.of_nat (S n)) with (m + 1)%Z in * by lia.
    assert (0 <= m)%Z as M by lia. clearbody m.
    destruct (Z.leb_spec (m + 1) k) as [A|A]; [|destruct (Z.eq_dec m k) as [->|B]].
    + replace (m <=? k)%Z with true in IH by (symmetry; apply Z.leb_le; lia).
      pose proof (l_b_step b c (IZR (k - m - 1) * d) d Hb Hc) as S.
      assert (0 <= IZR (k - m - 1) * d) as S1 by (apply Rmult_le_pos; [apply IZR_le; lia|lra]).
      assert (IZR (k - m - 1) * d + d = IZR (k - m) * d) as S2 by (rewrite !minus_IZR; ring). rewrite S2 in S.
      assert (IZR (k - m) * d <= IZR k * d) as S3 by (apply Rmult_le_compat_r; [lra|apply IZR_le; lia]). specialize (S S1 Hd ltac:(lra)).
      replace (IZR (m - k) * d) with (- (IZR (k - m) * d)) in * by (rewrite !minus_IZR; ring). rewrite l_b_even.
      replace (IZR (m + 1 - k) * d) with (- (IZR (k - m - 1) * d)) by (rewrite !minus_IZR, plus_IZR; ring). rewrite prim_odd in *. lra.
    + rewrite Z.leb_refl in IH. replace (k - k)%Z with 0%Z in * by lia. replace (k + 1 - 1 - k)%Z with 0%Z by lia. rewrite Rmult_0_l in *.
      assert (l_b b c 0 * d = c * d / (PI * b)) as E by (unfold l_b, square; rewrite sin_0, cos_0; field; lra). lra.
    + replace (m <=? k)%Z with false in IH by (symmetry; apply Z.leb_gt; lia).
      pose proof (l_b_step b c (IZR (m - 1 - k) * d) d Hb Hc) as S.
      assert (0 <= IZR (m - 1 - k) * d) as S1 by (apply Rmult_le_pos; [apply IZR_le; lia|lra]).
      assert (IZR (m - 1 - k) * d + d = IZR (m - k) * d) as S2 by (rewrite !minus_IZR; ring). rewrite S2 in S.
      assert (IZR (m - k) * d <= IZR k * d) as S3 by (apply Rmult_le_compat_r; [lra|apply IZR_le; lia]). specialize (S S1 Hd ltac:(lra)).
      replace (m + 1 - 1 - k)%Z with (m - k)%Z by lia. lra.
Qed.
Lemma l_b_total b c d k : 0 < b <= 1 -> 0 <= c -> 0 < d -> IZR k * d < PI / 2 -> (0 <= k)%Z ->
  Rsumf (fun i => l_b b c (IZR (i - k) * d) * d) (zrange (k * 2 + 1)) <= 2 * prim b c (IZR k * d) + c * d / (PI * b).
Proof.
  intros Hb Hc Hd Hk K. pose proof (l_b_sum b c d k Hb Hc Hd Hk K (Z.to_nat (k * 2 + 1)) ltac:(lia)) as H. unfold zrange.
  rewrite Z2Nat.id in H by lia. replace (k * 2 + 1 <=? k)%Z with false in H by (symmetry; apply Z.leb_gt; lia).
  replace (k * 2 + 1 - 1 - k)%Z with k in H by lia. lra.
Qed.
Lemma prim_half b c x : 0 <= c -> prim b c x <= c / 2.
Proof.
  intros Hc. unfold prim. destruct (atan_bound (/ b * tan x)) as [_ A]. pose proof PI_RGT_0. 
  replace (c / 2) with (c / PI * (PI / 2)) by (field; lra). apply Rmult_le_compat_l; [|lra]. apply Rmult_le_pos; [lra|]. left. now apply Rinv_0_lt_compat.
Qed.
Lemma prim_one c x : - PI / 2 < x < PI / 2 -> prim 1 c x = c * x / PI.
Proof. intros H. unfold prim. rewrite Rinv_1, Rmult_1_l, atan_tan by lra. field. apply PI_neq0. Qed.

(** * The sum over the window *)
Lemma lsf_sum fw k b1 b2 b3 c1 c2 c3 c4 : hemi_angle fw -> fw < 180 -> (0 < k)%Z -> 0 < b1 <= 1 -> 0 < b2 <= 1 -> 0 < b3 <= 1 -> 0 <= c1 -> 0 <= c2 -> 0 <= c3 -> 0 <= c4 ->
  let lphi i := (- fw / 2 + IZR i * (fw / IZR (k * 2))) * PI / 180 in let q := fw / IZR (k * 2) / 180 in
  Rsumf (fun i => spread l_b ([b1; b2; b3; 1], [c1; c2; c3; c4]) (lphi i) * (lphi 1%Z - lphi 0%Z)) (zrange (k * 2 + 1)) <=
  c1 + c2 + c3 + c4 * (fw / 180) + q * (c1 / b1 + c2 / b2 + c3 / b3 + c4).
Proof.
  intros Hf Hf' K B1 B2 B3 C1 C2 C3 C4 lphi q. pose proof PI_RGT_0 as P. assert (0 < IZR k) as K0 by (apply IZR_lt; lia).
  assert (0 < fw) as F0 by apply Hf.
  set (d := fw / (2 * IZR k) * PI / 180).
  assert (0 < / (2 * IZR k)) as I by (apply Rinv_0_lt_compat; lra).
  assert (0 < d) as D by (unfold d, Rdiv; apply Rmult_lt_0_compat; [apply Rmult_lt_0_compat; [apply Rmult_lt_0_compat; [lra|exact I]|lra]|lra]).
  assert (IZR k * d = fw / 2 * PI / 180) as KD by (unfold d; field; lra).
  assert (forall i, lphi i = IZR (i - k) * d) as L by (intros i; unfold lphi, d; rewrite minus_IZR, mult_IZR; field; lra).
  assert (lphi 1%Z - lphi 0%Z = d) as -> by (rewrite !L, !minus_IZR; ring).
  rewrite (Rsumf_ext _ (fun i => l_b b1 c1 (IZR (i - k) * d) * d + (l_b b2 c2 (IZR (i - k) * d) * d + (l_b b3 c3 (IZR (i - k) * d) * d + l_b 1 c4 (IZR (i - k) * d) * d)))).
  2:{ intros i _. rewrite L. unfold spread, Rsumf. cbn [fst snd combine map Rsum fold_right]. ring. }
  rewrite !Rsumf_plus.
  assert (IZR k * d < PI / 2) as H by (rewrite KD; nra).
  pose proof (l_b_total b1 c1 d k B1 C1 D H ltac:(lia)) as T1. pose proof (l_b_total b2 c2 d k B2 C2 D H ltac:(lia)) as T2.
  pose proof (l_b_total b3 c3 d k B3 C3 D H ltac:(lia)) as T3. pose proof (l_b_total 1 c4 d k ltac:(lra) C4 D H ltac:(lia)) as T4.
  pose proof (prim_half b1 c1 (IZR k * d) C1). pose proof (prim_half b2 c2 (IZR k * d) C2). pose proof (prim_half b3 c3 (IZR k * d) C3).
  assert (0 < IZR k * d) by nra. rewrite prim_one in T4 by lra. rewrite KD in T4.
  assert (d = q * PI) as E by (unfold q, d; rewrite mult_IZR; field; lra).
  replace (c1 * d / (PI * b1)) with (q * (c1 / b1)) in T1 by (rewrite E; field; lra).
  replace (c2 * d / (PI * b2)) with (q * (c2 / b2)) in T2 by (rewrite E; field; lra).
  replace (c3 * d / (PI * b3)) with (q * (c3 / b3)) in T3 by (rewrite E; field; lra).
  replace (c4 * d / (PI * 1)) with (q * c4) in T4 by (rewrite E; field; lra).
  replace (2 * (c4 * (fw / 2 * PI / 180) / PI)) with (c4 * (fw / 180)) in T4 by (field; lra).
  rewrite !Rmult_plus_distr_l. lra.
Qed.
(** * The numbers of the eye *)
Lemma peak_bound b e p : 6800 <= b <= 8064 -> 1 / 2000 <= e -> 1.1 < p <= 8 ->
  let pd := 1 + square (p / 3.2) in let dp := 1 + square (3.2 / p) in
  b * p / (pd * pd) + / (dp * dp * (e - 1 / (b * p))) <= 8600.
Proof.
  intros Hb He Hp pd dp. set (u := p / 3.2). assert (p = 3.2 * u) as Ep by (unfold u; lra). assert (0.34 < u <= 2.5) as Hu by lra.
  assert (1 / (b * p) <= 0.0001337) as M1.
  { assert (7480 <= b * p) by nra. unfold Rdiv. rewrite Rmult_1_l. apply Rle_trans with (/ 7480); [apply Rinv_le_contravar; lra|lra]. }
  set (m := e - 1 / (b * p)). assert (0.000366 <= m) as Hm by (unfold m; lra). assert (/ m <= 2733) as Im by (apply Rle_trans with (/ 0.000366); [apply Rinv_le_contravar; lra|lra]).
  assert (0 < / m) as Im0 by (apply Rinv_0_lt_compat; lra). clearbody m.
  assert (pd = 1 + u * u) as -> by reflexivity.
  assert (dp = (1 + u * u) / (u * u)) as -> by (unfold dp, square; rewrite Ep; field; lra).
  assert (0 < 1 + u * u) by nra.
  replace (/ ((1 + u * u) / (u * u) * ((1 + u * u) / (u * u)) * m)) with (u * u * (u * u) * / m / ((1 + u * u) * (1 + u * u))) by (field; lra).
  unfold Rdiv. rewrite <- Rmult_plus_distr_r. apply Rmult_le_reg_r with ((1 + u * u) * (1 + u * u)); [nra|]. rewrite Rmult_assoc, Rinv_l, Rmult_1_r by nra.
  assert (b * p <= 8064 * 3.2 * u) as B by (rewrite Ep; nra).
  assert (u * u * (u * u) * / m <= 2733 * (u * u * (u * u))) as Q by (rewrite (Rmult_comm 2733); apply Rmult_le_compat_l; nra).
  assert (0 <= 8600 * ((1 + u * u) * (1 + u * u)) - 8064 * 3.2 * u - 2733 * (u * u * (u * u))) as G.
  { assert (0 <= (u * u - 0.36) * (u * u - 0.36)) by apply Rle_0_sqr. nra. }
  lra.
Qed.
Lemma Rsumf_pos {A} (f : A -> R) l : l <> [] -> (forall x, 0 < f x) -> 0 < Rsumf f l.
Proof.
  intros N H. destruct l as [|x l]; [contradiction|]. rewrite Rsumf_cons. pose proof (H x). pose proof (Rsumf_nonneg f l (fun a _ => Rlt_le _ _ (H a))). lra.
Qed.
Lemma capture_le age pigment pupd fw cap : 10 <= age <= 100 -> 0.106 <= pigment < 1 -> 1.1 < pupd <= 8 -> 1 <= fw <= 10 ->
  capture fw (psf_coef age pigment pupd) = Ok cap -> 0 < cap <= 1.
Proof.
  intros Ha Hg Hp Hf. unfold capture. cbv zeta. pose proof (Rfloor_spec (fw / 0.002 / 2)) as K.
  pose proof (Rfloor_ge (fw / 0.002 / 2) 1 ltac:(lra)) as K1. set (k := Rfloor (fw / 0.002 / 2)) in *. clearbody k.
  replace (k =? 0)%Z with false by (symmetry; apply Z.eqb_neq; lia). intros E. injection E as <-. 
  assert (hemi_angle fw) as Hh by (unfold hemi_angle; lra). assert (1 <= IZR k) as K0 by (apply IZR_le; lia).
  assert (0 < fw / IZR (k * 2)) as S0 by (rewrite mult_IZR; apply Rdiv_lt_0_compat; lra). pose proof PI_RGT_0 as P.
  split.
  { assert (0 < (- fw / 2 + 1 * (fw / IZR (k * 2))) * PI / 180 - (- fw / 2 + 0 * (fw / IZR (k * 2))) * PI / 180) as D by nra.
    apply Rsumf_pos; [intros E; apply (f_equal (@length Z)) in E; unfold zrange in E; rewrite map_length, seq_length in E; cbn in E; lia|].
    intros i. apply Rmult_lt_0_compat; [|exact D]. apply psf_positive; lra. }
  pose proof (bs_spec age pigment pupd ltac:(lra) ltac:(lra) ltac:(lra)) as B. destruct (cs_spec age pigment pupd ltac:(lra) ltac:(lra)) as (C & _ & _).
  revert B C. unfold psf_coef. cbv zeta. cbn [fst snd].
  set (A := 1 + (age / 70) ^ 4). assert (1 <= A <= 5.17) as HA.
  { unfold A. assert (0 <= age / 70 <= 10 / 7) as Q by lra. set (y := age / 70) in *. clearbody y. assert (0 <= y ^ 2 <= 100 / 49) as Q2 by (cbn; nra).
    replace (y ^ 4) with (y ^ 2 * y ^ 2) by ring. nra. }
  clearbody A. assert (1 <= sqrt A <= 2.28) as HR.
  { split; [rewrite <- sqrt_1 at 1; apply sqrt_le_1_alt; lra|]. rewrite <- (sqrt_square 2.28) by lra. apply sqrt_le_1_alt. lra. }
  set (r := sqrt A) in *. clearbody r. set (b := 9000 - 936 * r) in *. assert (6800 <= b <= 8064) as Hb by (unfold b; lra). clearbody b.
  pose proof (peak_bound b (r / 2000) pupd Hb ltac:(lra) Hp) as PB. cbv zeta in PB.
  set (pd := 1 + square (pupd / 3.2)) in *. set (dp := 1 + square (3.2 / pupd)) in *.
  assert (/ pd + / dp = 1) as PD.
  { unfold pd, dp, square. field. repeat split; nra. }
  assert (1 < pd <= 8) as Hpd by (unfold pd, square; split; nra).
  assert (1 < dp <= 10) as Hdp.
  { unfold dp, square. assert (0 < / pupd <= / 1.1) as I by (split; [apply Rinv_0_lt_compat; lra|apply Rinv_le_contravar; lra]). unfold Rdiv. 
    assert (/ 1.1 <= 0.91) by lra. nra. }
  clearbody pd dp.
  set (pf := 1 / pigment - 1). assert (0 < pf <= 8.434) as Hpf.
  { unfold pf, Rdiv. rewrite Rmult_1_l. split.
    - assert (1 < / pigment) by (rewrite <- Rinv_1; apply Rinv_lt_contravar; lra). lra.
    - assert (/ pigment <= / 0.106) by (apply Rinv_le_contravar; lra). lra. }
  clearbody pf.
  set (m := r / 2000 - 1 / (b * pupd)) in *.
  intros B C. inversion B as [|? ? B1 B']; subst. inversion B' as [|? ? B2 B'']; subst. inversion B'' as [|? ? B3 _]; subst.
  inversion C as [|? ? C1 C']; subst. inversion C' as [|? ? C2 C'']; subst. inversion C'' as [|? ? C3 C''']; subst. inversion C''' as [|? ? C4 _]; subst. clear B B' B'' C C' C'' C'''.
  assert (0 < m) as M0 by nra.
  assert (m <= 0.0012) as M1.
  { unfold m. assert (0 < 1 / (b * pupd)) by (apply Rdiv_lt_0_compat; nra). lra. }
  clearbody m.
  pose proof (lsf_sum fw k (pd / (b * pupd)) (dp * m) (1 / (10 + 60 * pigment - 5 / A)) (1 / (1 + A / pf) / pd) (1 / (1 + A / pf) / dp)
    (1 / (1 + pf / A) / ((1 + 25 * pigment) * (1 + 1 / A))) (1 / (1 + pf / A) - 1 / (1 + pf / A) / ((1 + 25 * pigment) * (1 + 1 / A)))) as T.
  cbv zeta in T. change (IZR 1) with 1 in T. change (IZR 0) with 0 in T.
  assert (pd / (b * pupd) <= 1) as B1'.
  { apply Rmult_le_reg_r with (b * pupd); [nra|]. unfold Rdiv. rewrite Rmult_assoc, Rinv_l, Rmult_1_r by nra. nra. }
  assert (dp * m <= 1) as B2' by nra.
  assert (0 < / A <= 1) as IA by (split; [apply Rinv_0_lt_compat; lra|rewrite <- Rinv_1; apply Rinv_le_contravar; lra]).
  assert (5 <= 10 + 60 * pigment - 5 / A <= 70) as D3 by (unfold Rdiv; lra).
  assert (1 / (10 + 60 * pigment - 5 / A) <= 1) as B3'.
  { unfold Rdiv at 1. rewrite Rmult_1_l, <- Rinv_1. apply Rinv_le_contravar; lra. }
  specialize (T Hh ltac:(lra) ltac:(lia) (conj B1 B1') (conj B2 B2') (conj B3 B3') ltac:(lra) ltac:(lra) ltac:(lra) ltac:(lra)).
  eapply Rle_trans; [exact T|]. clear T.
  set (q := fw / IZR (k * 2) / 180) in *.
  assert (0 < q <= 0.000011157) as Hq.
  { split; [unfold q; lra|]. unfold q. rewrite mult_IZR. apply Rmult_le_reg_r with 180; [lra|]. unfold Rdiv at 1. rewrite Rmult_assoc, Rinv_l, Rmult_1_r by lra.
    apply Rmult_le_reg_r with (IZR k * 2); [lra|]. unfold Rdiv. rewrite Rmult_assoc, Rinv_l, Rmult_1_r by lra. lra. }
  clearbody q.
  set (w := / (A + pf)). assert (0 < w) as W by (apply Rinv_0_lt_compat; lra). assert ((A + pf) * w = 1) as WE by (unfold w; field; lra).
  assert (1 / (1 + A / pf) = pf * w) as -> by (unfold w; field; lra). assert (1 / (1 + pf / A) = A * w) as -> by (unfold w; field; lra).
  set (z := A * w / ((1 + 25 * pigment) * (1 + 1 / A))).
  assert (0 < z <= (A - 1 / 2) * w / 3.65) as Z.
  { assert (z = A * A / (A + 1) * w * / (1 + 25 * pigment)) as -> by (unfold z; field; lra).
    assert (0 < A * A / (A + 1) <= A - 1 / 2) as Z1.
    { split; [apply Rdiv_lt_0_compat; nra|]. apply Rmult_le_reg_r with (A + 1); [lra|]. unfold Rdiv. rewrite Rmult_assoc, Rinv_l, Rmult_1_r by lra. nra. }
    assert (0 < / (1 + 25 * pigment) <= / 3.65) as Z2 by (split; [apply Rinv_0_lt_compat; lra|apply Rinv_le_contravar; lra]).
    set (x1 := A * A / (A + 1)) in *. set (x2 := / (1 + 25 * pigment)) in *. clearbody x1 x2. split; [repeat apply Rmult_lt_0_compat; lra|].
    unfold Rdiv. apply Rmult_le_compat; try lra; [apply Rmult_le_pos; lra|]. apply Rmult_le_compat_r; lra. }
  clearbody z.
  replace (pf * w / pd / (pd / (b * pupd))) with (pf * w * (b * pupd / (pd * pd))) by (field; lra).
  replace (pf * w / dp / (dp * m)) with (pf * w * / (dp * dp * m)) by (field; lra).
  assert (0 < b * pupd / (pd * pd)) as G1 by (apply Rdiv_lt_0_compat; nra). assert (0 < / (dp * dp * m)) as G2 by (apply Rinv_0_lt_compat; repeat apply Rmult_lt_0_compat; lra).
  set (g1 := b * pupd / (pd * pd)) in *. set (g2 := / (dp * dp * m)) in *. set (g3 := 10 + 60 * pigment - 5 / A) in *. clearbody g1 g2 g3. replace (z / (1 / g3)) with (z * g3) by (field; lra).
  replace (pf * w / pd) with (pf * w * / pd) by reflexivity. replace (pf * w / dp) with (pf * w * / dp) by reflexivity.
  assert (pf * w * / pd + pf * w * / dp = pf * w) as S1 by (rewrite <- Rmult_plus_distr_l, PD; ring).
  assert (pf * w * g1 + pf * w * g2 <= pf * w * 8600) as S2 by (rewrite <- Rmult_plus_distr_l; apply Rmult_le_compat_l; [apply Rmult_le_pos; lra|exact PB]).
  assert (z * g3 <= z * 70) as S3 by (apply Rmult_le_compat_l; lra).
  assert (z <= A * w) as S4. { apply Rle_trans with ((A - 1 / 2) * w / 3.65); [lra|]. nra. }
  assert (q * (pf * w * g1 + pf * w * g2 + z * g3 + (A * w - z)) <= 0.000011157 * (pf * w * 8600 + A * w * 70)) as S5.
  { assert (0 < pf * w) as PW by (apply Rmult_lt_0_compat; lra). assert (0 < pf * w * g1) by now apply Rmult_lt_0_compat. assert (0 < pf * w * g2) by now apply Rmult_lt_0_compat.
    assert (0 < z * g3) by (apply Rmult_lt_0_compat; lra). apply Rmult_le_compat; lra. }
  assert ((A * w - z) * (fw / 180) <= (A * w - z) * (10 / 180)) as S6 by (apply Rmult_le_compat_l; lra).
  assert (0 <= A * w * (17 / 18) - z * (17 / 18) - 0.000011157 * (pf * w * 8600 + A * w * 70)) as S7.
  { assert (pf * w <= 8.434 * w) by (apply Rmult_le_compat_r; lra). assert (1 * w <= A * w) by (apply Rmult_le_compat_r; lra). 
    assert ((A - 1 / 2) * w = A * w - w / 2) as Y by field. rewrite Y in Z. lra. }
  rewrite Rmult_plus_distr_r in WE. lra.
Qed.

(** * Kernels of one pixel *)
Lemma kernel_one fwidth ppa coef : hemi_angle fwidth -> 0 < ppa -> fwidth * 60 * ppa <= 1 -> exists x, kernel_raw fwidth ppa coef = [x].
Proof.
  intros Hf Hp H1. unfold kernel_raw. cbv zeta. pose proof (window_pos fwidth ppa (proj1 Hf) Hp) as W.
  assert (Rceil (fwidth * 60 * ppa) = 1%Z) as ->.
  { unfold Rceil in *. pose proof (Rfloor_ge (- (fwidth * 60 * ppa)) (-1) ltac:(lra)). lia. }
  rewrite one_ray by (apply regular_y || exact Hf). destruct (one_omega (V3 0 1 0) fwidth Hf) as (w & _ & ->). cbn [combine map]. eexists. reflexivity.
Qed.
Lemma coarse_psf par ppa pupd : 10 <= g_age par <= 100 -> 0.106 <= g_pigment par < 1 -> 1.1 < pupd <= 8 -> 1 <= g_fwidth par <= 10 ->
  0 < ppa -> g_fwidth par * 60 * ppa <= 1 -> psf_ok par ppa pupd.
Proof.
  intros Ha Hg Hp Hf P1 P2. destruct (capture_ok (g_fwidth par) (psf_coef (g_age par) (g_pigment par) pupd) ltac:(lra)) as [cap E].
  pose proof (capture_le _ _ _ _ _ Ha Hg Hp Hf E) as C.
  destruct (kernel_one (g_fwidth par) ppa (psf_coef (g_age par) (g_pigment par) pupd) ltac:(unfold hemi_angle; lra) P1 P2) as [x K].
  exists cap, [cap]. cbv zeta. rewrite K. split; [exact E|]. split; [|split; [lra|repeat constructor; lra]].
  unfold kernel_fix, np_argmax. cbn. do 2 f_equal. lra.
Qed.
Lemma process_coarse fl par vm i illum : filters_ok fl -> vm_aspect vm = 1%Z -> square_img i ->
  0 <= g_scale par -> Forall (fun x => 0 <= x) (gi_px i) -> snd (set_lum (g_scale par) (gss_new vm) i) = None ->
  g_f par <> 0 -> 10 <= g_age par <= 100 -> 0 < illum_of par vm i illum ->
  0.106 <= g_pigment par < 1 -> 1 <= g_fwidth par <= 10 -> g_fwidth par * IZR (gi_nx i) <= vm_viewangle vm ->
  exists s, process_gss fl par (gss_new vm) i illum = Ok s /\ 0 <= s <= (if g_raw par then 1 else 33.5) * pow0 (seen_omega vm (gi_nx i)) (1 / 4).
Proof.
  intros F A Hi Hs Hx Hok Hf Ha He Hg Hw Hv. apply process_ok; auto. intros _ pupd Hp.
  assert (0 < IZR (gi_nx i)) as N by (apply IZR_lt, Hi). assert (0 < vm_viewangle vm) as V by nra.
  apply coarse_psf; auto.
  - apply Rdiv_lt_0_compat; lra.
  - apply Rmult_le_reg_r with (60 * vm_viewangle vm); [lra|]. replace (g_fwidth par * 60 * (IZR (gi_nx i) / (60 * vm_viewangle vm)) * (60 * vm_viewangle vm)) with (60 * (g_fwidth par * IZR (gi_nx i))) by (field; lra). lra.
Qed.
Lemma coarse_sample :
  let par := GPar 20 17 179 0.106 10 true true true false in let vm := mk_view (V3 0 1 0) 180 in let i := GImg 1 1 [1000] in
  filters_ok trivial_filters /\ vm_aspect vm = 1%Z /\ square_img i /\ 0 <= g_scale par /\ Forall (fun x => 0 <= x) (gi_px i) /\
  snd (set_lum (g_scale par) (gss_new vm) i) = None /\ g_f par <> 0 /\ 10 <= g_age par <= 100 /\
  0 < seen_illuminance vm (GImg 1 1 [1000 * 179]) /\ 0.106 <= g_pigment par < 1 /\ 1 <= g_fwidth par <= 10 /\ g_fwidth par * IZR (gi_nx i) <= vm_viewangle vm /\
  (g_psf par = true -> forall pupd, 1.1 < pupd <= 8 -> psf_ok par (IZR (gi_nx i) / (60 * vm_viewangle vm)) pupd).
Proof.
  destruct c98_sample as (S1 & S2 & S3 & S4 & S5 & S6 & S7 & S8 & S9 & _). cbv zeta in *.
  cbn [g_scale g_f g_age g_psf g_fwidth g_pigment gi_nx] in *. rewrite (mk_view_hemi_va _ 180 hemi_180).
  repeat (split; [assumption || lra|]). intros _ pupd Hp. apply coarse_psf; cbn [g_age g_pigment g_fwidth]; lra.
Qed.
