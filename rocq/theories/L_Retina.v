(** Lemmas about the retina functions. *)
From Coq Require Import Lra Lia Psatz.
From Verif Require Import Base BaseX L_Base M_Retina S_Retina.
Local Open Scope R_scope.

Lemma sq_pos x : 0 < x -> 0 < square x.
Proof. intros H. unfold square. nra. Qed.
Lemma sq_nn x : 0 <= square x.
Proof. unfold square. nra. Qed.

(** * point spread *)
Lemma hpsf_den fwhm x : 0 < fwhm -> 0 < square x + square (fwhm / 2).
Proof. intros H. pose proof (sq_nn x). assert (0 < square (fwhm / 2)) by (apply sq_pos; lra). lra. Qed.

Lemma hpsf_range fwhm x : 0 < fwhm -> 0 < hpsf fwhm x <= 1.
Proof.
  intros H. pose proof (hpsf_den fwhm x H) as D. assert (0 < square (fwhm / 2)) as P by (apply sq_pos; lra).
  pose proof (sq_nn x) as Q. unfold hpsf. split; [apply Rdiv_lt_0_compat; assumption|].
  apply (Rmult_le_reg_r (square x + square (fwhm / 2))); [exact D|]. unfold Rdiv. rewrite Rmult_assoc, Rinv_l by lra. lra.
Qed.

Lemma hpsf_decr fwhm x y : 0 < fwhm -> 0 <= x < y -> hpsf fwhm y < hpsf fwhm x.
Proof.
  intros H Hxy. pose proof (hpsf_den fwhm x H) as D1. pose proof (hpsf_den fwhm y H) as D2.
  assert (0 < square (fwhm / 2)) as P by (apply sq_pos; lra). unfold hpsf, Rdiv. apply Rmult_lt_compat_l; [exact P|].
  apply Rinv_lt_contravar; [now apply Rmult_lt_0_compat|]. unfold square. nra.
Qed.

Lemma hpsf_peak fwhm : 0 < fwhm -> hpsf fwhm 0 = 1 /\ hpsf fwhm (fwhm / 2) = 1 / 2.
Proof.
  intros H. assert (0 < fwhm * fwhm) by now apply Rmult_lt_0_compat. unfold hpsf, square. split.
  - replace (0 * 0 + fwhm / 2 * (fwhm / 2)) with (fwhm / 2 * (fwhm / 2)) by ring. field. lra.
  - replace (fwhm / 2 * (fwhm / 2) + fwhm / 2 * (fwhm / 2)) with (2 * (fwhm / 2 * (fwhm / 2))) by ring. field. lra.
Qed.

Lemma inv_hpsf_fin fwhm y : 0 < fwhm -> 0 < y <= 1 ->
  inv_hpsf fwhm y = Fin (sqrt (square (fwhm / 2) / y - square (fwhm / 2))) /\ 0 <= square (fwhm / 2) / y - square (fwhm / 2).
Proof.
  intros H [Hy1 Hy2]. assert (0 < square (fwhm / 2)) as P by (apply sq_pos; lra).
  assert (0 <= square (fwhm / 2) / y - square (fwhm / 2)) as N.
  { assert (square (fwhm / 2) <= square (fwhm / 2) / y); [|lra]. apply (Rmult_le_reg_r y); [exact Hy1|].
    unfold Rdiv. rewrite Rmult_assoc, Rinv_l by lra. nra. }
  split; [|exact N]. unfold inv_hpsf, xdiv, Reqb. destruct (Req_EM_T y 0); [lra|]. cbn [xadd xsqrt].
  unfold Rltb. destruct (Rlt_dec _ 0) as [C|C]; [unfold Rminus in N; lra|reflexivity].
Qed.

Lemma inv_left fwhm x : 0 < fwhm -> 0 <= x -> inv_hpsf fwhm (hpsf fwhm x) = Fin x.
Proof.
  intros H Hx. destruct (inv_hpsf_fin fwhm (hpsf fwhm x) H (hpsf_range fwhm x H)) as [-> _]. f_equal.
  pose proof (hpsf_den fwhm x H) as D. assert (0 < square (fwhm / 2)) as P by (apply sq_pos; lra).
  replace (square (fwhm / 2) / hpsf fwhm x - square (fwhm / 2)) with (square x); [unfold square; now apply sqrt_square|].
  unfold hpsf. field. split; lra.
Qed.

Lemma inv_right fwhm y : 0 < fwhm -> 0 < y <= 1 -> yields (fun x => 0 <= x /\ hpsf fwhm x = y) (inv_hpsf fwhm y).
Proof.
  intros H Hy. destruct (inv_hpsf_fin fwhm y H Hy) as [E N]. eexists. split; [exact E|]. split; [apply sqrt_pos|].
  assert (0 < square (fwhm / 2)) as P by (apply sq_pos; lra). unfold hpsf, square at 2. rewrite sqrt_sqrt by exact N.
  field. split; [lra|]. lra.
Qed.

Lemma inv_hpsf_incr fwhm y z : 0 < fwhm -> 0 < y <= z -> z <= 1 ->
  sqrt (square (fwhm / 2) / z - square (fwhm / 2)) <= sqrt (square (fwhm / 2) / y - square (fwhm / 2)).
Proof.
  intros H Hy Hz. assert (0 < square (fwhm / 2)) as P by (apply sq_pos; lra). apply sqrt_le_1_alt.
  unfold Rminus, Rdiv. apply Rplus_le_compat_r, Rmult_le_compat_l; [lra|]. apply Rinv_le_contravar; lra.
Qed.

(** * sun blur *)
Definition r_of (omega : R) : R := sqrt (omega / PI) * 180 / PI.
Lemma r_of_pos omega : 0 < omega -> 0 < r_of omega.
Proof.
  intros H. pose proof PI_RGT_0. unfold r_of. apply Rdiv_lt_0_compat; [|assumption]. apply Rmult_lt_0_compat; [|lra].
  apply sqrt_lt_R0. now apply Rdiv_lt_0_compat.
Qed.

Lemma hpsf1 : 0 < hpsf fwhm0 1 < 1.
Proof.
  assert (0 < fwhm0) as F by (unfold fwhm0; lra). split; [apply hpsf_range, F|].
  replace 1 with (hpsf fwhm0 0) at 2 by (apply hpsf_peak, F). apply hpsf_decr; [exact F|lra].
Qed.

Definition lclip (lmin lmax : R) : R := Rmax (Rmin lmax (lmin / hpsf fwhm0 1)) lmin.
Lemma lclip_range lmin lmax : 0 < lmin -> lmin <= lclip lmin lmax /\ lclip lmin lmax <= lmin / hpsf fwhm0 1 /\
  (lclip lmin lmax = lmin <-> lmax <= lmin).
Proof.
  intros H. destruct hpsf1 as [H1 H2].
  assert (lmin < lmin / hpsf fwhm0 1) as L.
  { apply (Rmult_lt_reg_r (hpsf fwhm0 1)); [exact H1|]. unfold Rdiv. rewrite Rmult_assoc, Rinv_l by lra. nra. }
  unfold lclip, Rmax, Rmin. destruct (Rle_dec lmax (lmin / hpsf fwhm0 1)), (Rle_dec _ lmin); lra.
Qed.

Lemma blur_fin fwhm lmin omega lmax : 0 < fwhm -> 0 < lmin -> 0 < omega ->
  let y := lmin / lclip lmin lmax in
  let d := sqrt (square (fwhm / 2) / y - square (fwhm / 2)) in
  blur_sun fwhm lmin omega lmax = Fin (square (1 + d / r_of omega)) /\ hpsf fwhm0 1 <= y <= 1 /\ (y = 1 <-> lmax <= lmin).
Proof.
  intros Hf Hl Ho y d. destruct (lclip_range lmin lmax Hl) as (A & B & C). destruct hpsf1 as [H1 H2].
  assert (hpsf fwhm0 1 <= y <= 1 /\ (y = 1 <-> lmax <= lmin)) as [Hy He].
  { unfold y. split; [split|].
    - apply (Rmult_le_reg_r (lclip lmin lmax)); [lra|]. unfold Rdiv at 1. rewrite Rmult_assoc, Rinv_l by lra.
      apply (Rmult_le_reg_r (/ hpsf fwhm0 1)); [now apply Rinv_0_lt_compat|]. unfold Rdiv in B.
      replace (hpsf fwhm0 1 * lclip lmin lmax * / hpsf fwhm0 1) with (lclip lmin lmax) by (field; lra). lra.
    - apply (Rmult_le_reg_r (lclip lmin lmax)); [lra|]. unfold Rdiv. rewrite Rmult_assoc, Rinv_l by lra. lra.
    - rewrite <- C. split; intros E.
      + apply (f_equal (fun x => x * lclip lmin lmax)) in E. unfold Rdiv in E. rewrite Rmult_assoc, Rinv_l in E by lra. lra.
      + rewrite E. field. lra. }
  split; [|split; assumption].
  assert (0 < y <= 1) as Hy' by lra. destruct (inv_hpsf_fin fwhm y Hf Hy') as [E _].
  unfold blur_sun. fold (r_of omega). fold (lclip lmin lmax). fold y. cbv zeta. rewrite E. cbn [xadd].
  pose proof (r_of_pos omega Ho) as R0. unfold xdiv, Reqb. destruct (Req_EM_T (r_of omega) 0); [lra|]. cbn [xmul].
  f_equal. fold d. unfold square. field. lra.
Qed.

Lemma sqrt_pos_iff x : 0 <= x -> (sqrt x = 0 <-> x = 0).
Proof. intros H. split; [now apply sqrt_eq_0|]. intros ->. apply sqrt_0. Qed.

Lemma blur_ge_1 fwhm lmin omega lmax : 0 < fwhm -> 0 < lmin -> 0 < omega ->
  yields (fun f => 1 <= f /\ (f = 1 <-> lmax <= lmin)) (blur_sun fwhm lmin omega lmax).
Proof.
  intros Hf Hl Ho. destruct (blur_fin fwhm lmin omega lmax Hf Hl Ho) as (E & Hy & He). destruct hpsf1 as [H1 H2].
  eexists. split; [exact E|]. set (y := lmin / lclip lmin lmax) in *. set (d := sqrt _).
  assert (0 <= d) as Hd by apply sqrt_pos. pose proof (r_of_pos omega Ho) as R0.
  assert (0 <= d / r_of omega) as Q by (apply Rmult_le_pos; [exact Hd|left; now apply Rinv_0_lt_compat]).
  split; [unfold square; nra|]. rewrite <- He.
  destruct (inv_hpsf_fin fwhm y Hf ltac:(lra)) as [_ N]. assert (0 < square (fwhm / 2)) as P by (apply sq_pos; lra).
  assert (d = 0 <-> y = 1) as Hdy.
  { unfold d. rewrite sqrt_pos_iff by exact N. split; intros Hz.
    - apply (f_equal (fun x => x * y)) in Hz. rewrite Rmult_minus_distr_r in Hz. unfold Rdiv at 1 in Hz.
      rewrite Rmult_assoc, Rinv_l in Hz by lra. nra.
    - rewrite Hz. field. }
  rewrite <- Hdy. split; intros Hz.
  - assert (d / r_of omega = 0) as Z by (unfold square in Hz; nra).
    apply (f_equal (fun x => x * r_of omega)) in Z. unfold Rdiv in Z. rewrite Rmult_assoc, Rinv_l in Z by lra. lra.
  - rewrite Hz. unfold square, Rdiv. ring.
Qed.

Lemma blur_mono fwhm lmin omega l1 l2 : 0 < fwhm -> 0 < lmin -> 0 < omega -> l1 <= l2 ->
  exists f1 f2, blur_sun fwhm lmin omega l1 = Fin f1 /\ blur_sun fwhm lmin omega l2 = Fin f2 /\ f1 <= f2.
Proof.
  intros Hf Hl Ho H. destruct (blur_fin fwhm lmin omega l1 Hf Hl Ho) as (E1 & Hy1 & _).
  destruct (blur_fin fwhm lmin omega l2 Hf Hl Ho) as (E2 & Hy2 & _). destruct hpsf1 as [H1 H2].
  eexists _, _. split; [exact E1|]. split; [exact E2|].
  destruct (lclip_range lmin l1 Hl) as (A1 & _). destruct (lclip_range lmin l2 Hl) as (A2 & _).
  assert (lclip lmin l1 <= lclip lmin l2) as L.
  { unfold lclip, Rmax, Rmin. repeat destruct (Rle_dec _ _); lra. }
  set (y1 := lmin / lclip lmin l1) in *. set (y2 := lmin / lclip lmin l2) in *.
  assert (y2 <= y1) as Y by (unfold y1, y2, Rdiv; apply Rmult_le_compat_l; [lra|]; apply Rinv_le_contravar; lra).
  pose proof (inv_hpsf_incr fwhm y2 y1 Hf ltac:(lra) ltac:(lra)) as M.
  set (d1 := sqrt (square (fwhm / 2) / y1 - square (fwhm / 2))) in *. set (d2 := sqrt (square (fwhm / 2) / y2 - square (fwhm / 2))) in *.
  assert (0 <= d1) by apply sqrt_pos. pose proof (r_of_pos omega Ho) as R0. assert (0 < / r_of omega) by now apply Rinv_0_lt_compat.
  unfold square, Rdiv. assert (d1 * / r_of omega <= d2 * / r_of omega) by (apply Rmult_le_compat_r; lra).
  assert (0 <= d1 * / r_of omega) by (apply Rmult_le_pos; lra). nra.
Qed.

(** the radius grows by at most one degree with the default width *)
Lemma blur_bound lmin omega lmax : 0 < lmin -> 0 < omega ->
  yields (fun f => f <= square (1 + 1 / (sqrt (omega / PI) * 180 / PI))) (blur_sun fwhm0 lmin omega lmax).
Proof.
  intros Hl Ho. assert (0 < fwhm0) as Hf by (unfold fwhm0; lra).
  destruct (blur_fin fwhm0 lmin omega lmax Hf Hl Ho) as (E & Hy & _). eexists. split; [exact E|]. fold (r_of omega).
  destruct hpsf1 as [H1 H2].
  set (y := lmin / lclip lmin lmax) in *.
  pose proof (inv_hpsf_incr fwhm0 (hpsf fwhm0 1) y Hf ltac:(lra) ltac:(lra)) as M.
  destruct (inv_hpsf_fin fwhm0 (hpsf fwhm0 1) Hf ltac:(lra)) as [E1 _]. rewrite inv_left in E1 by lra. injection E1 as E1.
  rewrite <- E1 in M. set (d := sqrt (square (fwhm0 / 2) / y - square (fwhm0 / 2))) in *.
  assert (0 <= d) by apply sqrt_pos. pose proof (r_of_pos omega Ho) as R0. assert (0 < / r_of omega) by now apply Rinv_0_lt_compat.
  unfold square, Rdiv. assert (0 <= d * / r_of omega <= 1 * / r_of omega) by (split; [apply Rmult_le_pos|apply Rmult_le_compat_r]; lra). nra.
Qed.

(** a source without area *)
Lemma blur_zero fwhm lmin lmax : 0 < fwhm -> 0 < lmin -> lmin < lmax -> blur_sun fwhm lmin 0 lmax = PInf.
Proof.
  intros Hf Hl H. destruct (lclip_range lmin lmax Hl) as (A & B & C). destruct hpsf1 as [H1 H2].
  assert (lclip lmin lmax <> lmin) as N by (rewrite C; lra).
  set (y := lmin / lclip lmin lmax).
  assert (0 < y < 1) as Hy.
  { unfold y. split; [apply Rdiv_lt_0_compat; lra|]. apply (Rmult_lt_reg_r (lclip lmin lmax)); [lra|].
    unfold Rdiv. rewrite Rmult_assoc, Rinv_l by lra. lra. }
  destruct (inv_hpsf_fin fwhm y Hf ltac:(lra)) as [E N2].
  unfold blur_sun. fold (lclip lmin lmax). fold y. cbv zeta. rewrite E.
  replace (sqrt (0 / PI) * 180 / PI) with 0.
  2:{ unfold Rdiv at 2. rewrite Rmult_0_l, sqrt_0. unfold Rdiv. ring. }
  cbn [xadd]. unfold xdiv, Reqb. destruct (Req_EM_T 0 0); [|lra].
  assert (0 < square (fwhm / 2)) as P by (apply sq_pos; lra).
  assert (0 < sqrt (square (fwhm / 2) / y - square (fwhm / 2))) as S.
  { apply sqrt_lt_R0. assert (square (fwhm / 2) < square (fwhm / 2) / y); [|lra].
    apply (Rmult_lt_reg_r y); [lra|]. unfold Rdiv. rewrite Rmult_assoc, Rinv_l by lra. nra. }
  unfold xinf. replace (Rltb 0 _) with true by (symmetry; apply Rltb_true; lra). reflexivity.
Qed.

(** * densities *)
Lemma mrdc_ok mi : let '(a, r2, re) := mrdc mi in 0 < a < 1 /\ 0 < r2 /\ 0 < re.
Proof. destruct mi as [|[|[|mi]]]; cbn; lra. Qed.

Lemma meridian_pos deg mi : 0 <= deg -> 0 < rgcf_density_on_meridian deg mi.
Proof.
  intros H. unfold rgcf_density_on_meridian. pose proof (mrdc_ok mi) as M. destruct (mrdc mi) as [[a r2] re].
  destruct M as (Ha & Hr2 & Hre).
  assert (0 <= deg / r2) by (apply Rmult_le_pos; [lra|left; now apply Rinv_0_lt_compat]).
  assert (0 < / square (1 + deg / r2)) by (apply Rinv_0_lt_compat, sq_pos; lra).
  pose proof (exp_pos (- deg / re)). assert (0 < (1 - a) * exp (- deg / re)) by (apply Rmult_lt_0_compat; lra).
  assert (0 < 33162.4 * a * / square (1 + deg / r2)) by (apply Rmult_lt_0_compat; lra). lra.
Qed.

Lemma meridian_decr d1 d2 mi : 0 <= d1 < d2 -> rgcf_density_on_meridian d2 mi < rgcf_density_on_meridian d1 mi.
Proof.
  intros H. unfold rgcf_density_on_meridian. pose proof (mrdc_ok mi) as M. destruct (mrdc mi) as [[a r2] re].
  destruct M as (Ha & Hr2 & Hre).
  assert (0 < / r2) as I by now apply Rinv_0_lt_compat. assert (0 < / re) as J by now apply Rinv_0_lt_compat.
  assert (0 <= d1 * / r2) as K by (apply Rmult_le_pos; lra). assert (d1 * / r2 < d2 * / r2) as L by (apply Rmult_lt_compat_r; lra).
  apply Rplus_lt_compat.
  - apply Rmult_lt_compat_l; [lra|]. unfold square, Rdiv. apply Rinv_lt_contravar; [|nra].
    apply Rmult_lt_0_compat; nra.
  - apply Rmult_lt_compat_l; [lra|]. apply exp_increasing. unfold Rdiv.
    assert (d1 * / re < d2 * / re) by (apply Rmult_lt_compat_r; lra). lra.
Qed.

Lemma density_between func x y : (forall r m, 0 <= r -> 0 < func r m) ->
  let r := sqrt (square x + square y) in
  let lo := Rmin (Rmin (func r 0%nat) (func r 1%nat)) (Rmin (func r 2%nat) (func r 3%nat)) in
  let hi := Rmax (Rmax (func r 0%nat) (func r 1%nat)) (Rmax (func r 2%nat) (func r 3%nat)) in
  lo <= rgcf_density_xy func (x, y) <= hi.
Proof.
  intros Hf r lo hi. unfold rgcf_density_xy. cbn [fst snd]. fold r.
  assert (0 <= r) as Hr by apply sqrt_pos.
  assert (forall m, (m <= 3)%nat -> lo <= func r m <= hi) as B.
  { intros m Hm. unfold lo, hi. destruct m as [|[|[|[|m]]]]; [..|lia]; unfold Rmin, Rmax; repeat destruct (Rle_dec _ _); lra. }
  assert (0 < lo) as L.
  { unfold lo. pose proof (Hf r 0%nat Hr). pose proof (Hf r 1%nat Hr). pose proof (Hf r 2%nat Hr). pose proof (Hf r 3%nat Hr).
    unfold Rmin; repeat destruct (Rle_dec _ _); lra. }
  assert (forall m k, (m <= 3)%nat -> (k <= 3)%nat -> lo <= (if Reqb r 0 then func r k else square r / (square x / func r m + square y / func r k)) <= hi) as G.
  { intros m k Hm Hk. unfold Reqb. destruct (Req_EM_T r 0) as [E|E]; [now apply B|].
    destruct (B m Hm) as [Bm1 Bm2]. destruct (B k Hk) as [Bk1 Bk2].
    assert (square r = square x + square y) as Er.
    { unfold r, square at 1. rewrite sqrt_sqrt; [reflexivity|]. pose proof (sq_nn x). pose proof (sq_nn y). lra. }
    assert (0 < square r) as Rp by (apply sq_pos; lra).
    assert (forall z m', 0 <= z -> lo <= func r m' <= hi -> z / hi <= z / func r m' <= z / lo) as D.
    { intros z m' Hz [Hm1 Hm2]. unfold Rdiv. split; apply Rmult_le_compat_l; try exact Hz; apply Rinv_le_contravar; lra. }
    pose proof (D _ m (sq_nn x) (B m Hm)) as [Dx1 Dx2]. pose proof (D _ k (sq_nn y) (B k Hk)) as [Dy1 Dy2].
    set (s := square x / func r m + square y / func r k) in *.
    assert (square r / hi <= s <= square r / lo) as [S1 S2].
    { rewrite Er. unfold s, Rdiv in *. rewrite !Rmult_plus_distr_r. lra. }
    assert (0 < hi) as Hh by lra. assert (0 < s) as Sp.
    { assert (0 < square r / hi) by now apply Rdiv_lt_0_compat. lra. }
    split.
    - apply (Rmult_le_reg_r s); [exact Sp|]. unfold Rdiv at 1. rewrite Rmult_assoc, Rinv_l, Rmult_1_r by lra.
      apply (Rmult_le_compat_l lo) in S2; [|lra]. replace (lo * (square r / lo)) with (square r) in S2 by (field; lra). lra.
    - apply (Rmult_le_reg_r s); [exact Sp|]. unfold Rdiv at 1. rewrite Rmult_assoc, Rinv_l, Rmult_1_r by lra.
      apply (Rmult_le_compat_l hi) in S1; [|lra]. replace (hi * (square r / hi)) with (square r) in S1 by (field; lra). lra. }
  cbv zeta. destruct (Rgtb x 0); apply G; lia.
Qed.

Lemma density_pos func xy : (forall r m, 0 <= r -> 0 < func r m) -> 0 < rgcf_density_xy func xy.
Proof.
  intros H. destruct xy as [x y]. pose proof (density_between func x y H) as [L _].
  set (r := sqrt (square x + square y)) in *. assert (0 <= r) as Hr by apply sqrt_pos.
  pose proof (H r 0%nat Hr). pose proof (H r 1%nat Hr). pose proof (H r 2%nat Hr). pose proof (H r 3%nat Hr).
  revert L. unfold Rmin. repeat destruct (Rle_dec _ _); lra.
Qed.

Lemma binocular_pos func xy : (forall r m, 0 <= r -> 0 < func r m) -> 0 < binocular_density func xy.
Proof.
  intros H. unfold binocular_density. pose proof (density_pos func (90 * fst xy, 90 * snd xy) H).
  pose proof (density_pos func (- (90 * fst xy), 90 * snd xy) H). lra.
Qed.

Lemma binocular_sym func x y : binocular_density func (- x, y) = binocular_density func (x, y).
Proof.
  unfold binocular_density. cbn [fst snd]. replace (90 * - x) with (- (90 * x)) by ring. rewrite Ropp_involutive. field.
Qed.

Lemma density_updown func x y : rgcf_density_xy func (x, - y) = rgcf_density_xy func (x, y).
Proof. unfold rgcf_density_xy. cbn [fst snd]. replace (square (- y)) with (square y) by (unfold square; ring). reflexivity. Qed.

(** on the upper vertical axis the inferior meridian is used *)
Lemma density_vertical func y : (forall r m, 0 <= r -> 0 < func r m) -> 0 < y -> rgcf_density_xy func (0, y) = func y 3%nat.
Proof.
  intros Hf H. unfold rgcf_density_xy. cbn [fst snd].
  replace (square 0 + square y) with (y * y) by (unfold square; ring). rewrite sqrt_square by lra.
  unfold Rgtb, Rltb. destruct (Rlt_dec 0 0); [lra|]. unfold Reqb. destruct (Req_EM_T y 0); [lra|].
  pose proof (Hf y 3%nat ltac:(lra)). unfold square. pose proof (Hf y 2%nat ltac:(lra)). field. split; [lra|]. split; lra.
Qed.

Lemma neg_div k : 0 < k -> - (1) / k < 0.
Proof. intros H. apply Rinv_0_lt_compat in H. unfold Rdiv. lra. Qed.

Lemma meridians_differ : rgcf_density_on_meridian 1 3 < rgcf_density_on_meridian 1 1.
Proof.
  unfold rgcf_density_on_meridian. cbn [mrdc].
  assert (exp (- (1) / 12.131840717293096) < 1) as E by (apply Rlt_le_trans with (exp 0); [apply exp_increasing, neg_div; lra|rewrite exp_0; lra]).
  pose proof (exp_pos (- (1) / 16.346430181031927)) as F.
  set (e := exp (- (1) / 12.131840717293096)) in *. set (f := exp (- (1) / 16.346430181031927)) in *. clearbody e f.
  assert (/ square (1 + 1 / 0.993222146189384) < 0.2484) as A.
  { unfold square. apply (Rmult_lt_reg_r ((1 + 1 / 0.993222146189384) * (1 + 1 / 0.993222146189384))); [lra|]. rewrite Rinv_l by lra. lra. }
  assert (0.2587 < / square (1 + 1 / 1.0354962329628912)) as B.
  { unfold square. apply (Rmult_lt_reg_r ((1 + 1 / 1.0354962329628912) * (1 + 1 / 1.0354962329628912))); [lra|]. rewrite Rinv_l by lra. lra. }
  set (a := / square (1 + 1 / 0.993222146189384)) in *. set (b := / square (1 + 1 / 1.0354962329628912)) in *. clearbody a b. lra.
Qed.

Lemma quadrant_counter : ~ uses_own_quadrant rgcf_density_xy.
Proof.
  intros H. set (f := fun r m => if Rle_dec 0 r then rgcf_density_on_meridian r m else 1).
  assert (forall r m, 0 < f r m) as Hf.
  { intros r m. unfold f. destruct (Rle_dec 0 r); [now apply meridian_pos|lra]. }
  specialize (H f 0 1 Hf ltac:(lra)). cbv zeta in H. rewrite density_vertical in H by (try lra; intros; apply Hf).
  replace (0 * 0 + 1 * 1) with 1 in H by ring. rewrite sqrt_1 in H.
  unfold y_meridian in H. destruct (Rlt_dec 0 1); [|lra].
  pose proof (Hf 1 1%nat) as P1. pose proof (Hf 1 (x_meridian 0)) as P2.
  replace (1 * 1 / (0 * 0 / f 1 (x_meridian 0) + 1 * 1 / f 1 1%nat)) with (f 1 1%nat) in H by (field; repeat split; lra).
  unfold f in H. destruct (Rle_dec 0 1); [|lra]. pose proof meridians_differ. lra.
Qed.

(** what the code does instead: the sign of x decides both meridians *)
Lemma quadrant_actual func x y : (forall r m, 0 <= r -> 0 < func r m) -> 0 < x * x + y * y ->
  let r := sqrt (x * x + y * y) in
  rgcf_density_xy func (x, y) =
    if Rlt_dec 0 x then (r * r) / (x * x / func r 0%nat + y * y / func r 1%nat)
    else (r * r) / (x * x / func r 2%nat + y * y / func r 3%nat).
Proof.
  intros Hf Hp r. unfold rgcf_density_xy. cbn [fst snd]. change (square x + square y) with (x * x + y * y). fold r.
  assert (0 < r) as Hr by (apply sqrt_lt_R0; exact Hp). unfold Reqb. destruct (Req_EM_T r 0); [lra|].
  unfold Rgtb, Rltb. destruct (Rlt_dec 0 x); reflexivity.
Qed.

(** * the measured densities *)
Lemma interp_from_range x lo hi l : forall x0 y0, x0 <= x -> lo <= y0 <= hi ->
  (forall p q pre post, (x0, y0) :: l = pre ++ p :: q :: post -> fst p < fst q) ->
  Forall (fun p => lo <= snd p <= hi) l -> lo <= np_interp_from x x0 y0 l <= hi.
Proof.
  induction l as [|[x1 y1] l IH]; intros x0 y0 Hx Hy Hs Hl; cbn [np_interp_from]; [exact Hy|].
  inversion Hl as [|? ? Hy1 Hl']; subst. cbn [snd] in Hy1.
  pose proof (Hs (x0, y0) (x1, y1) [] l eq_refl) as S0. cbn [fst] in S0.
  unfold Rltb. destruct (Rlt_dec x x1) as [C|C].
  - set (t := (x - x0) / (x1 - x0)).
    assert (0 <= t <= 1) as Ht.
    { unfold t. split; [apply Rmult_le_pos; [lra|left; apply Rinv_0_lt_compat; lra]|].
      apply (Rmult_le_reg_r (x1 - x0)); [lra|]. unfold Rdiv. rewrite Rmult_assoc, Rinv_l by lra. lra. }
    replace (y0 + (y1 - y0) / (x1 - x0) * (x - x0)) with (y0 + (y1 - y0) * t) by (unfold t; field; lra). nra.
  - apply IH; [lra|exact Hy1| |exact Hl']. intros p q pre post E. apply (Hs p q ((x0, y0) :: pre) post). cbn [app]. now rewrite E.
Qed.

(** decidable form of "abscissae increase and values lie in a range", for concrete tables *)
Fixpoint table_ok (lo hi : R) (l : list (R * R)) : Prop :=
  match l with
  | [] => True
  | p :: l' => lo <= snd p <= hi /\ match l' with [] => True | q :: _ => fst p < fst q end /\ table_ok lo hi l'
  end.

Lemma table_ok_spec lo hi l : table_ok lo hi l ->
  Forall (fun p => lo <= snd p <= hi) l /\ (forall p q pre post, l = pre ++ p :: q :: post -> fst p < fst q).
Proof.
  induction l as [|a l IH]; intros H; [split; [constructor|intros p q [|] post E; discriminate]|].
  cbn [table_ok] in H. destruct H as (H1 & H2 & H3). destruct (IH H3) as [F S]. split; [now constructor|].
  intros p q [|b pre] post E; cbn [app] in E; injection E as -> E.
  - subst l. exact H2.
  - now apply (S p q pre post).
Qed.

Lemma interp_range lo hi l x : l <> [] -> table_ok lo hi l -> lo <= np_interp x l <= hi.
Proof.
  intros Hne H. destruct (table_ok_spec lo hi l H) as [F S]. destruct l as [|[x0 y0] l]; [contradiction|].
  inversion F as [|? ? Hy Fl]; subst. cbn [snd] in Hy. cbn [np_interp]. unfold Rltb. destruct (Rlt_dec x x0) as [C|C]; [exact Hy|].
  apply interp_from_range; [lra|exact Hy|exact S|exact Fl].
Qed.

Lemma temporal_ok : table_ok 0.67 2375 curcio_temporal.
Proof.
  unfold curcio_temporal. cbn [table_ok fst snd]. repeat match goal with |- _ /\ _ => split end.
  all: match goal with |- True => exact I | _ => lra end.
Qed.
Lemma superior_ok : table_ok 0.67 2375 curcio_superior.
Proof.
  unfold curcio_superior. cbn [table_ok fst snd]. repeat match goal with |- _ /\ _ => split end.
  all: match goal with |- True => exact I | _ => lra end.
Qed.
Lemma nasal_ok : table_ok 0.67 2375 curcio_nasal.
Proof.
  unfold curcio_nasal. cbn [table_ok fst snd]. repeat match goal with |- _ /\ _ => split end.
  all: match goal with |- True => exact I | _ => lra end.
Qed.
Lemma inferior_ok : table_ok 0.67 2375 curcio_inferior.
Proof.
  unfold curcio_inferior. cbn [table_ok fst snd]. repeat match goal with |- _ /\ _ => split end.
  all: match goal with |- True => exact I | _ => lra end.
Qed.
Lemma curcio_ok mi : table_ok 0.67 2375 (curcio mi).
Proof.
  destruct mi as [|[|[|mi]]]; [exact temporal_ok|exact superior_ok|exact nasal_ok|exact inferior_ok].
Qed.

Lemma rgc_meridian_range deg mi : 1 <= rgc_density_on_meridian deg mi <= 2375.
Proof.
  unfold rgc_density_on_meridian.
  assert (curcio mi <> []) as N by (destruct mi as [|[|[|mi]]]; discriminate).
  pose proof (interp_range 0.67 2375 (curcio mi) deg N (curcio_ok mi)). unfold Rmax. destruct (Rle_dec _ _); lra.
Qed.

Lemma rgc_xy_range p : 1 <= rgcf_density_xy rgc_density_on_meridian p <= 2375.
Proof.
  destruct p as [x y].
  assert (forall r m, 0 <= r -> 0 < rgc_density_on_meridian r m) as P.
  { intros r m _. apply Rlt_le_trans with 1; [lra|apply rgc_meridian_range]. }
  assert (forall r m, 1 <= rgc_density_on_meridian r m <= 2375) as G by (intros; apply rgc_meridian_range).
  generalize dependent rgc_density_on_meridian. intros f P G.
  pose proof (density_between f x y P) as D. cbv zeta in D. set (r := sqrt (square x + square y)) in D.
  destruct D as [D1 D2]. pose proof (G r 0%nat). pose proof (G r 1%nat). pose proof (G r 2%nat). pose proof (G r 3%nat).
  split.
  - apply Rle_trans with (2 := D1). repeat apply Rmin_glb; lra.
  - apply Rle_trans with (1 := D2). repeat apply Rmax_lub; lra.
Qed.

Lemma rgc_range xy : 1 <= rgc_density xy <= 2375.
Proof.
  unfold rgc_density, binocular_density.
  pose proof (rgc_xy_range (90 * fst xy, 90 * snd xy)) as A. pose proof (rgc_xy_range (- (90 * fst xy), 90 * snd xy)) as B.
  generalize dependent (rgcf_density_xy rgc_density_on_meridian (90 * fst xy, 90 * snd xy)).
  generalize dependent (rgcf_density_xy rgc_density_on_meridian (- (90 * fst xy), 90 * snd xy)). intros u Hu v Hv. lra.
Qed.

(** * the fovea *)
Lemma fovea mi : let '(a, _, _) := mrdc mi in rgcf_density_on_meridian 0 mi = 33162.4 * a + (1 - a).
Proof.
  unfold rgcf_density_on_meridian. pose proof (mrdc_ok mi) as M. destruct (mrdc mi) as [[a r2] re]. destruct M as (_ & H1 & H2).
  replace (- 0 / re) with 0 by (field; lra). rewrite exp_0. replace (1 + 0 / r2) with 1 by (field; lra). unfold square. field.
Qed.

Lemma fovea_differs : rgcf_density_on_meridian 0 2 < 32300 /\ 33000 < rgcf_density_on_meridian 0 3.
Proof. pose proof (fovea 2) as A. pose proof (fovea 3) as B. cbn [mrdc] in A, B. rewrite A, B. lra. Qed.

Lemma zero_times_inf : xmul (Fin 0) PInf = NaN.
Proof. cbn [xmul]. unfold xinf, Reqb, Rltb; repeat (destruct (Req_EM_T _ _) || destruct (Rlt_dec _ _)); try lra; reflexivity. Qed.
