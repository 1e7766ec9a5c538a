(** Lemmas about the pupil and the integral of the point spread function. *)
From Coq Require Import Lra Lia Psatz.
From Verif Require Import Base L_Base M_Gss S_Gss L_Gss L_Gss2.
Local Open Scope R_scope.

(** * the pupil of an old eye opens with light *)
Lemma exp_pow x n : exp (INR n * x) = exp x ^ n.
Proof. induction n as [|n IH]; [simpl; now rewrite Rmult_0_l, exp_0|]. rewrite S_INR. replace ((INR n + 1) * x) with (x + INR n * x) by ring. now rewrite exp_plus, IH. Qed.
Lemma exp_low x n : 0 <= 1 + x -> (1 + x) ^ n <= exp (INR n * x).
Proof. intros H. rewrite exp_pow. apply pow_incr. split; [exact H|]. destruct (Req_dec x 0) as [->|N]; [rewrite exp_0; lra|]. left. now apply exp_ineq1. Qed.
Lemma tanh_04 : tanh 0.4 <= 0.4.
Proof.
  rewrite tanh_form. pose proof (exp_low (Ropp 0.1) 8 ltac:(lra)) as H. replace (INR 8 * Ropp 0.1) with (- (2 * 0.4)) in H by (simpl; lra).
  rewrite exp_Ropp in H. pose proof (exp_pos (2 * 0.4)) as P. set (e := exp (2 * 0.4)) in *. clearbody e.
  assert (0.43 <= / e) as H2 by (eapply Rle_trans; [|exact H]; cbn [pow]; lra).
  assert (e * / e = 1) by (apply Rinv_r; lra). assert (e <= 2.3256) by nra.
  assert (0.6 <= 2 / (e + 1)); [|lra].
  apply (Rmult_le_reg_r (e + 1)); [lra|]. replace (2 / (e + 1) * (e + 1)) with 2 by (field; lra). lra.
Qed.
Lemma tanh_02 : 0.192 <= tanh 0.2.
Proof.
  rewrite tanh_form. pose proof (exp_low 0.05 8 ltac:(lra)) as H. replace (INR 8 * 0.05) with (2 * 0.2) in H by (simpl; lra).
  set (e := exp (2 * 0.2)) in *. clearbody e. assert (1.477 <= e) as H2 by (eapply Rle_trans; [|exact H]; cbn [pow]; lra).
  assert (2 / (e + 1) <= 0.808); [|lra].
  apply (Rmult_le_reg_r (e + 1)); [lra|]. replace (2 / (e + 1) * (e + 1)) with 2 by (field; lra). lra.
Qed.
Lemma tanh_opp x : tanh (- x) = - tanh x.
Proof. unfold tanh, sinh, cosh. rewrite Ropp_involutive. pose proof (exp_pos x). pose proof (exp_pos (- x)). field. lra. Qed.
Lemma log10_pow10 p : log10 (Rpower 10 p) = p.
Proof. unfold log10, Rpower. rewrite ln_exp. field. pose proof ln10_pos. lra. Qed.
Lemma pupil_opens : exists p1 p2, pupil 70 160 = Ok p1 /\ pupil 70 (160 * sqrt 10) = Ok p2 /\ 160 < 160 * sqrt 10 /\ snd p1 < snd p2 /\ fst p1 < fst p2.
Proof.
  assert (3.1622 < sqrt 10) as S.
  { apply Rsqr_incrst_0; [|lra|apply sqrt_pos]. rewrite Rsqr_sqrt by lra. unfold Rsqr. lra. }
  unfold pupil. unfold Rltb at 1 2. destruct (Rlt_dec 160 0); [lra|]. destruct (Rlt_dec (160 * sqrt 10) 0); [lra|].
  unfold tanh_log. replace (Rltb 0 160) with true by (symmetry; apply Rltb_true; lra). replace (Rltb 0 (160 * sqrt 10)) with true by (symmetry; apply Rltb_true; lra).
  replace (160 / 1600) with (Rpower 10 (Ropp 1)) by (rewrite Rpower_Ropp, Rpower_1 by lra; lra).
  replace (160 * sqrt 10 / 1600) with (Rpower 10 (- / 2)).
  2:{ rewrite Rpower_Ropp, Rpower_sqrt by lra. assert (sqrt 10 * sqrt 10 = 10) by (apply sqrt_sqrt; lra).
      apply (Rmult_eq_reg_r (sqrt 10)); [|lra]. rewrite Rinv_l by lra. lra. }
  rewrite !log10_pow10. replace (0.4 * Ropp 1) with (Ropp 0.4) by lra. replace (0.4 * - / 2) with (Ropp 0.2) by lra. rewrite !tanh_opp.
  pose proof tanh_04 as T4. pose proof tanh_02 as T2. 
  assert (/ 3 <= exp (Ropp 160 / 174)) as E1.
  { apply Rle_trans with (exp (Ropp 1)).
    - rewrite exp_Ropp. apply Rinv_le_contravar; [apply exp_pos|apply exp_le_3].
    - left. apply exp_increasing. lra. }
  assert (exp (- (160 * sqrt 10) / 174) <= 0.085) as E2.
  { apply Rle_trans with (exp (Ropp 2.9)); [left; apply exp_increasing; lra|]. rewrite exp_Ropp.
    pose proof (exp_low 0.3625 8 ltac:(lra)) as H. replace (INR 8 * 0.3625) with 2.9 in H by (simpl; lra).
    assert (11.8 <= exp 2.9) as H2 by (eapply Rle_trans; [|exact H]; cbn [pow]; lra).
    apply Rle_trans with (/ 11.8); [apply Rinv_le_contravar; lra|lra]. }
  pose proof (tanh_incr 0.2 0.4 ltac:(lra)) as B4. pose proof (tanh_bound 0.2) as B2. assert (0 < exp (- (160 * sqrt 10) / 174)) by apply exp_pos.
  assert (exp (Ropp 160 / 174) < 1) by (rewrite <- exp_0; apply exp_increasing; lra).
  revert T4 T2 E1 E2 B4 B2 H H0. generalize (tanh 0.4) (tanh 0.2) (exp (Ropp 160 / 174)) (exp (- (160 * sqrt 10) / 174)). intros a b c d ? ? ? ? ? ? ? ?.
  eexists. eexists. split; [reflexivity|]. split; [reflexivity|]. split; [lra|]. cbn [fst snd].
  assert (5 - 3 * - a - 0.043 * (70 - 10) * c < 5 - 3 * - b - 0.043 * (70 - 10) * d) as L by lra. split; [exact L|].
  apply Rmult_lt_compat_l; [apply PI_RGT_0|]. assert (0 < 5 - 3 * - a - 0.043 * (70 - 10) * c) by lra.
  set (p := 5 - 3 * - a - 0.043 * (70 - 10) * c) in *. set (q := 5 - 3 * - b - 0.043 * (70 - 10) * d) in *. clearbody p q. unfold square. nra.
Qed.
(** the pupil of a ten year old never opens *)
Lemma pupil_closes_10 e1 e2 : 0 <= e1 < e2 -> exists p1 p2, pupil 10 e1 = Ok p1 /\ pupil 10 e2 = Ok p2 /\ snd p2 < snd p1.
Proof.
  intros H. unfold pupil. unfold Rltb at 1 2. destruct (Rlt_dec e1 0); [lra|]. destruct (Rlt_dec e2 0); [lra|].
  eexists. eexists. split; [reflexivity|]. split; [reflexivity|]. cbn [snd]. replace (10 - 10) with 0 by ring. rewrite !Rmult_0_r, !Rmult_0_l.
  assert (tanh_log e1 < tanh_log e2); [|lra]. unfold tanh_log. replace (Rltb 0 e2) with true by (symmetry; apply Rltb_true; lra).
  unfold Rltb. destruct (Rlt_dec 0 e1).
  - apply tanh_incr. apply Rmult_lt_compat_l; [lra|]. apply log10_incr. split; [apply Rdiv_lt_0_compat; lra|]. apply Rmult_lt_compat_r; lra.
  - apply tanh_bound.
Qed.

(** * the integral of the point spread function over the hemisphere *)
Definition den (b phi : R) : R := square (sin phi) + square b * square (cos phi).
Definition prim (b c phi : R) : R := - c * b * cos phi / sqrt (den b phi).
Lemma den_lim b phi : derivable_pt_lim (den b) phi (2 * sin phi * cos phi * (1 - square b)).
Proof.
  unfold den. 
  replace (2 * sin phi * cos phi * (1 - square b)) with ((cos phi * sin phi + sin phi * cos phi) + square b * ((- sin phi) * cos phi + cos phi * (- sin phi))) by (unfold square; ring).
  apply (derivable_pt_lim_plus (fun x => square (sin x)) (fun x => square b * square (cos x))).
  - apply (derivable_pt_lim_mult sin sin); apply derivable_pt_lim_sin.
  - apply (derivable_pt_lim_scal (fun x => square (cos x))). apply (derivable_pt_lim_mult cos cos); apply derivable_pt_lim_cos.
Qed.
Lemma prim_lim b c phi : 0 < b -> derivable_pt_lim (prim b c) phi (f_b b c phi * (2 * PI * sin phi)).
Proof.
  intros Hb. pose proof (spread_den b phi ltac:(lra)) as D. fold (den b phi) in D.
  assert (derivable_pt_lim (fun x => sqrt (den b x)) phi (/ (2 * sqrt (den b phi)) * (2 * sin phi * cos phi * (1 - square b)))) as LS.
  { apply (derivable_pt_lim_comp (den b) sqrt); [apply den_lim|now apply derivable_pt_lim_sqrt]. }
  assert (sqrt (den b phi) <> 0) as NZ by (apply Rgt_not_eq, sqrt_lt_R0, D).
  pose proof (derivable_pt_lim_div (fun x => - c * b * cos x) (fun x => sqrt (den b x)) phi (- c * b * - sin phi) _
     ltac:(apply (derivable_pt_lim_scal cos); apply derivable_pt_lim_cos) LS NZ) as L.
  unfold div_fct in L. fold (prim b c) in L.
  replace (f_b b c phi * (2 * PI * sin phi)) with
    ((- c * b * - sin phi * sqrt (den b phi) - / (2 * sqrt (den b phi)) * (2 * sin phi * cos phi * (1 - square b)) * (- c * b * cos phi)) / Rsqr (sqrt (den b phi))); [exact L|].
  unfold f_b. fold (den b phi). replace 1.5 with (1 + / 2) by lra. rewrite Rpower_plus, Rpower_1, Rpower_sqrt by exact D.
  rewrite Rsqr_sqrt by lra. pose proof (sqrt_lt_R0 _ D) as S. pose proof (sqrt_sqrt (den b phi) ltac:(lra)) as SS. pose proof PI_RGT_0.
  set (q := sqrt (den b phi)) in *. 
  assert (den b phi = square (sin phi) + square b * square (cos phi)) as DD by reflexivity. pose proof (sin2_cos2 phi) as SC. unfold Rsqr in SC.
  set (d := den b phi) in *. clearbody q d.
  apply (Rmult_eq_reg_r (d * q)); [|apply Rgt_not_eq, Rmult_lt_0_compat; lra].
  replace (c * b / (2 * PI * (d * q)) * (2 * PI * sin phi) * (d * q)) with (c * b * sin phi) by (field; repeat split; lra).
  replace ((- c * b * - sin phi * q - / (2 * q) * (2 * sin phi * cos phi * (1 - square b)) * (- c * b * cos phi)) / d * (d * q)) with (c * b * sin phi * (q * q + cos phi * cos phi * (1 - square b))) by (field; repeat split; lra).
  rewrite SS, DD. unfold square in *. replace (sin phi * sin phi + b * b * (cos phi * cos phi) + cos phi * cos phi * (1 - b * b)) with (sin phi * sin phi + cos phi * cos phi) by ring.
  rewrite SC. ring.
Qed.
Definition prims (l : list (R * R)) (phi : R) : R := Rsumf (fun bc => prim (fst bc) (snd bc) phi) l.
Definition sums (l : list (R * R)) (phi : R) : R := Rsumf (fun bc => f_b (fst bc) (snd bc) phi) l * (2 * PI * sin phi).
Lemma prims_lim l phi : Forall (fun bc => 0 < fst bc) l -> derivable_pt_lim (prims l) phi (sums l phi).
Proof.
  intros H. induction H as [|bc l Hb Hl IH].
  - unfold prims, sums, Rsumf. cbn [map Rsum fold_right]. rewrite Rmult_0_l. apply derivable_pt_lim_const.
  - replace (sums (bc :: l) phi) with (f_b (fst bc) (snd bc) phi * (2 * PI * sin phi) + sums l phi) by (unfold sums, Rsumf; cbn [map Rsum fold_right]; unfold Rsum; ring).
    apply (derivable_pt_lim_plus (prim (fst bc) (snd bc)) (prims l)); [now apply prim_lim|exact IH].
Qed.
Lemma den_cont b : continuity (den b).
Proof. intros x. apply derivable_continuous_pt. eexists. apply den_lim. Qed.
Lemma f_b_cont b c : 0 < b -> continuity (f_b b c).
Proof.
  intros Hb x. 
  assert (forall y, f_b b c y = c * b / (2 * PI) * / (den b y * sqrt (den b y))) as E.
  { intros y. unfold f_b. pose proof (spread_den b y ltac:(lra)) as D. fold (den b y) in *. replace 1.5 with (1 + / 2) by lra. rewrite Rpower_plus, Rpower_1, Rpower_sqrt by exact D.
    pose proof PI_RGT_0. pose proof (sqrt_lt_R0 _ D). field. repeat split; lra. }
  assert (continuity_pt (fun y => c * b / (2 * PI) * / (den b y * sqrt (den b y))) x) as C.
  { pose proof (spread_den b x ltac:(lra)) as D. fold (den b x) in *.
    apply (continuity_pt_scal (fun y => / (den b y * sqrt (den b y)))). apply (continuity_pt_inv (fun y => den b y * sqrt (den b y))).
    - apply (continuity_pt_mult (den b) (fun y => sqrt (den b y))); [apply den_cont|].
      apply (continuity_pt_comp (den b) sqrt); [apply den_cont|]. apply continuity_pt_sqrt. lra.
    - apply Rgt_not_eq, Rmult_lt_0_compat; [exact D|now apply sqrt_lt_R0]. }
  intros eps He. destruct (C eps He) as (d & Hd & P). exists d. split; [exact Hd|]. intros y Hy. specialize (P y Hy). simpl in *. unfold R_dist in *. now rewrite !E.
Qed.
Lemma sums_cont l : Forall (fun bc => 0 < fst bc) l -> continuity (sums l).
Proof.
  intros H. unfold sums. apply (continuity_mult (fun y => Rsumf (fun bc => f_b (fst bc) (snd bc) y) l) (fun y => 2 * PI * sin y)).
  - induction H as [|bc l Hb Hl IH].
    + unfold Rsumf. cbn [map Rsum fold_right]. apply continuity_const. intros a b. reflexivity.
    + apply (continuity_plus (f_b (fst bc) (snd bc)) (fun y => Rsumf (fun bc0 => f_b (fst bc0) (snd bc0) y) l)); [now apply f_b_cont|exact IH].
  - apply (continuity_scal sin). apply continuity_sin.
Qed.
Lemma prims_ends l : Forall (fun bc => 0 < fst bc) l -> prims l (PI / 2) - prims l 0 = Rsum (map snd l).
Proof.
  intros H. induction H as [|bc l Hb Hl IH]; unfold prims, Rsumf in *; cbn [map Rsum fold_right]; [lra|].
  assert (prim (fst bc) (snd bc) (PI / 2) - prim (fst bc) (snd bc) 0 = snd bc) as E.
  { unfold prim, den. rewrite cos_PI2, sin_0, cos_0. replace (square 0 + square (fst bc) * square 1) with (fst bc * fst bc) by (unfold square; ring).
    rewrite sqrt_square by lra. unfold Rdiv. rewrite !Rmult_0_r, Rmult_0_l. field. lra. }
  unfold Rsum in *. lra.
Qed.
Lemma psf_integral l : Forall (fun bc => 0 < fst bc) l ->
  exists pr : Riemann_integrable (fun phi => Rsumf (fun bc => f_b (fst bc) (snd bc) phi) l * (2 * PI * sin phi)) 0 (PI / 2), RiemannInt pr = Rsum (map snd l).
Proof.
  intros H. assert (derivable (prims l)) as D0 by (intros x; exists (sums l x); now apply prims_lim).
  assert (forall x, derive (prims l) D0 x = sums l x) as ED.
  { intros x. unfold derive. apply derive_pt_eq_0. now apply prims_lim. }
  assert (continuity (derive (prims l) D0)) as CD.
  { intros x eps He. destruct (sums_cont l H x eps He) as (d & Hd & P). exists d. split; [exact Hd|]. intros y Hy. specialize (P y Hy).
    simpl in *. unfold R_dist in *. now rewrite !ED. }
  pose proof PI_RGT_0 as HP. assert (0 <= PI / 2) as HP2 by lra.
  pose proof (continuity_implies_RiemannInt HP2 (fun x _ => sums_cont l H x)) as pr.
  pose proof (continuity_implies_RiemannInt HP2 (fun x _ => CD x)) as pr'.
  exists pr. transitivity (RiemannInt pr').
  - apply RiemannInt_P18; [exact HP2|]. intros x _. now rewrite ED.
  - refine (eq_trans (FTC_Riemann (mkC1 CD) pr') _). exact (prims_ends l H).
Qed.
Lemma map_snd_combine {A B} : forall (l : list A) (k : list B), length l = length k -> map snd (combine l k) = k.
Proof. induction l as [|a l IH]; intros [|b k] H; try discriminate; cbn; [reflexivity|]. f_equal. apply IH. cbn in H; lia. Qed.
Lemma psf_total age pigment pupd : 0 <= age <= 100 -> 0 < pigment < 1 -> 1 / 4 <= pupd ->
  exists pr : Riemann_integrable (fun phi => spread f_b (psf_coef age pigment pupd) phi * (2 * PI * sin phi)) 0 (PI / 2), RiemannInt pr = 1.
Proof.
  intros Ha Hp Hd. pose proof (bs_spec age pigment pupd Ha Hp Hd) as B. destruct (cs_spec age pigment pupd Hp ltac:(lra)) as (_ & S & L).
  destruct (psf_integral (combine (fst (psf_coef age pigment pupd)) (snd (psf_coef age pigment pupd)))) as [pr E].
  - apply Forall_forall. intros [b c] Hin. apply in_combine_l in Hin. rewrite Forall_forall in B. now apply B.
  - exists pr. refine (eq_trans E _). rewrite map_snd_combine by (rewrite L; reflexivity). exact S.
Qed.
