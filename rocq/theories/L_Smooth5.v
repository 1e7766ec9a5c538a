(** Lemmas for Prop_Smooth.v: the width of the densities *)
From Coq Require Import List Lra Lia.
From Verif Require Import Base L_Base M_Translate M_Mapper M_Data S_Data L_Data L_Data2 L_Data3 M_Smooth S_Smooth L_Smooth L_Smooth2 L_Smooth3 L_Smooth4.
Import ListNotations.
Local Open Scope R_scope.

Lemma density_two a h : 0 < h -> density_estimate [- a; a] h 0 = exp (- (a * a / (h * h)) / 2) / (h * sqrt (2 * PI)).
Proof.
  intros H. unfold density_estimate, normal. cbn [map fold_right length INR]. assert (0 < sqrt (2 * PI)) by (apply sqrt_lt_R0; pose proof PI_RGT_0; lra).
  replace ((0 - - a) / h * ((0 - - a) / h)) with (a * a / (h * h)) by (field; lra). replace ((0 - a) / h * ((0 - a) / h)) with (a * a / (h * h)) by (field; lra). field. lra.
Qed.
Lemma variance_two a : variance [- a; a] = 2 * (a * a).
Proof. unfold variance. cbn [map fold_right length INR]. field. Qed.
Lemma exp_le_1_3 t : t <= 1 -> exp t <= 3.
Proof. intros T. pose proof exp_le_3. destruct (Req_dec t 1) as [->|N]; [assumption|]. assert (t < 1) as L by lra. pose proof (exp_increasing _ _ L). lra. Qed.
Lemma exp_inj_mul t u : exp (t + u) = exp t * exp u.
Proof. apply exp_plus. Qed.
Lemma width_differs w : 0 < w -> 1 <= w * w -> density_estimate [- (1); 1] (w * sqrt (variance [- (1); 1])) 0 <> density_estimate [- (1); 1] w 0.
Proof.
  intros W W1. rewrite variance_two. replace (2 * (1 * 1)) with 2 by ring. pose proof (sqrt_sqrt 2 ltac:(lra)) as S2. assert (0 < sqrt 2) as SP by (apply sqrt_lt_R0; lra).
  assert (0 < sqrt (2 * PI)) as CP by (apply sqrt_lt_R0; pose proof PI_RGT_0; lra).
  rewrite !density_two by (try assumption; now apply Rmult_lt_0_compat). set (r := sqrt 2) in *. set (c := sqrt (2 * PI)) in *. clearbody r c.
  replace (1 * 1 / (w * r * (w * r))) with (/ (w * w) / 2). 2: { replace (w * r * (w * r)) with (w * w * (r * r)) by ring. rewrite S2. field. lra. }
  replace (1 * 1 / (w * w)) with (/ (w * w)) by (field; lra). set (t := / (w * w)).
  assert (T : 0 < t <= 1). { unfold t. split; [apply Rinv_0_lt_compat; lra|]. rewrite <- Rinv_1. apply Rinv_le_contravar; lra. }
  clearbody t. intros E. assert (E1 : exp (- (t / 2) / 2) = r * exp (- t / 2)).
  { apply (f_equal (fun z => z * (w * r * c))) in E. replace (exp (- (t / 2) / 2) / (w * r * c) * (w * r * c)) with (exp (- (t / 2) / 2)) in E by (field; lra).
    replace (exp (- t / 2) / (w * c) * (w * r * c)) with (r * exp (- t / 2)) in E by (field; lra). exact E. }
  assert (E2 : exp (t / 4) = r). { replace (t / 4) with (- (t / 2) / 2 + t / 2) by field. rewrite exp_plus, E1, Rmult_assoc, <- exp_plus. replace (- t / 2 + t / 2) with 0 by field. rewrite exp_0. ring. }
  assert (E3 : exp t = 4). { replace t with (t / 4 + t / 4 + (t / 4 + t / 4)) by field. rewrite !exp_plus, !E2. rewrite S2. ring. }
  pose proof (exp_le_1_3 t ltac:(lra)). lra.
Qed.
Lemma scott_two_pos a : 0 < a -> 0 < scott [- a; a].
Proof. intros A. unfold scott. rewrite variance_two. apply Rmult_lt_0_compat; [apply sqrt_lt_R0; nra|]. unfold Rpower. apply exp_pos. Qed.
Lemma scott_two a : 1 <= a -> 1 <= scott [- a; a] * scott [- a; a].
Proof.
  intros A. unfold scott. rewrite variance_two. cbn [length]. set (p := Rpower _ _).
  replace (sqrt (2 * (a * a)) * p * (sqrt (2 * (a * a)) * p)) with (sqrt (2 * (a * a)) * sqrt (2 * (a * a)) * (p * p)) by ring. rewrite sqrt_sqrt by nra.
  assert (/ 2 <= p * p); [|nra]. unfold p. rewrite <- Rpower_plus. replace (INR 2) with 2 by (cbn; ring).
  apply Rle_trans with (Rpower 2 (- (1))); [rewrite Rpower_Ropp, Rpower_1 by lra; lra|]. apply Rle_Rpower; lra.
Qed.
Lemma kde_two order argsort a sigma : 0 < a -> 0 < asked_width [- a; a] sigma 1 ->
  smooth order argsort [[- a]; [a]] 0 [0; a] [] sigma 1 =
  Ok (map (fun x0 => (x0, [density_estimate [- a; a] (asked_width [- a; a] sigma 1 * sqrt (variance [- a; a])) x0])) [0; a]).
Proof.
  intros A W. destruct (smooth_kde order argsort [[- a]; [a]] 0 [0; a] sigma 1 [- a; a]) as (xo & P & E); try assumption; [cbn; lia|reflexivity|exact I| |].
  - rewrite variance_two. nra.
  - cbn [positions] in P. subst xo. exact E.
Qed.
Lemma kde_width order argsort : exists v v' u u',
  smooth order argsort [[- (1)]; [1]] 0 [0; 1] [] (Some 1) 1 = Ok [(0, [v]); (1, [v'])] /\ v <> density_estimate [- (1); 1] 1 0 /\
  smooth order argsort [[- (1)]; [1]] 0 [0; 1] [] None 1 = Ok [(0, [u]); (1, [u'])] /\ u <> density_estimate [- (1); 1] (scott [- (1); 1]) 0.
Proof.
  pose proof (scott_two_pos 1 ltac:(lra)) as SP. pose proof (scott_two 1 ltac:(lra)) as S1.
  do 4 eexists. split; [rewrite kde_two; [reflexivity|lra|unfold asked_width; lra]|]. split; [|split; [rewrite kde_two; [reflexivity|lra|unfold asked_width; lra]|]]; unfold asked_width; rewrite Rmult_1_r; apply width_differs; lra.
Qed.
Lemma kde_units order argsort : exists v v' u u',
  smooth order argsort [[- (1)]; [1]] 0 [0; 1] [] None 1 = Ok [(0, [v]); (1, [v'])] /\
  smooth order argsort [[- (2)]; [2]] 0 [0; 2] [] None 1 = Ok [(0, [u]); (2, [u'])] /\ u <> v / 2.
Proof.
  pose proof (scott_two_pos 1 ltac:(lra)) as SP. pose proof (scott_two 1 ltac:(lra)) as S1. pose proof (scott_two_pos 2 ltac:(lra)) as SP2.
  do 4 eexists. split; [rewrite kde_two; [reflexivity|lra|unfold asked_width; lra]|]. split; [rewrite kde_two; [reflexivity|lra|unfold asked_width; lra]|].
  unfold asked_width. rewrite !Rmult_1_r.
  assert (S2 : scott [- (2); 2] = 2 * scott [- (1); 1]).
  { replace [- (2); 2] with (map (Rmult 2) [- (1); 1]) by (cbn [map]; repeat f_equal; ring). apply scott_scale. lra. }
  rewrite S2. rewrite !variance_two. replace (2 * (2 * 2)) with (2 * 2 * 2) by ring. rewrite (sqrt_mult (2 * 2) 2), sqrt_square by lra. replace (2 * (1 * 1)) with 2 by ring.
  set (w := scott [- (1); 1]) in *. clearbody w. pose proof (sqrt_sqrt 2 ltac:(lra)) as R2. assert (0 < sqrt 2) as RP by (apply sqrt_lt_R0; lra). set (r := sqrt 2) in *. clearbody r.
  assert (H0 : 0 < w * r) by (now apply Rmult_lt_0_compat). replace (2 * w * (2 * r)) with (4 * (w * r)) by ring. assert (H1 : 1 <= w * r * (w * r)). { replace (w * r * (w * r)) with (w * w * (r * r)) by ring. rewrite R2. lra. }
  set (h := w * r) in *. clearbody h. clear S1 SP SP2 S2 R2 RP r w. rewrite !density_two by lra.
  assert (0 < sqrt (2 * PI)) as CP by (apply sqrt_lt_R0; pose proof PI_RGT_0; lra). set (c := sqrt (2 * PI)) in *. clearbody c.
  replace (2 * 2 / (4 * h * (4 * h))) with (/ (h * h) / 4) by (field; lra). replace (1 * 1 / (h * h)) with (/ (h * h)) by (field; lra). set (t := / (h * h)).
  assert (T : 0 < t <= 1). { unfold t. split; [apply Rinv_0_lt_compat; lra|]. rewrite <- Rinv_1. apply Rinv_le_contravar; lra. }
  clearbody t. intros E. assert (E1 : exp (- (t / 4) / 2) = 2 * exp (- t / 2)).
  { apply (f_equal (fun z => z * (4 * h * c))) in E. replace (exp (- (t / 4) / 2) / (4 * h * c) * (4 * h * c)) with (exp (- (t / 4) / 2)) in E by (field; lra).
    replace (exp (- t / 2) / (h * c) / 2 * (4 * h * c)) with (2 * exp (- t / 2)) in E by (field; lra). exact E. }
  assert (E2 : exp (3 * t / 8) = 2). { replace (3 * t / 8) with (- (t / 4) / 2 + t / 2) by field. rewrite exp_plus, E1, Rmult_assoc, <- exp_plus. replace (- t / 2 + t / 2) with 0 by field. rewrite exp_0. ring. }
  assert (E3 : exp (3 * t / 8 + 3 * t / 8) = 4). { rewrite exp_plus, E2. ring. }
  pose proof (exp_le_1_3 (3 * t / 8 + 3 * t / 8) ltac:(lra)). lra.
Qed.
(** for the example of C116: a density that vanishes from a distance of 1 *)
Definition tent (a b : R) : R := Rmax 0 (1 - Rabs (a - b)).
