(** Lemmas for Prop_Angle64.v *)
From Coq Require Import ZArith Reals Floats.SpecFloat Lra Lia Psatz.
From Flocq Require Import Core BinarySingleNaN Relative.
From Verif Require Import Base M_Float S_Float M_Bin64 L_Float64 L_Bin64 L_Norm64 M_Angle64 S_Angle64.
Local Open Scope R_scope.
Local Instance Hprec : FLX.Prec_gt_0 53 := eq_refl _.

(** the rounded root of the rounded square is not below the number *)
Lemma root_square y : fits y -> bpow radix2 (-510) <= y -> y <= rnd (sqrt (rnd (y * y))).
Proof.
  intros F L. assert (0 < bpow radix2 (-510)) as P0 by apply bpow_gt_0. assert (0 < y) as P by lra.
  destruct (mag radix2 y) as [e He]. specialize (He ltac:(lra)). rewrite Rabs_pos_eq in He by lra. destruct He as [He1 He2].
  assert (-510 < e)%Z as E. { apply (lt_bpow radix2). eapply Rle_lt_trans; [exact L|exact He2]. }
  destruct (Req_dec y (bpow radix2 (e - 1))) as [Ey|Ny].
  - rewrite Ey, <- bpow_plus. rewrite (rnd_id (bpow _ _)) by (apply fits_bpow; lia). rewrite bpow_plus, sqrt_square by apply bpow_ge_0.
    rewrite rnd_id by (apply fits_bpow; lia). lra.
  - assert (bpow radix2 (-1022) <= y * y) as L2.
    { apply Rle_trans with (bpow radix2 (-510) * bpow radix2 (-510)); [rewrite <- bpow_plus; apply bpow_le; lia|]. apply Rmult_le_compat; lra. }
    pose proof (rnd_err (y * y)) as R. rewrite Rabs_pos_eq in R by nra. specialize (R L2). rewrite eps_bpow in R. apply Rabs_le_inv in R.
    set (q := rnd (y * y)) in *. set (r := sqrt q).
    assert (0 <= q) as Q by (assert (eps * (y * y) <= y * y) by (unfold eps; nra); lra).
    assert (r * r = q) as Er by (apply sqrt_sqrt; exact Q). assert (0 <= r) as Pr by apply sqrt_pos.
    destruct (Rle_lt_dec y (rnd r)) as [H|H]; [exact H|exfalso].
    assert (rnd r <= pred radix2 fe y) as Hp by (apply pred_ge_gt; [apply FLT_exp_valid; reflexivity|apply fits_rnd|exact F|exact H]).
    assert (pred radix2 fe y = y - bpow radix2 (e - 53)) as Ep.
    { rewrite pred_eq_pos by lra. unfold pred_pos. rewrite (mag_unique_pos radix2 y e) by (split; assumption). rewrite Req_bool_false by exact Ny.
      rewrite ulp_neq_0 by lra. unfold cexp. rewrite (mag_unique_pos radix2 y e) by (split; assumption). unfold FLT_exp. rewrite Z.max_l by lia. reflexivity. }
    rewrite Ep in Hp. pose proof (rnd_nearest r y F) as N.
    assert (r <= y) as Hr. { destruct (Rle_lt_dec r y) as [|X]; [assumption|]. exfalso. apply Rlt_le, rnd_le in X. rewrite (rnd_id y F) in X. lra. }
    rewrite (Rabs_pos_eq (y - r)) in N by lra. apply Rabs_le_inv in N.
    assert (bpow radix2 (e - 53) = eps * bpow radix2 e) as Eu by (unfold Z.sub; rewrite bpow_plus; change (bpow radix2 (- (53))) with eps; ring).
    assert (succ radix2 fe y <= bpow radix2 e) as Hs.
    { apply succ_le_lt; [apply FLT_exp_valid; reflexivity|exact F|apply fits_bpow; lia|exact He2]. }
    rewrite succ_eq_pos in Hs by lra. rewrite ulp_neq_0 in Hs by lra. unfold cexp in Hs. rewrite (mag_unique_pos radix2 y e) in Hs by (split; assumption).
    unfold FLT_exp in Hs. rewrite Z.max_l in Hs by lia. rewrite Eu in *. set (B := bpow radix2 e) in *. assert (0 < B) as PB by apply bpow_gt_0.
    assert (y * (1 - eps / 2 - eps * eps / 7) <= r) as K.
    { destruct (Rle_lt_dec (y * (1 - eps / 2 - eps * eps / 7)) r) as [|X]; [assumption|exfalso]. 
      assert (r * r <= (y * (1 - eps / 2 - eps * eps / 7)) * (y * (1 - eps / 2 - eps * eps / 7))) as Y by (apply Rmult_le_compat; lra).
      assert ((1 - eps / 2 - eps * eps / 7) * (1 - eps / 2 - eps * eps / 7) < 1 - eps) as Z by (unfold eps; lra). 
      assert (0 < y * y) as Py by (apply Rmult_lt_0_compat; assumption).
      pose proof (Rmult_lt_compat_l (y * y) _ _ Py Z) as W. rewrite Er in Y. lra. }
    assert (eps * B <= y * (eps + 2 * (eps * eps / 7))) as K2 by lra.
    assert (y <= B * (1 - eps)) as K3 by lra.
    pose proof (Rmult_le_compat_r (eps + 2 * (eps * eps / 7)) _ _ ltac:(unfold eps; lra) K3) as K4.
    assert ((1 - eps) * (eps + 2 * (eps * eps / 7)) < eps) as K5 by (unfold eps; lra).
    pose proof (Rmult_lt_compat_l B _ _ PB K5) as K6. lra.
Qed.
Lemma fits_abs x : fits x -> fits (Rabs x).
Proof. apply generic_format_abs. Qed.
(** the length is not below any component *)
Lemma length_ge x y z : number x -> number y -> number z -> bpow radix2 (-500) <= len3 (value x) (value y) (value z) <= bpow radix2 500 ->
  let n := value (f_length (x, y, z)) in Rabs (value x) <= n /\ Rabs (value y) <= n /\ Rabs (value z) <= n.
Proof.
  intros Nx Ny Nz LH. destruct (length_val x y z Nx Ny Nz LH) as (_ & Pn & En). destruct LH as [L H].
  assert (bpow radix2 (-510) <= value (f_length (x, y, z))) as Low.
  { apply Rabs_le_inv in En. unfold eps in En. assert (bpow radix2 (-510) = bpow radix2 (-500) * bpow radix2 (-10)) as -> by (rewrite <- bpow_plus; reflexivity).
    change (bpow radix2 (-10)) with (/ 1024). assert (0 < bpow radix2 (-500)) by apply bpow_gt_0. lra. }
  revert Low. clear Pn En.
  set (a := value x) in *. set (b := value y) in *. set (c := value z) in *. set (l := len3 a b c) in *.
  pose proof (len_sq a b c) as El. fold l in El. assert (0 < bpow radix2 (-500)) as P5 by apply bpow_gt_0.
  assert (low <= l * l <= high) as LH.
  { unfold low, high. change (-1000)%Z with (-500 + -500)%Z. change 1000%Z with (500 + 500)%Z. rewrite !bpow_plus. split; apply Rmult_le_compat; lra. }
  destruct (squares (a * a) (b * b) (c * c) (l * l) ltac:(nra) ltac:(nra) ltac:(nra) ltac:(lra) LH) as (E & S & S1 & S2 & S3 & S4 & S5).
  destruct (mul_val x x Nx Nx S1) as [N1 V1]. destruct (mul_val y y Ny Ny S2) as [N2 V2]. destruct (mul_val z z Nz Nz S3) as [N3 V3]. fold a in V1. fold b in V2. fold c in V3.
  destruct (add_val _ _ N1 N2) as [N4 V4]; [now rewrite V1, V2|]. rewrite V1, V2 in V4.
  destruct (add_val _ _ N4 N3) as [N5 V5]; [now rewrite V4, V3|]. rewrite V4, V3 in V5.
  destruct (sqrt_val _ N5) as [N6 V6]; [now rewrite V5|]. rewrite V5 in V6.
  unfold f_length. rewrite V6. set (s := rnd (rnd (rnd (a * a) + rnd (b * b)) + rnd (c * c))) in *. intros Low.
  assert (forall t, 0 <= rnd (t * t)) as P by (intros t; rewrite <- rnd_0; apply rnd_le; nra).
  assert (forall t, rnd (rnd t) = rnd t) as I by (intros t; apply rnd_id, fits_rnd).
  assert (forall t, fits t -> rnd (t * t) <= s -> Rabs t <= rnd (sqrt s)) as G.
  { intros t Ft Hs. destruct (Rle_lt_dec (bpow radix2 (-510)) (Rabs t)) as [T|T]; [|lra].
    eapply Rle_trans; [apply (root_square (Rabs t) (fits_abs t Ft) T)|]. apply rnd_le, sqrt_le_1_alt. replace (Rabs t * Rabs t) with (t * t) by (rewrite <- Rabs_mult; symmetry; apply Rabs_pos_eq; nra). exact Hs. }
  pose proof (P a) as Pa. pose proof (P b) as Pb. pose proof (P c) as Pc.
  assert (rnd (a * a) <= rnd (rnd (a * a) + rnd (b * b))) as A1 by (rewrite <- I at 1; apply rnd_le; lra).
  assert (rnd (b * b) <= rnd (rnd (a * a) + rnd (b * b))) as B1 by (rewrite <- I at 1; apply rnd_le; lra).
  assert (rnd (rnd (a * a) + rnd (b * b)) <= s) as C1 by (unfold s; rewrite <- I at 1; apply rnd_le; lra).
  assert (rnd (c * c) <= s) as C2 by (unfold s; rewrite <- I at 1; apply rnd_le; lra).
  cbv zeta. repeat split; apply G; try apply value_fits; auto; lra.
Qed.
Lemma rnd_unit x : -1 <= x <= 1 -> -1 <= rnd x <= 1.
Proof. intros H. rewrite <- (rnd_id (-1)) by (apply (fits_Z (-1)); lia). rewrite <- (rnd_id 1) by (apply (fits_Z 1); lia). split; apply rnd_le; lra. Qed.
Lemma quotient_cosine x n : number x -> number n -> 0 < value n -> Rabs (value x) <= value n -> cosine (f_div x n).
Proof.
  intros Nx Nn P H. apply Rabs_le_inv in H. assert (-1 <= value x / value n <= 1) as Q.
  { split; apply Rmult_le_reg_r with (value n); try exact P; unfold Rdiv; rewrite Rmult_assoc, Rinv_l by lra; lra. }
  destruct (div_val x n Nx Nn) as [Nd Vd]; [lra| |].
  - apply small_of. apply Rabs_le. assert (2 ^ 60 = 1152921504606846976) as -> by (cbn; lra). lra.
  - split; [exact Nd|]. rewrite Vd. apply rnd_unit. exact Q.
Qed.
Lemma norm_cosines x y z : number x -> number y -> number z -> / 2 ^ 500 <= len3 (value x) (value y) (value z) <= 2 ^ 500 ->
  let '(x', y', z') := norm_f64 (x, y, z) in cosine x' /\ cosine y' /\ cosine z'.
Proof.
  intros Nx Ny Nz L. rewrite !pow_bpow in L. rewrite <- bpow_opp in L. destruct (length_val x y z Nx Ny Nz L) as (Nn & Pn & _).
  destruct (length_ge x y z Nx Ny Nz L) as (X & Y & Z). unfold norm_f64. split; [|split]; apply quotient_cosine; assumption.
Qed.

Lemma ltb_val x y : number x -> number y -> SFltb x y = Rlt_bool (value x) (value y).
Proof.
  intros X Y. apply number_B in X, Y. destruct X as (a & <- & Fa), Y as (b & <- & Fb). rewrite !value_B. exact (Bltb_correct 53 1024 a b Fa Fb).
Qed.
Lemma clip_cosine x : number x -> cosine (f_clip1 x) /\ (-1 <= value x <= 1 -> f_clip1 x = x).
Proof.
  intros N. unfold f_clip1. destruct (of_Z_val (-1)) as [Nm Vm]; [lia|]. destruct (of_Z_val 1) as [N1 V1]; [lia|].
  rewrite !ltb_val, Vm, V1 by assumption. destruct (Rlt_bool_spec (value x) (-1)) as [A|A]; [|destruct (Rlt_bool_spec 1 (value x)) as [B|B]].
  - split; [|lra]. split; [exact Nm|]. rewrite Vm. lra.
  - split; [|lra]. split; [exact N1|]. rewrite V1. lra.
  - split; [|reflexivity]. split; [exact N|]. lra.
Qed.
Definition below (e : Z) (x : R) : Prop := Rabs x <= bpow radix2 e.
Lemma below_small e x : (e <= 1023)%Z -> below e x -> small x.
Proof. intros E H. unfold small. eapply Rle_trans; [exact H|]. now apply bpow_le. Qed.
Lemma below_rnd e x : (-1074 <= e)%Z -> below e x -> below e (rnd x).
Proof. apply rnd_bound. Qed.
Lemma below_mul a b x y : below a x -> below b y -> below (a + b) (x * y).
Proof. unfold below. intros X Y. rewrite Rabs_mult, bpow_plus. apply Rmult_le_compat; auto using Rabs_pos. Qed.
Lemma below_add e x y : below e x -> below e y -> below (e + 1) (x + y).
Proof. unfold below. intros X Y. rewrite bpow_plus. change (bpow radix2 1) with 2. eapply Rle_trans; [apply Rabs_triang|]. lra. Qed.
Lemma below_le e f x : (e <= f)%Z -> below e x -> below f x.
Proof. unfold below. intros E H. eapply Rle_trans; [exact H|]. now apply bpow_le. Qed.
Definition below3 (e : Z) (v : fvec) : Prop :=
  let '(x, y, z) := v in (number x /\ below e (value x)) /\ (number y /\ below e (value y)) /\ (number z /\ below e (value z)).
Lemma dot_val a b : below3 500 a -> below3 500 b ->
  let '(x, y, z) := a in let '(x', y', z') := b in number (f_dot a b) /\
  value (f_dot a b) = rnd (rnd (rnd (value x * value x') + rnd (value y * value y')) + rnd (value z * value z')).
Proof.
  destruct a as [[x y] z], b as [[x' y'] z']. intros ((Nx & Bx) & (Ny & By) & (Nz & Bz)) ((Nx' & Bx') & (Ny' & By') & (Nz' & Bz')).
  pose proof (below_mul _ _ _ _ Bx Bx') as Mx. pose proof (below_mul _ _ _ _ By By') as My. pose proof (below_mul _ _ _ _ Bz Bz') as Mz.
  destruct (mul_val x x' Nx Nx' (below_small 1000 _ ltac:(lia) Mx)) as [N1 V1]. destruct (mul_val y y' Ny Ny' (below_small 1000 _ ltac:(lia) My)) as [N2 V2].
  destruct (mul_val z z' Nz Nz' (below_small 1000 _ ltac:(lia) Mz)) as [N3 V3].
  apply below_rnd in Mx, My, Mz; try lia. pose proof (below_add _ _ _ Mx My) as A1.
  destruct (add_val _ _ N1 N2) as [N4 V4]; [rewrite V1, V2; apply (below_small 1001 _ ltac:(lia) A1)|]. rewrite V1, V2 in V4.
  apply below_rnd in A1; try lia. pose proof (below_add _ _ _ A1 (below_le 1000 1001 _ ltac:(lia) Mz)) as A2.
  destruct (add_val _ _ N4 N3) as [N5 V5]; [rewrite V4, V3; apply (below_small 1002 _ ltac:(lia) A2)|]. rewrite V4, V3 in V5.
  unfold f_dot. auto.
Qed.
Lemma ctheta_cosine a b : below3 500 a -> below3 500 b -> cosine (ctheta_f64 a b).
Proof.
  intros A B. pose proof (dot_val a b A B) as D. destruct a as [[x y] z], b as [[x' y'] z']. destruct D as [N _]. unfold ctheta_f64. now apply clip_cosine.
Qed.
Lemma pow_below (x : R) : Rabs x <= 2 ^ 500 -> below 500 x.
Proof. unfold below. now rewrite pow_bpow. Qed.
Lemma ctheta_defined x y z x' y' z' : number x -> number y -> number z -> number x' -> number y' -> number z' ->
  Rabs (value x) <= 2 ^ 500 -> Rabs (value y) <= 2 ^ 500 -> Rabs (value z) <= 2 ^ 500 ->
  Rabs (value x') <= 2 ^ 500 -> Rabs (value y') <= 2 ^ 500 -> Rabs (value z') <= 2 ^ 500 -> cosine (ctheta_f64 (x, y, z) (x', y', z')).
Proof. intros. apply ctheta_cosine; (repeat (split; [split; [assumption|now apply pow_below]|])); (split; [assumption|now apply pow_below]). Qed.
Lemma tau_defined x y z : number x -> number y -> / 2 ^ 500 <= len3 (value x) (value y) 0 <= 2 ^ 500 -> cosine (tau_cos (x, y, z)).
Proof.
  intros Nx Ny L. destruct (of_Z_val 0) as [N0 V0]; [lia|]. destruct (of_Z_val 1) as [N1 V1]; [lia|].
  pose proof (norm_cosines x y (f_of_Z 0) Nx Ny N0) as C. rewrite V0 in C. specialize (C L). unfold tau_cos, to_plane_f64.
  destruct (norm_f64 (x, y, f_of_Z 0)) as [[x' y'] z']. destruct C as ((Mx & Cx) & (My & Cy) & (Mz & Cz)).
  assert (forall t, -1 <= t <= 1 -> below 500 t) as U.
  { intros t H. apply below_le with 0%Z; [lia|]. unfold below. apply Rabs_le. exact H. }
  pose proof (dot_val (f_of_Z 0, f_of_Z 1, f_of_Z 0) (x', y', z')) as D. cbv beta iota in D. rewrite V0, V1 in D.
  destruct D as [N V].
  { unfold below3. rewrite V0, V1. split; [|split]; (split; [assumption|apply U; lra]). }
  { unfold below3. split; [|split]; (split; [assumption|now apply U]). }
  split; [exact N|]. rewrite V. rewrite !Rmult_0_l, Rmult_1_l, rnd_0, Rplus_0_l, Rplus_0_r.
  repeat (rewrite (rnd_id (rnd _)) by apply fits_rnd). now apply rnd_unit.
Qed.
Lemma opp_val x : number x -> number (SFopp x) /\ value (SFopp x) = - value x.
Proof.
  intros N. apply number_B in N. destruct N as (b & <- & F). assert (SFopp (B2SF b) = B2SF (Bopp b)) as -> by (destruct b; reflexivity).
  rewrite !value_B, B2R_Bopp. split; [|reflexivity]. apply number_B. exists (Bopp b). now rewrite is_finite_Bopp.
Qed.
Lemma ring_defined z : cosine z -> number (ring_radius z) /\ 0 <= value (ring_radius z) <= 1.
Proof.
  intros [N H]. assert (0 <= value z * value z <= 1) as S by nra. destruct (of_Z_val 1) as [N1 V1]; [lia|].
  assert (2 ^ 60 = 1152921504606846976) as P60 by (cbn; lra).
  destruct (mul_val z z N N) as [N2 V2]; [apply small_of, Rabs_le; lra|].
  assert (0 <= rnd (value z * value z) <= 1) as R. { split; [rewrite <- rnd_0; apply rnd_le; lra|]. apply (rnd_unit (value z * value z)). lra. }
  destruct (opp_val _ N2) as [N3 V3]. destruct (add_val _ _ N1 N3) as [N4 V4]; [rewrite V1, V3, V2; apply small_of, Rabs_le; lra|]. rewrite V1, V3, V2 in V4.
  assert (0 <= rnd (1 + - rnd (value z * value z)) <= 1) as R2. { split; [rewrite <- rnd_0; apply rnd_le; lra|]. apply (rnd_unit (1 + - rnd (value z * value z))). lra. }
  destruct (sqrt_val _ N4) as [N5 V5]; [rewrite V4; lra|]. unfold ring_radius, f_sub. split; [exact N5|]. rewrite V5, V4.
  assert (0 <= sqrt (rnd (1 + - rnd (value z * value z))) <= 1) as Q. { split; [apply sqrt_pos|]. rewrite <- sqrt_1 at 2. apply sqrt_le_1_alt. lra. }
  split; [rewrite <- rnd_0; apply rnd_le; lra|]. apply (rnd_unit (sqrt _)). lra.
Qed.
Lemma chord_large : let v := norm_f64 (f_of_Z 1, f_of_Z 12, f_of_Z 34) in let w := norm_f64 (f_of_Z (-1), f_of_Z (-12), f_of_Z (-34)) in
  number (half_chord (f_distance v w)) /\ 1 < value (half_chord (f_distance v w)) /\
  number (f_dot v v) /\ 1 < value (f_dot v v) /\ ctheta_f64 v v = f_of_Z 1.
Proof.
  cbv zeta.
  assert (half_chord (f_distance (norm_f64 (f_of_Z 1, f_of_Z 12, f_of_Z 34)) (norm_f64 (f_of_Z (-1), f_of_Z (-12), f_of_Z (-34)))) = S754_finite false 4503599627370497 (-52)) as ->
    by (vm_compute; reflexivity).
  assert (f_dot (norm_f64 (f_of_Z 1, f_of_Z 12, f_of_Z 34)) (norm_f64 (f_of_Z 1, f_of_Z 12, f_of_Z 34)) = S754_finite false 4503599627370498 (-52)) as ->
    by (vm_compute; reflexivity).
  split; [split; [reflexivity|exact I]|]. split; [|split; [split; [reflexivity|exact I]|split; [|vm_compute; reflexivity]]].
  - cbn [value]. change (powerRZ 2 (-52)) with (/ 2 ^ 52). assert (2 ^ 52 = 4503599627370496) as -> by (cbn; lra). lra.
  - cbn [value]. change (powerRZ 2 (-52)) with (/ 2 ^ 52). assert (2 ^ 52 = 4503599627370496) as -> by (cbn; lra). lra.
Qed.

Lemma norm_thetas x y z : number x -> number y -> number z -> / 2 ^ 500 <= len3 (value x) (value y) (value z) <= 2 ^ 500 ->
  (let '(x', y', z') := norm_f64 (x, y, z) in cosine x' /\ cosine y' /\ cosine z') /\ cosine (theta_cos (norm_f64 (x, y, z))).
Proof. intros X Y Z L. pose proof (norm_cosines x y z X Y Z L) as C. destruct (norm_f64 (x, y, z)) as [[x' y'] z']. split; [exact C|]. apply C. Qed.
Lemma ctheta_clips x y z x' y' z' : number x -> number y -> number z -> number x' -> number y' -> number z' ->
  Rabs (value x) <= 2 ^ 500 -> Rabs (value y) <= 2 ^ 500 -> Rabs (value z) <= 2 ^ 500 ->
  Rabs (value x') <= 2 ^ 500 -> Rabs (value y') <= 2 ^ 500 -> Rabs (value z') <= 2 ^ 500 ->
  cosine (ctheta_f64 (x, y, z) (x', y', z')) /\
  (cosine (f_dot (x, y, z) (x', y', z')) -> ctheta_f64 (x, y, z) (x', y', z') = f_dot (x, y, z) (x', y', z')).
Proof. intros. split; [now apply ctheta_defined|]. intros [N C]. unfold ctheta_f64. now apply clip_cosine. Qed.
Lemma angles_sample : exists x y z, number x /\ number y /\ number z /\ / 2 ^ 500 <= len3 (value x) (value y) (value z) <= 2 ^ 500 /\
  / 2 ^ 500 <= len3 (value x) (value y) 0 <= 2 ^ 500 /\ Rabs (value x) <= 2 ^ 500 /\ Rabs (value y) <= 2 ^ 500 /\ Rabs (value z) <= 2 ^ 500 /\
  tau_cos (x, y, z) = S754_finite false 7205759403792794 (-53) /\ ring_radius (tau_cos (x, y, z)) = S754_finite false 5404319552844594 (-53).
Proof.
  destruct (of_Z_val 3) as [N3 V3]; [lia|]. destruct (of_Z_val 4) as [N4 V4]; [lia|]. destruct (of_Z_val 12) as [N0 V0]; [lia|].
  exists (f_of_Z 3), (f_of_Z 4), (f_of_Z 12). rewrite V3, V4, V0. repeat (split; [assumption|]).
  unfold len3. replace (3 * 3 + 4 * 4 + 0 * 0) with (5 * 5) by ring. replace (3 * 3 + 4 * 4 + 12 * 12) with (13 * 13) by ring. rewrite !sqrt_square by lra.
  assert (2 ^ 4 <= 2 ^ 500) by (apply Rle_pow; [lra|lia]). assert (/ 2 ^ 500 <= / 1) by (apply Rinv_le_contravar; lra).
  rewrite !Rabs_pos_eq by lra. split; [lra|]. split; [lra|]. split; [lra|]. split; [lra|]. split; [lra|]. split; vm_compute; reflexivity.
Qed.

(** * Accuracy *)
Lemma rnd_abs x M : 0 < M <= 4 -> Rabs x <= M -> Rabs (rnd x - x) <= 4 / 9007199254740992 + / 1152921504606846976.
Proof.
  intros M4 H. pose proof (rnd_err_any x) as E. rewrite eps_bpow in E. unfold eps in E.
  assert (bpow radix2 (-1075) <= / 1152921504606846976) as T.
  { change (/ 1152921504606846976) with (bpow radix2 (-60)). apply bpow_le. lia. }
  assert (/ 9007199254740992 * Rabs x <= / 9007199254740992 * 4) by (apply Rmult_le_compat_l; lra). lra.
Qed.
Lemma clip_near x y d : Rabs (x - y) <= d -> Rabs (clip x (-1) 1 - clip y (-1) 1) <= d.
Proof.
  intros H. unfold clip, Rmin, Rmax. repeat destruct Rle_dec; unfold Rabs in *; repeat destruct Rcase_abs; lra.
Qed.
Lemma clip_value x : number x -> value (f_clip1 x) = clip (value x) (-1) 1.
Proof.
  intros N. unfold f_clip1. destruct (of_Z_val (-1)) as [Nm Vm]; [lia|]. destruct (of_Z_val 1) as [N1 V1]; [lia|].
  rewrite !ltb_val, Vm, V1 by assumption. unfold clip, Rmin, Rmax.
  destruct (Rlt_bool_spec (value x) (-1)) as [A|A]; [|destruct (Rlt_bool_spec 1 (value x)) as [B|B]]; rewrite ?Vm, ?V1; repeat destruct Rle_dec; lra.
Qed.
Lemma cosine_below x : cosine x -> number x /\ below 500 (value x).
Proof. intros [N C]. split; [exact N|]. apply below_le with 0%Z; [lia|]. unfold below. apply Rabs_le. exact C. Qed.
Lemma ctheta_accurate x y z x' y' z' : cosine x -> cosine y -> cosine z -> cosine x' -> cosine y' -> cosine z' ->
  Rabs (value (ctheta_f64 (x, y, z) (x', y', z')) - clip (value x * value x' + value y * value y' + value z * value z') (-1) 1) <= / 2 ^ 48.
Proof.
  intros X Y Z X' Y' Z'.
  pose proof (dot_val (x, y, z) (x', y', z') (conj (cosine_below _ X) (conj (cosine_below _ Y) (cosine_below _ Z)))
    (conj (cosine_below _ X') (conj (cosine_below _ Y') (cosine_below _ Z')))) as [N V].
  unfold ctheta_f64. rewrite clip_value by exact N. apply clip_near. rewrite V. clear N V.
  destruct X as [_ X], Y as [_ Y], Z as [_ Z], X' as [_ X'], Y' as [_ Y'], Z' as [_ Z'].
  generalize dependent (value x). generalize dependent (value y). generalize dependent (value z).
  generalize dependent (value x'). generalize dependent (value y'). generalize dependent (value z').
  intros c' C' b' B' a' A' c C b B a A.
  assert (forall s t, -1 <= s <= 1 -> -1 <= t <= 1 -> -1 <= s * t <= 1) as U by (intros; nra).
  pose proof (U a a' A A') as Pa. pose proof (U b b' B B') as Pb. pose proof (U c c' C C') as Pc.
  generalize dependent (a * a'). generalize dependent (b * b'). generalize dependent (c * c'). intros r Hr q Hq p Hp. clear - Hr Hq Hp.
  assert (/ 2 ^ 48 = / 281474976710656) as -> by (f_equal; cbn; lra).
  pose proof (rnd_unit _ Hp) as Up. pose proof (rnd_unit _ Hq) as Uq. pose proof (rnd_unit _ Hr) as Ur.
  pose proof (rnd_abs p 1 ltac:(lra) ltac:(apply Rabs_le; lra)) as Ep. pose proof (rnd_abs q 1 ltac:(lra) ltac:(apply Rabs_le; lra)) as Eq.
  pose proof (rnd_abs r 1 ltac:(lra) ltac:(apply Rabs_le; lra)) as Er.
  generalize dependent (rnd p). generalize dependent (rnd q). generalize dependent (rnd r). intros r1 Ur Er q1 Uq Eq p1 Up Ep.
  pose proof (rnd_abs (p1 + q1) 2 ltac:(lra) ltac:(apply Rabs_le; lra)) as Es. apply Rabs_le_inv in Es, Ep, Eq, Er.
  assert (-3 <= rnd (p1 + q1) <= 3) as Us by lra.
  generalize dependent (rnd (p1 + q1)). intros s1 Es Us.
  pose proof (rnd_abs (s1 + r1) 4 ltac:(lra) ltac:(apply Rabs_le; lra)) as Et. apply Rabs_le_inv in Et. apply Rabs_le. lra.
Qed.
Lemma theta_accurate x y z : number x -> number y -> number z -> / 2 ^ 500 <= len3 (value x) (value y) (value z) <= 2 ^ 500 ->
  Rabs (value (theta_cos (norm_f64 (x, y, z))) - value z / len3 (value x) (value y) (value z)) <= / 2 ^ 50.
Proof.
  intros X Y Z L. destruct (norm_unit x y z X Y Z L) as [H _]. unfold close_unit in H. destruct (norm_f64 (x, y, z)) as [[x' y'] z']. apply H.
Qed.
Lemma tau_value x y z : number x -> number y -> / 2 ^ 500 <= len3 (value x) (value y) 0 <= 2 ^ 500 ->
  Rabs (value (tau_cos (x, y, z)) - value y / len3 (value x) (value y) 0) <= / 2 ^ 50.
Proof.
  intros Nx Ny L. destruct (of_Z_val 0) as [N0 V0]; [lia|]. destruct (of_Z_val 1) as [N1 V1]; [lia|].
  pose proof (norm_cosines x y (f_of_Z 0) Nx Ny N0) as C. rewrite V0 in C. specialize (C L).
  pose proof (norm_unit x y (f_of_Z 0) Nx Ny N0) as U. rewrite V0 in U. destruct (U L) as [H _]. clear U. unfold close_unit in H.
  unfold tau_cos, to_plane_f64. destruct (norm_f64 (x, y, f_of_Z 0)) as [[x' y'] z']. rewrite V0 in H. destruct C as (Cx & Cy & Cz).
  assert (cosine (f_of_Z 0)) as C0 by (split; [exact N0|rewrite V0; lra]). assert (cosine (f_of_Z 1)) as C1 by (split; [exact N1|rewrite V1; lra]).
  pose proof (dot_val (f_of_Z 0, f_of_Z 1, f_of_Z 0) (x', y', z') (conj (cosine_below _ C0) (conj (cosine_below _ C1) (cosine_below _ C0)))
    (conj (cosine_below _ Cx) (conj (cosine_below _ Cy) (cosine_below _ Cz)))) as [N V].
  rewrite V, V0, V1, !Rmult_0_l, Rmult_1_l, rnd_0, Rplus_0_l, Rplus_0_r.
  repeat (rewrite (rnd_id (rnd _)) by apply fits_rnd). rewrite rnd_id by (apply value_fits, Cy). apply H.
Qed.
