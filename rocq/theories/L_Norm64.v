(** Lemmas for Prop_Float.v: unit vectors *)
From Coq Require Import ZArith Reals Floats.SpecFloat Lra Lia.
From Flocq Require Import Core BinarySingleNaN Relative.
From Verif Require Import M_Float S_Float M_Bin64 L_Float64 L_Bin64.
Local Open Scope R_scope.

Definition eta : R := bpow radix2 (-1075).
Definition low : R := bpow radix2 (-1000).
Definition high : R := bpow radix2 1000.
Lemma eta_low : eta <= eps * / 1048576 * low.
Proof.
  unfold eta, low. rewrite <- eps_bpow. change (/ 1048576) with (bpow radix2 (-20)). rewrite <- !bpow_plus. apply bpow_le. reflexivity || lia.
Qed.
Lemma eta_pos : 0 < eta. Proof. apply bpow_gt_0. Qed.
Lemma low_pos : 0 < low. Proof. apply bpow_gt_0. Qed.
Lemma err x : Rabs (rnd x - x) <= eps * Rabs x + eta.
Proof. rewrite <- eps_bpow. apply rnd_err_any. Qed.
Lemma small_high x : Rabs x <= 8 * high -> small x.
Proof.
  intros H. unfold small. eapply Rle_trans; [exact H|]. unfold high. change 8 with (bpow radix2 3). rewrite <- bpow_plus. apply bpow_le. lia.
Qed.
Lemma err_pos x : 0 <= x -> x - (eps * x + eta) <= rnd x <= x + (eps * x + eta) /\ 0 <= rnd x.
Proof.
  intros H. pose proof (err x) as E. rewrite (Rabs_pos_eq x) in E by exact H. apply Rabs_le_inv in E. split; [lra|]. rewrite <- rnd_0. now apply rnd_le.
Qed.
(** the sum of the squares *)
Lemma squares a b c M : 0 <= a -> 0 <= b -> 0 <= c -> a + b + c = M -> low <= M <= high ->
  let s := rnd (rnd (rnd a + rnd b) + rnd c) in
  Rabs (s - M) <= 4 * eps * M /\ 0 <= s /\ small a /\ small b /\ small c /\ small (rnd a + rnd b) /\ small (rnd (rnd a + rnd b) + rnd c).
Proof.
  intros A B C E [L H] s. pose proof eta_low as EL. pose proof eta_pos as EP. pose proof low_pos as LP.
  destruct (err_pos a A) as [Ea Pa]. destruct (err_pos b B) as [Eb Pb]. destruct (err_pos c C) as [Ec Pc].
  destruct (err_pos (rnd a + rnd b) ltac:(lra)) as [E1 P1]. destruct (err_pos (rnd (rnd a + rnd b) + rnd c) ltac:(lra)) as [E2 P2]. fold s in E2, P2.
  assert (eta <= eps * / 1048576 * M) as EM. { eapply Rle_trans; [exact EL|]. apply Rmult_le_compat_l; [unfold eps; lra|exact L]. }
  unfold eps in *. generalize dependent (rnd (rnd a + rnd b)). intros t E1 P1 s E2 P2. generalize dependent (rnd a). generalize dependent (rnd b). generalize dependent (rnd c).
  intros rc Ec Pc E2' rb Eb Pb ra Ea Pa E1'. generalize dependent eta. intros et Ha Hb Hc H1 H2 H3.
  split; [apply Rabs_le; lra|]. split; [lra|].
  repeat split; apply small_high; rewrite Rabs_pos_eq by lra; lra.
Qed.
Lemma sqrt_close s M : 0 <= s -> low <= M <= high -> Rabs (s - M) <= 4 * eps * M ->
  let n := rnd (sqrt s) in Rabs (n - sqrt M) <= 4 * eps * sqrt M /\ 0 < n.
Proof.
  intros S [L H] E n. pose proof low_pos as LP. set (l := sqrt M). assert (l * l = M) as El by (apply sqrt_sqrt; lra).
  assert (bpow radix2 (-500) <= l) as Ll.
  { apply Rsqr_incr_0_var; [|apply sqrt_pos]. unfold Rsqr. rewrite El, <- bpow_plus. exact L. }
  assert (0 < bpow radix2 (-500)) as P5 by apply bpow_gt_0.
  set (r := sqrt s). assert (r * r = s) as Er by (apply sqrt_sqrt; exact S). assert (0 <= r) as Pr by apply sqrt_pos.
  apply Rabs_le_inv in E. unfold eps in E.
  assert (Rabs (r - l) <= 5 / 2 * eps * l) as E1.
  { apply Rabs_le. unfold eps. split; apply Rnot_lt_le; intros X; nra. }
  apply Rabs_le_inv in E1. unfold eps in E1.
  assert (bpow radix2 (-501) <= r) as Lr. { change (-501)%Z with (-500 + -1)%Z. rewrite bpow_plus. change (bpow radix2 (-1)) with (/ 2). lra. }
  pose proof (rnd_err r) as E2. rewrite eps_bpow, Rabs_pos_eq in E2 by exact Pr. specialize (E2 ltac:(eapply Rle_trans; [|exact Lr]; apply bpow_le; lia)).
  fold n in E2. change (rnd r) with n in E2. apply Rabs_le_inv in E2. unfold eps in *. split; [apply Rabs_le; lra|lra].
Qed.
Lemma quotient_close x n l : 0 < l -> 0 < n -> Rabs x <= l -> Rabs (n - l) <= 4 * eps * l ->
  Rabs (x / n) <= 2 /\ Rabs (rnd (x / n) - x / l) <= 8 * eps.
Proof.
  intros L N X E. apply Rabs_le_inv in E. apply Rabs_le_inv in X. unfold eps in E.
  assert (Rabs (x / n - x / l) <= 5 * eps) as E1.
  { replace (x / n - x / l) with (x / l * ((l - n) / n)) by (field; lra). rewrite Rabs_mult. apply Rle_trans with (1 * (5 * eps)); [|lra]. apply Rmult_le_compat; try apply Rabs_pos.
    - apply Rabs_le. split; [apply Rmult_le_reg_r with l|apply Rmult_le_reg_r with l]; try exact L; unfold Rdiv; rewrite Rmult_assoc, Rinv_l by lra; lra.
    - unfold eps. apply Rabs_le. split; apply Rmult_le_reg_r with n; try exact N; unfold Rdiv; rewrite Rmult_assoc, Rinv_l by lra; lra. }
  assert (Rabs (x / l) <= 1) as E0. { apply Rabs_le. split; apply Rmult_le_reg_r with l; try exact L; unfold Rdiv; rewrite Rmult_assoc, Rinv_l by lra; lra. }
  pose proof (err (x / n)) as E2. assert (Rabs (x / n) <= 1 + 5 * eps) as E3.
  { replace (x / n) with ((x / n - x / l) + x / l) by ring. eapply Rle_trans; [apply Rabs_triang|]. lra. }
  split; [unfold eps in E3; lra|].
  replace (rnd (x / n) - x / l) with ((rnd (x / n) - x / n) + (x / n - x / l)) by ring. eapply Rle_trans; [apply Rabs_triang|].
  assert (eta <= eps) as Ee by (rewrite <- eps_bpow; apply bpow_le; lia).
  assert (eps * Rabs (x / n) <= eps * (1 + 5 * eps)) as E4 by (apply Rmult_le_compat_l; [unfold eps; lra|exact E3]). unfold eps in *. lra.
Qed.
Lemma len_sq x y z : len3 x y z * len3 x y z = x * x + y * y + z * z.
Proof. apply sqrt_sqrt. nra. Qed.
Lemma length_val x y z : number x -> number y -> number z -> bpow radix2 (-500) <= len3 (value x) (value y) (value z) <= bpow radix2 500 ->
  let n := f_length (x, y, z) in number n /\ 0 < value n /\ Rabs (value n - len3 (value x) (value y) (value z)) <= 4 * eps * len3 (value x) (value y) (value z).
Proof.
  intros Nx Ny Nz [L H]. set (a := value x) in *. set (b := value y) in *. set (c := value z) in *. set (l := len3 a b c) in *.
  pose proof (len_sq a b c) as El. fold l in El. assert (0 < bpow radix2 (-500)) as P5 by apply bpow_gt_0.
  assert (low <= l * l <= high) as LH.
  { unfold low, high. change (-1000)%Z with (-500 + -500)%Z. change 1000%Z with (500 + 500)%Z. rewrite !bpow_plus. split; apply Rmult_le_compat; lra. }
  destruct (squares (a * a) (b * b) (c * c) (l * l) ltac:(nra) ltac:(nra) ltac:(nra) ltac:(lra) LH) as (E & S & S1 & S2 & S3 & S4 & S5).
  destruct (mul_val x x Nx Nx S1) as [N1 V1]. destruct (mul_val y y Ny Ny S2) as [N2 V2]. destruct (mul_val z z Nz Nz S3) as [N3 V3]. fold a in V1. fold b in V2. fold c in V3.
  destruct (add_val _ _ N1 N2) as [N4 V4]; [now rewrite V1, V2|]. rewrite V1, V2 in V4.
  destruct (add_val _ _ N4 N3) as [N5 V5]; [now rewrite V4, V3|]. rewrite V4, V3 in V5.
  destruct (sqrt_val _ N5) as [N6 V6]; [now rewrite V5|]. rewrite V5 in V6.
  destruct (sqrt_close _ (l * l) S LH E) as [E1 E2]. rewrite <- V6 in E1, E2. rewrite sqrt_square in E1 by lra.
  cbv zeta. unfold f_length. auto.
Qed.
Lemma abs_le_len x y z : Rabs x <= len3 x y z /\ Rabs y <= len3 x y z /\ Rabs z <= len3 x y z.
Proof.
  unfold len3. repeat split; rewrite <- sqrt_Rsqr_abs; apply sqrt_le_1_alt; unfold Rsqr; nra.
Qed.
Lemma div_close x n l : number x -> number n -> 0 < l -> 0 < value n -> Rabs (value x) <= l -> Rabs (value n - l) <= 4 * eps * l ->
  number (f_div x n) /\ Rabs (value (f_div x n) - value x / l) <= / 2 ^ 50.
Proof.
  intros Nx Nn L N X E. destruct (quotient_close (value x) (value n) l L N X E) as [Q1 Q2].
  destruct (div_val x n Nx Nn) as [Nd Vd]; [lra|apply small_of; assert (2 ^ 60 = 1152921504606846976) by (cbn; lra); lra|].
  split; [exact Nd|]. rewrite Vd. eapply Rle_trans; [exact Q2|]. unfold eps. assert (2 ^ 50 = 1125899906842624) as -> by (cbn; lra). lra.
Qed.
Lemma norm_close x y z : number x -> number y -> number z -> bpow radix2 (-500) <= len3 (value x) (value y) (value z) <= bpow radix2 500 ->
  close_unit (x, y, z) (norm_f64 (x, y, z)) /\ norm1_f64 (x, y, z) = norm_f64 (x, y, z).
Proof.
  intros Nx Ny Nz L. destruct (length_val x y z Nx Ny Nz L) as (Nn & Pn & En). set (n := f_length (x, y, z)) in *.
  assert (0 < len3 (value x) (value y) (value z)) as Pl by (eapply Rlt_le_trans; [|apply L]; apply bpow_gt_0).
  destruct (abs_le_len (value x) (value y) (value z)) as (A & B & C).
  destruct (div_close x n _ Nx Nn Pl Pn A En) as [X1 X2]. destruct (div_close y n _ Ny Nn Pl Pn B En) as [Y1 Y2]. destruct (div_close z n _ Nz Nn Pl Pn C En) as [Z1 Z2].
  split.
  - unfold norm_f64. fold n. unfold close_unit. auto.
  - unfold norm1_f64, norm_f64. fold n. replace (SFeqb n (f_of_Z 0)) with false; [reflexivity|].
    destruct (of_Z_val 0) as [N0 V0]; [lia|]. apply number_B in Nn, N0. destruct Nn as (bn & Eb & Fb), N0 as (b0 & E0 & F0). rewrite <- Eb, <- E0 in *. rewrite !value_B in *.
    symmetry. change (Beqb bn b0 = false). rewrite (Beqb_correct 53 1024 bn b0 Fb F0). apply Req_bool_false. lra.
Qed.
Lemma square_close q c d : Rabs c <= 1 -> 0 <= d <= 1 -> Rabs (q - c) <= d -> Rabs (q * q - c * c) <= 3 * d.
Proof.
  intros C D H. replace (q * q - c * c) with ((q - c) * (q - c + 2 * c)) by ring. rewrite Rabs_mult. apply Rle_trans with (d * 3); [|lra].
  apply Rmult_le_compat; try apply Rabs_pos; [exact H|]. eapply Rle_trans; [apply Rabs_triang|]. rewrite Rabs_mult, (Rabs_pos_eq 2) by lra. lra.
Qed.
Lemma unit_close v w : close_unit v w -> (let '(x, y, z) := v in 0 < len3 (value x) (value y) (value z)) ->
  let '(x, y, z) := w in Rabs (len3 (value x) (value y) (value z) - 1) <= / 2 ^ 46.
Proof.
  destruct v as [[x y] z], w as [[x' y'] z']. intros (_ & X & Y & Z) L. set (l := len3 (value x) (value y) (value z)) in *.
  pose proof (len_sq (value x) (value y) (value z)) as El. fold l in El.
  destruct (abs_le_len (value x) (value y) (value z)) as (A & B & C). fold l in A, B, C.
  assert (forall t, Rabs t <= l -> Rabs (t / l) <= 1) as Q.
  { intros t T. unfold Rdiv. rewrite Rabs_mult, (Rabs_pos_eq (/ l)) by (apply Rlt_le, Rinv_0_lt_compat; exact L). apply Rmult_le_reg_r with l; [exact L|]. rewrite Rmult_assoc, Rinv_l by lra. lra. }
  assert (2 ^ 50 = 1125899906842624) as P50 by (cbn; lra). assert (2 ^ 46 = 70368744177664) as P46 by (cbn; lra).
  assert (0 <= / 2 ^ 50 <= 1) as D by (rewrite P50; lra).
  pose proof (square_close _ _ _ (Q _ A) D X) as X'. pose proof (square_close _ _ _ (Q _ B) D Y) as Y'. pose proof (square_close _ _ _ (Q _ C) D Z) as Z'.
  rewrite P50 in *. rewrite P46.
  assert (value x / l * (value x / l) + value y / l * (value y / l) + value z / l * (value z / l) = 1) as U.
  { replace (value x / l * (value x / l) + value y / l * (value y / l) + value z / l * (value z / l)) with ((value x * value x + value y * value y + value z * value z) / (l * l)) by (field; lra). rewrite El. field. nra. }
  set (r := len3 (value x') (value y') (value z')). pose proof (len_sq (value x') (value y') (value z')) as Er. fold r in Er. assert (0 <= r) as Pr by apply sqrt_pos.
  apply Rabs_le_inv in X', Y', Z'. assert (Rabs (r * r - 1) <= 9 / 1125899906842624) as R by (apply Rabs_le; lra). apply Rabs_le_inv in R. clear - R Pr.
  apply Rabs_le. split; apply Rnot_lt_le; intros X; nra.
Qed.
Lemma pow_bpow n : 2 ^ n = bpow radix2 (Z.of_nat n).
Proof. rewrite pow_IZR. change (2 ^ Z.of_nat n)%Z with (Zpower radix2 (Z.of_nat n)). apply IZR_Zpower. lia. Qed.
Lemma norm_unit x y z : number x -> number y -> number z -> / 2 ^ 500 <= len3 (value x) (value y) (value z) <= 2 ^ 500 ->
  close_unit (x, y, z) (norm_f64 (x, y, z)) /\ (let '(x', y', z') := norm_f64 (x, y, z) in Rabs (len3 (value x') (value y') (value z') - 1) <= / 2 ^ 46) /\
  norm1_f64 (x, y, z) = norm_f64 (x, y, z).
Proof.
  intros Nx Ny Nz L. rewrite !pow_bpow in L. rewrite <- bpow_opp in L. destruct (norm_close x y z Nx Ny Nz L) as [C E]. split; [exact C|]. split; [|exact E].
  apply (unit_close _ _ C). eapply Rlt_le_trans; [|apply L]. apply bpow_gt_0.
Qed.
Lemma norm1_zero x y z : number x -> number y -> number z -> value x = 0 -> value y = 0 -> value z = 0 -> norm1_f64 (x, y, z) = (x, y, z).
Proof.
  assert (forall x, number x -> value x = 0 -> exists s, x = S754_zero s) as Z.
  { intros [s|s| |s m e] [_ F] V; try destruct F; [now exists s|]. exfalso. unfold value in V. assert (0 < IZR (Z.pos m)) by (apply IZR_lt; reflexivity). assert (0 < powerRZ 2 e) by (apply powerRZ_lt; lra).
    destruct s; nra. }
  intros Nx Ny Nz Vx Vy Vz. destruct (Z x Nx Vx) as [a ->]. destruct (Z y Ny Vy) as [b ->]. destruct (Z z Nz Vz) as [c ->]. destruct a, b, c; reflexivity.
Qed.
Lemma two_to_val e : (-1022 <= e <= 1023)%Z -> number (two_to e) /\ value (two_to e) = bpow radix2 e.
Proof.
  intros E. split; [split; [|exact I]|].
  - unfold two_to, valid_binary, bounded, canonical_mantissa. apply andb_true_intro. split.
    + unfold SpecFloat.fexp, SpecFloat.emin. change (digits2_pos (2 ^ 52)) with 53%positive.
      apply (proj1 (Zeq_is_eq_bool _ _)). lia.
    + apply Z.leb_le. lia.
  - rewrite value_SF2R. unfold SF2R, F2R, two_to. cbn [Fnum Fexp cond_Zopp]. change (IZR (Z.pos (2 ^ 52))) with (bpow radix2 52). rewrite <- bpow_plus. f_equal. lia.
Qed.
Lemma norm_large : let zero := S754_zero false in norm_f64 (two_to 600, zero, zero) = (zero, zero, zero) /\ norm1_f64 (two_to 600, zero, zero) = (zero, zero, zero).
Proof. split; vm_compute; reflexivity. Qed.
Lemma norm_tiny : let zero := S754_zero false in
  norm_f64 (two_to (-600), zero, zero) = (S754_infinity false, S754_nan, S754_nan) /\ norm1_f64 (two_to (-600), zero, zero) = (two_to (-600), zero, zero).
Proof. split; vm_compute; reflexivity. Qed.
