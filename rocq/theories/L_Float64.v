(** From the executable operations of SpecFloat to rounded real numbers, by way of Flocq *)
From Coq Require Import ZArith Reals Floats.SpecFloat Lra Lia.
From Flocq Require Import Core BinarySingleNaN Relative.
From Verif Require Import M_Float S_Float M_Bin64.
Local Open Scope R_scope.

Local Instance Hprec : FLX.Prec_gt_0 53 := eq_refl _.
Local Instance Hmax : Prec_lt_emax 53 1024 := eq_refl _.
Notation bf := (binary_float 53 1024).
Notation fe := (FLT_exp (-1074) 53).
Definition rnd (x : R) : R := round radix2 fe ZnearestE x.

Lemma fexp_fe : forall e, SpecFloat.fexp 53 1024 e = fe e.
Proof. reflexivity. Qed.
Lemma value_SF2R x : value x = SF2R radix2 x.
Proof.
  destruct x as [s|s| |s m e]; try reflexivity. unfold value, SF2R, F2R. cbn [Fnum Fexp]. rewrite bpow_powerRZ. change (IZR radix2) with 2.
  destruct s; cbn [cond_Zopp]; [change (Z.neg m) with (- Z.pos m)%Z; rewrite opp_IZR|]; ring.
Qed.
Lemma number_B x : number x <-> exists b : bf, B2SF b = x /\ is_finite b = true.
Proof.
  split.
  - intros [V F]. exists (SF2B x V). rewrite B2SF_SF2B. split; [reflexivity|]. destruct x; try reflexivity; destruct F.
  - intros (b & <- & F). split; [apply valid_binary_B2SF|]. destruct b; try discriminate F; exact I.
Qed.
Lemma value_B (b : bf) : value (B2SF b) = B2R b.
Proof. rewrite value_SF2R. apply SF2R_B2SF. Qed.

(** the operations agree with those of Flocq; after Flocq's PrimFloat.v *)
Lemma round_nearest_even_equiv s m l : round_nearest_even m l = choice_mode mode_NE s m l.
Proof. case l; [reflexivity|intro c]. case c; [|reflexivity..]. now simpl; unfold Round.cond_incr; case Z.even. Qed.
Lemma binary_round_aux_equiv sx mx ex lx : SpecFloat.binary_round_aux 53 1024 sx mx ex lx = BinarySingleNaN.binary_round_aux 53 1024 mode_NE sx mx ex lx.
Proof.
  unfold SpecFloat.binary_round_aux, binary_round_aux. set (mrse' := shr_fexp _ _ _). case mrse'; intros mrs' e'; simpl. now rewrite (round_nearest_even_equiv sx).
Qed.
Lemma binary_round_equiv s m e : SpecFloat.binary_round 53 1024 s m e = BinarySingleNaN.binary_round 53 1024 mode_NE s m e.
Proof. unfold SpecFloat.binary_round, binary_round, shl_align_fexp. set (mez := shl_align _ _ _); case mez as [mz ez]. apply binary_round_aux_equiv. Qed.
Lemma of_Z_B z : f_of_Z z = B2SF (binary_normalize 53 1024 Hprec Hmax mode_NE z 0 false).
Proof. unfold f_of_Z. case z as [|p|p]; [reflexivity| |]; simpl; rewrite B2SF_SF2B; apply binary_round_equiv. Qed.
Lemma mul_B (x y : bf) : f_mul (B2SF x) (B2SF y) = B2SF (Bmult mode_NE x y).
Proof.
  unfold f_mul. case x as [sx|sx| |sx mx ex Bx]; case y as [sy|sy| |sy my ey By]; [now trivial..|]. simpl. rewrite B2SF_SF2B. apply binary_round_aux_equiv.
Qed.
Lemma normalize_B m e szero : SpecFloat.binary_normalize 53 1024 m e szero = B2SF (binary_normalize 53 1024 Hprec Hmax mode_NE m e szero).
Proof. case m as [|p|p]; [reflexivity| |]; simpl; rewrite B2SF_SF2B; apply binary_round_equiv. Qed.
Lemma add_B (x y : bf) : f_add (B2SF x) (B2SF y) = B2SF (Bplus mode_NE x y).
Proof.
  unfold f_add. case x as [sx|sx| |sx mx ex Bx]; case y as [sy|sy| |sy my ey By]; [now (trivial || simpl; case Bool.eqb)..|]. apply normalize_B.
Qed.
Lemma div_B (x y : bf) : f_div (B2SF x) (B2SF y) = B2SF (Bdiv mode_NE x y).
Proof.
  unfold f_div. case x as [sx|sx| |sx mx ex Bx]; case y as [sy|sy| |sy my ey By]; [now (trivial || simpl; case Bool.eqb)..|].
  simpl. rewrite B2SF_SF2B. set (melz := SFdiv_core_binary _ _ _ _ _ _). case melz as [[mz ez] lz]. apply binary_round_aux_equiv.
Qed.
Lemma sqrt_B (x : bf) : f_sqrt (B2SF x) = B2SF (Bsqrt mode_NE x).
Proof.
  unfold f_sqrt. case x as [sx|sx| |sx mx ex Bx]; [now (trivial || case sx)..|]. case sx; [reflexivity|]. simpl. rewrite B2SF_SF2B.
  set (melz := SFsqrt_core_binary _ _ _ _). case melz as [[mz ez] lz]. apply binary_round_aux_equiv.
Qed.

(** values *)
Lemma rnd_le x y : x <= y -> rnd x <= rnd y.
Proof. intros H. apply round_le; [apply FLT_exp_valid; reflexivity|apply valid_rnd_N|exact H]. Qed.
Lemma rnd_0 : rnd 0 = 0.
Proof. apply round_0, valid_rnd_N. Qed.
Definition fits (x : R) : Prop := generic_format radix2 fe x.
Lemma rnd_id x : fits x -> rnd x = x.
Proof. intros H. apply round_generic; [apply valid_rnd_N|exact H]. Qed.
Lemma fits_rnd x : fits (rnd x).
Proof. apply generic_format_round; [apply FLT_exp_valid; reflexivity|apply valid_rnd_N]. Qed.
Lemma fits_opp x : fits x -> fits (- x).
Proof. apply generic_format_opp. Qed.
Lemma fits_ints m e : (Z.abs m <= 2 ^ 53)%Z -> (-1074 <= e)%Z -> fits (IZR m * bpow radix2 e).
Proof.
  intros M E. destruct (Z.eq_dec (Z.abs m) (2 ^ 53)) as [M'|M'].
  - assert (exists s, m = s * 2 ^ 53 /\ Z.abs s = 1)%Z as (s & -> & S).
    { destruct (Z.abs_eq_or_opp m) as [A|A]; [exists 1%Z|exists (-1)%Z]; (split; [|reflexivity]); rewrite <- M', A; ring. }
    rewrite mult_IZR. change (2 ^ 53)%Z with (Zpower radix2 53). rewrite IZR_Zpower by lia. rewrite Rmult_assoc, <- bpow_plus.
    apply generic_format_FLT. exists (Float radix2 s (53 + e)); [reflexivity|cbn [Fnum]; change (Zpower radix2 53) with (2 ^ 53)%Z; rewrite S; reflexivity|cbn [Fexp]; lia].
  - apply generic_format_FLT. exists (Float radix2 m e); [reflexivity|cbn [Fnum]; change (Zpower radix2 53) with (2 ^ 53)%Z; lia|cbn [Fexp]; lia].
Qed.
Lemma fits_Z m : (Z.abs m <= 2 ^ 53)%Z -> fits (IZR m).
Proof. intros M. replace (IZR m) with (IZR m * bpow radix2 0) by (cbn; ring). apply fits_ints; [exact M|lia]. Qed.
Lemma fits_bpow e : (-1074 <= e)%Z -> fits (bpow radix2 e).
Proof. intros E. replace (bpow radix2 e) with (IZR 1 * bpow radix2 e) by ring. apply fits_ints; lia. Qed.
Lemma value_fits x : number x -> fits (value x).
Proof. intros N. apply number_B in N. destruct N as (b & <- & _). rewrite value_B. apply generic_format_B2R. Qed.
Lemma rnd_bound x e : (-1074 <= e)%Z -> Rabs x <= bpow radix2 e -> Rabs (rnd x) <= bpow radix2 e.
Proof.
  intros E H. apply Rabs_le. destruct (Rabs_le_inv _ _ H) as [H1 H2]. split.
  - rewrite <- (rnd_id (- bpow radix2 e)) by (apply fits_opp, fits_bpow; exact E). now apply rnd_le.
  - rewrite <- (rnd_id (bpow radix2 e)) by (apply fits_bpow; exact E). now apply rnd_le.
Qed.
Definition small (x : R) : Prop := Rabs x <= bpow radix2 1023.
Lemma small_lt x : small x -> Rlt_bool (Rabs (rnd x)) (bpow radix2 1024) = true.
Proof. intros H. apply Rlt_bool_true. apply Rle_lt_trans with (bpow radix2 1023); [now apply rnd_bound|apply bpow_lt; reflexivity]. Qed.
Lemma of_Z_val z : (Z.abs z <= 2 ^ 53)%Z -> number (f_of_Z z) /\ value (f_of_Z z) = IZR z.
Proof.
  intros H. rewrite of_Z_B. pose proof (binary_normalize_correct 53 1024 Hprec Hmax mode_NE z 0 false) as C. cbv zeta in C.
  assert (F2R (Float radix2 z 0) = IZR z) as E by (unfold F2R; cbn; ring). rewrite E in C.
  change (round radix2 (SpecFloat.fexp 53 1024) (round_mode mode_NE) (IZR z)) with (rnd (IZR z)) in C. rewrite small_lt in C.
  - destruct C as (C1 & C2 & _). split; [apply number_B; eauto|]. rewrite value_B, C1. now apply rnd_id, fits_Z.
  - unfold small. rewrite <- abs_IZR. apply Rle_trans with (IZR (2 ^ 53)); [now apply IZR_le|]. change (2 ^ 53)%Z with (Zpower radix2 53). rewrite IZR_Zpower by lia. now apply bpow_le.
Qed.
Lemma mul_val x y : number x -> number y -> small (value x * value y) -> number (f_mul x y) /\ value (f_mul x y) = rnd (value x * value y).
Proof.
  intros X Y H. apply number_B in X, Y. destruct X as (a & <- & Fa), Y as (b & <- & Fb). rewrite !value_B in *. rewrite mul_B.
  pose proof (Bmult_correct 53 1024 Hprec Hmax mode_NE a b) as C.
  change (round radix2 (SpecFloat.fexp 53 1024) (round_mode mode_NE) (B2R a * B2R b)) with (rnd (B2R a * B2R b)) in C. rewrite small_lt in C by exact H.
  destruct C as (C1 & C2 & _). rewrite Fa, Fb in C2. split; [apply number_B; eauto|]. now rewrite value_B.
Qed.
Lemma add_val x y : number x -> number y -> small (value x + value y) -> number (f_add x y) /\ value (f_add x y) = rnd (value x + value y).
Proof.
  intros X Y H. apply number_B in X, Y. destruct X as (a & <- & Fa), Y as (b & <- & Fb). rewrite !value_B in *. rewrite add_B.
  pose proof (Bplus_correct 53 1024 Hprec Hmax mode_NE a b Fa Fb) as C.
  change (round radix2 (SpecFloat.fexp 53 1024) (round_mode mode_NE) (B2R a + B2R b)) with (rnd (B2R a + B2R b)) in C. rewrite small_lt in C by exact H.
  destruct C as (C1 & C2 & _). split; [apply number_B; eauto|]. now rewrite value_B.
Qed.
Lemma div_val x y : number x -> number y -> value y <> 0 -> small (value x / value y) -> number (f_div x y) /\ value (f_div x y) = rnd (value x / value y).
Proof.
  intros X Y Z H. apply number_B in X, Y. destruct X as (a & <- & Fa), Y as (b & <- & Fb). rewrite !value_B in *. rewrite div_B.
  pose proof (Bdiv_correct 53 1024 Hprec Hmax mode_NE a b Z) as C.
  change (round radix2 (SpecFloat.fexp 53 1024) (round_mode mode_NE) (B2R a / B2R b)) with (rnd (B2R a / B2R b)) in C. rewrite small_lt in C by exact H.
  destruct C as (C1 & C2 & _). rewrite Fa in C2. split; [apply number_B; eauto|]. now rewrite value_B.
Qed.
Lemma sqrt_val x : number x -> 0 <= value x -> number (f_sqrt x) /\ value (f_sqrt x) = rnd (sqrt (value x)).
Proof.
  intros X P. apply number_B in X. destruct X as (a & <- & Fa). rewrite !value_B in *. rewrite sqrt_B.
  destruct (Bsqrt_correct 53 1024 Hprec Hmax mode_NE a) as (C1 & C2 & _).
  assert (is_finite (Bsqrt mode_NE a) = true) as F.
  { rewrite C2. destruct a as [s|s| |s m e B]; try reflexivity; try discriminate Fa. destruct s; [|reflexivity]. exfalso.
    cbn [B2R] in P. apply Rle_not_lt in P. apply P. apply F2R_lt_0. reflexivity. }
  split; [apply number_B; eauto|]. rewrite value_B, C1. reflexivity.
Qed.
Lemma leb_val x y : number x -> number y -> SFleb x y = Rle_bool (value x) (value y).
Proof.
  intros X Y. apply number_B in X, Y. destruct X as (a & <- & Fa), Y as (b & <- & Fb). rewrite !value_B. exact (Bleb_correct 53 1024 a b Fa Fb).
Qed.
Lemma floor_val x : number x -> f_floor x = Zfloor (value x).
Proof.
  intros N. rewrite value_SF2R. destruct x as [s|s| |s m e]; try (symmetry; apply (Zfloor_IZR 0)); [destruct N as [_ []]..|].
  unfold f_floor, SF2R, F2R. cbn [Fnum Fexp]. assert ((if s then Z.neg m else Z.pos m) = cond_Zopp s (Z.pos m)) as -> by (destruct s; reflexivity).
  destruct (Z.leb_spec 0 e) as [E|E].
  - change 2%Z with (radix_val radix2) at 1. rewrite <- IZR_Zpower by exact E. rewrite <- mult_IZR. now rewrite Zfloor_IZR.
  - replace (bpow radix2 e) with (/ IZR (2 ^ - e)).
    + symmetry. apply Zfloor_div. apply Z.pow_nonzero; lia.
    + change (2 ^ - e)%Z with (Zpower radix2 (- e)). rewrite IZR_Zpower by lia. rewrite <- bpow_opp. f_equal. lia.
Qed.

(** rounding errors *)
Lemma half_bpow e : / 2 * bpow radix2 (e + 1) = bpow radix2 e.
Proof. rewrite bpow_plus. change (bpow radix2 1) with 2. field. Qed.
Lemma rnd_err x : bpow radix2 (-1022) <= Rabs x -> Rabs (rnd x - x) <= bpow radix2 (-53) * Rabs x.
Proof.
  intros H. pose proof (relative_error_N_FLT radix2 (-1074) 53 eq_refl (fun n => negb (Z.even n)) x H) as E.
  rewrite <- (half_bpow (-53)). exact E.
Qed.
Lemma rnd_err_any x : Rabs (rnd x - x) <= bpow radix2 (-53) * Rabs x + bpow radix2 (-1075).
Proof.
  destruct (error_N_FLT radix2 (-1074) 53 eq_refl (fun n => negb (Z.even n)) x) as (e & eta & E1 & E2 & _ & E3).
  fold ZnearestE in E3. fold (rnd x) in E3. rewrite E3. replace (x * (1 + e) + eta - x) with (e * x + eta) by ring.
  eapply Rle_trans; [apply Rabs_triang|]. rewrite Rabs_mult. apply Rplus_le_compat.
  - apply Rmult_le_compat_r; [apply Rabs_pos|]. eapply Rle_trans; [exact E1|]. apply Req_le. exact (half_bpow (-53)).
  - eapply Rle_trans; [exact E2|]. apply Req_le. exact (half_bpow (-1075)).
Qed.
