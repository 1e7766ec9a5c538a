(** Lemmas for Prop_Lum64.v *)
From Coq Require Import List ZArith Reals Floats.SpecFloat Lra Lia Psatz Permutation.
From Flocq Require Import Core BinarySingleNaN Relative.
From Verif Require Import Base L_Base M_Float S_Float L_Float64 L_Bin64 L_Norm64 M_Sum64 S_Sum64 L_Sum64 M_Io L_Io M_Lum64 S_Lum64.
Import ListNotations.
Local Open Scope R_scope.

(** * fused multiply and add *)
Lemma part_value x : number x -> exists a p, integer_part x = Some (a, p) /\ value x = IZR a * bpow radix2 p.
Proof.
  intros [_ F]. destruct x as [z|z| |z m e]; try contradiction; cbn [integer_part].
  - exists 0%Z, 0%Z. split; [reflexivity|]. cbn. ring.
  - exists (if z then Zneg m else Zpos m), e. split; [reflexivity|]. unfold value. rewrite bpow_powerRZ. change (IZR radix2) with 2.
    destruct z; [change (Z.neg m) with (- Z.pos m)%Z; rewrite opp_IZR|]; ring.
Qed.
Lemma normalize_val m e : small (IZR m * bpow radix2 e) ->
  number (SpecFloat.binary_normalize 53 1024 m e false) /\ value (SpecFloat.binary_normalize 53 1024 m e false) = rnd (IZR m * bpow radix2 e).
Proof.
  intros S. rewrite normalize_B. pose proof (binary_normalize_correct 53 1024 Hprec Hmax mode_NE m e false) as C. cbv zeta in C.
  change (F2R (Float radix2 m e)) with (IZR m * bpow radix2 e) in C.
  change (round radix2 (SpecFloat.fexp 53 1024) (round_mode mode_NE) (IZR m * bpow radix2 e)) with (rnd (IZR m * bpow radix2 e)) in C.
  rewrite small_lt in C by exact S. destruct C as (C1 & C2 & _). split; [apply number_B; eauto|]. now rewrite value_B, C1.
Qed.
Lemma fma_val x y z : number x -> number y -> number z -> small (value x * value y + value z) ->
  number (f_fma x y z) /\ value (f_fma x y z) = rnd (value x * value y + value z).
Proof.
  intros X Y Z. destruct (part_value x X) as (a & p & Ea & Va). destruct (part_value y Y) as (b & q & Eb & Vb). destruct (part_value z Z) as (c & r & Ec & Vc).
  unfold f_fma. rewrite Ea, Eb, Ec, Va, Vb, Vc. set (e := Z.min (p + q) r).
  assert (IZR a * bpow radix2 p * (IZR b * bpow radix2 q) + IZR c * bpow radix2 r = IZR (a * b * 2 ^ (p + q - e) + c * 2 ^ (r - e)) * bpow radix2 e) as ->.
  { rewrite plus_IZR, !mult_IZR. change 2%Z with (radix_val radix2). rewrite !IZR_Zpower by lia.
    rewrite Rmult_plus_distr_r, !Rmult_assoc, <- !bpow_plus. replace (p + q - e + e)%Z with (p + q)%Z by lia. replace (r - e + e)%Z with r by lia.
    rewrite bpow_plus. ring. }
  intros S. exact (normalize_val _ _ S).
Qed.

(** * weights *)
Definition near_weight (x : f64) (y : R) : Prop :=
  number x /\ 0 <= y /\ value x <= bpow radix2 100 /\ y * (1 - 5 / 2 * eps) <= value x <= y * (1 + 5 / 2 * eps).
Lemma value_pos m e : value (S754_finite false m e) = IZR (Zpos m) * bpow radix2 e.
Proof. unfold value. rewrite bpow_powerRZ. change (IZR radix2) with 2. ring. Qed.
Lemma big_ge : 1048576 <= bpow radix2 100.
Proof. change 1048576 with (bpow radix2 20). apply bpow_le. lia. Qed.
Lemma weights_near : Forall2 near_weight weights_f64 radiance_weights.
Proof.
  unfold weights_f64, radiance_weights. pose proof big_ge as B. repeat apply Forall2_cons; try apply Forall2_nil; unfold near_weight.
  all: rewrite value_pos; (split; [split; [vm_compute; reflexivity|exact I]|]); unfold eps.
  - change (bpow radix2 (-54)) with (/ IZR 18014398509481984). lra.
  - change (bpow radix2 (-53)) with (/ IZR 9007199254740992). lra.
  - change (bpow radix2 (-56)) with (/ IZR 72057594037927936). lra.
Qed.
Lemma lum_weights_near : Forall2 near_weight lum_weights_f64 (map (fun x => x * 179) radiance_weights).
Proof.
  assert (lum_weights_f64 = [S754_finite false 6675882760134984 (-47); S754_finite false 8439323489227244 (-46); S754_finite false 6549922708056965 (-49)]) as ->.
  { vm_compute. reflexivity. }
  unfold radiance_weights. cbn [map]. pose proof big_ge as B. repeat apply Forall2_cons; try apply Forall2_nil; unfold near_weight.
  all: rewrite value_pos; (split; [split; [vm_compute; reflexivity|exact I]|]); unfold eps.
  - change (bpow radix2 (-47)) with (/ IZR 140737488355328). lra.
  - change (bpow radix2 (-46)) with (/ IZR 70368744177664). lra.
  - change (bpow radix2 (-49)) with (/ IZR 562949953421312). lra.
Qed.

(** * colours *)
Definition exact_product (p : f64 * f64) : R := value (fst p) * value (snd p).
Lemma product_sum wf we : Forall2 near_weight wf we -> forall rgb, Forall good_channel rgb ->
  let X := rgb2rad we (map value rgb) in
  0 <= X /\ X * (1 - 5 / 2 * eps) <= Rsumf exact_product (combine rgb wf) <= X * (1 + 5 / 2 * eps).
Proof.
  induction 1 as [|w y wf we (Nw & Py & Bw & Hw) H IH]; intros rgb G.
  - destruct rgb; unfold rgb2rad, Rsumf, Rsum; cbn; lra.
  - destruct rgb as [|c rgb]; [unfold rgb2rad, Rsumf, Rsum; cbn; lra|]. inversion G as [|? ? [Nc Vc] G']; subst.
    specialize (IH rgb G'). cbn [combine map]. rewrite Rsumf_cons.
    assert (rgb2rad (y :: we) (value c :: map value rgb) = value c * y + rgb2rad we (map value rgb)) as ->.
    { unfold rgb2rad. cbn [combine map fst snd]. reflexivity. }
    cbv zeta in *. unfold exact_product at 1 3. cbn [fst snd].
    assert (value c * (y * (1 - 5 / 2 * eps)) <= value c * value w) by (apply Rmult_le_compat_l; lra).
    assert (value c * value w <= value c * (y * (1 + 5 / 2 * eps))) by (apply Rmult_le_compat_l; lra).
    assert (0 <= value c * y) by (apply Rmult_le_pos; lra). split; [lra|]. lra.
Qed.
Lemma combine_good wf we : Forall2 near_weight wf we -> forall rgb, Forall good_channel rgb ->
  Forall (fun p => number (fst p) /\ number (snd p) /\ 0 <= value (fst p) <= bpow radix2 300 /\ 0 <= value (snd p) <= bpow radix2 100) (combine rgb wf).
Proof.
  induction 1 as [|w y wf we (Nw & Py & Bw & Hw) H IH]; intros rgb G.
  - destruct rgb; constructor.
  - destruct rgb as [|c rgb]; [constructor|]. inversion G as [|? ? [Nc Vc] G']; subst. cbn [combine]. constructor; [|now apply IH].
    cbn [fst snd]. rewrite pow_bpow in Vc.
    assert (0 <= y * (1 - 5 / 2 * eps)) by (apply Rmult_le_pos; [lra|unfold eps; lra]).
    split; [exact Nc|]. split; [exact Nw|]. split; [exact Vc|]. lra.
Qed.
Lemma mul_channel x y : 0 <= x <= bpow radix2 300 -> 0 <= y <= bpow radix2 100 -> 0 <= x * y <= bpow radix2 400.
Proof. intros X Y. change 400%Z with (300 + 100)%Z. rewrite bpow_plus. split; [apply Rmult_le_pos; lra|apply Rmult_le_compat; lra]. Qed.
Lemma channel_term l o : number l -> number o -> 0 <= value l <= bpow radix2 300 -> 0 <= value o <= bpow radix2 100 ->
  number (f_mul l o) /\ Rabs (value (f_mul l o) - value l * value o) <= eps * (value l * value o) + eta /\ 0 <= value (f_mul l o).
Proof.
  intros L O Vl Vo. pose proof (mul_channel _ _ Vl Vo) as B. destruct (mul_val l o L O) as [N V].
  { apply (small_of_bpow _ 400); [lia|]. rewrite Rabs_pos_eq; lra. }
  split; [exact N|]. rewrite V. split; [|rewrite <- rnd_0; apply rnd_le; lra]. eapply Rle_trans; [apply err|]. rewrite Rabs_pos_eq; lra.
Qed.
Lemma adds_real n : (n <= 1000)%nat -> 0 <= INR n <= 1000.
Proof. intros H. split; [apply pos_INR|]. replace 1000 with (INR 1000) by (rewrite INR_IZR_INZ; reflexivity). now apply le_INR. Qed.
Lemma eta_500 : eta <= bpow radix2 500.
Proof. unfold eta. apply bpow_le. lia. Qed.
Lemma sum_step x y S T k l : 0 <= S -> 0 <= T -> S + T <= bpow radix2 500 -> 0 <= k -> 0 <= l -> k + l <= 1000 ->
  Rabs (x - S) <= 2 * k * (eps * S + eta) -> Rabs (y - T) <= 2 * l * (eps * T + eta) ->
  small (x + y) /\ Rabs (rnd (x + y) - (S + T)) <= 2 * (k + l + 1) * (eps * (S + T) + eta).
Proof.
  intros HS HT HB Hk Hl Hkl Ex Ey. pose proof eta_pos as Et. pose proof eta_500 as Eb.
  assert (0 <= k * S <= 1000 * S) as B1 by (split; [apply Rmult_le_pos; lra|apply Rmult_le_compat_r; lra]).
  assert (0 <= l * T <= 1000 * T) as B2 by (split; [apply Rmult_le_pos; lra|apply Rmult_le_compat_r; lra]).
  assert (0 <= k * eta /\ 0 <= l * eta /\ (k + l) * eta <= 1000 * eta) as (B3 & B4 & B5).
  { split; [apply Rmult_le_pos; lra|]. split; [apply Rmult_le_pos; lra|]. apply Rmult_le_compat_r; lra. }
  assert (0 <= k * T) as B6 by (apply Rmult_le_pos; lra). assert (0 <= l * S) as B7 by (apply Rmult_le_pos; lra).
  assert (Rabs (x + y) <= (S + T) * (1 + 2000 * eps) + 2000 * eta) as A.
  { replace (x + y) with ((x - S) + (y - T) + (S + T)) by ring. eapply Rle_trans; [apply Rabs_triang|]. rewrite (Rabs_pos_eq (S + T)) by lra.
    pose proof (Rabs_triang (x - S) (y - T)). unfold eps in *. lra. }
  split.
  - apply (small_of_bpow _ 520); [lia|]. change 520%Z with (20 + 500)%Z. rewrite bpow_plus. change (bpow radix2 20) with 1048576. eapply Rle_trans; [exact A|]. unfold eps. lra.
  - pose proof (err (x + y)) as E. replace (rnd (x + y) - (S + T)) with ((rnd (x + y) - (x + y)) + ((x - S) + (y - T))) by ring.
    eapply Rle_trans; [apply Rabs_triang|]. pose proof (Rabs_triang (x - S) (y - T)) as E2.
    assert (eps * Rabs (x + y) <= eps * ((S + T) * (1 + 2000 * eps) + 2000 * eta)) as E3 by (apply Rmult_le_compat_l; [unfold eps; lra|exact A]).
    unfold eps in *. lra.
Qed.
Definition good_factor (p : f64 * f64) : Prop := number (fst p) /\ number (snd p) /\ 0 <= value (fst p) <= bpow radix2 300 /\ 0 <= value (snd p) <= bpow radix2 100.
Lemma factors_nonneg l : Forall good_factor l -> 0 <= Rsumf exact_product l.
Proof.
  intros H. apply Rsumf_nonneg. intros a I. rewrite Forall_forall in H. destruct (H a I) as (_ & _ & V1 & V2).
  unfold exact_product. apply Rmult_le_pos; lra.
Qed.
Lemma weighted_sum t : Forall good_factor (factors t) -> (roundings t <= 1000)%nat -> Rsumf exact_product (factors t) <= bpow radix2 500 ->
  number (weighted_f64 t) /\
  Rabs (value (weighted_f64 t) - Rsumf exact_product (factors t)) <= 2 * INR (roundings t) * (eps * Rsumf exact_product (factors t) + eta).
Proof.
  pose proof eta_pos as Et. induction t as [|p|u IHu w IHw|u IHu p]; intros H K B; cbn [weighted_f64 factors roundings] in *.
  - destruct (of_Z_val 0 ltac:(lia)) as [N V]. split; [exact N|]. rewrite V. unfold Rsumf. cbn. rewrite Rminus_0_r, Rabs_R0. lra.
  - inversion H as [|? ? (N1 & N2 & V1 & V2) _]; subst. destruct (channel_term _ _ N1 N2 V1 V2) as (N & E & _). split; [exact N|].
    assert (Rsumf exact_product [p] = value (fst p) * value (snd p)) as -> by (unfold Rsumf, exact_product; cbn; ring).
    assert (0 <= value (fst p) * value (snd p)) by (apply Rmult_le_pos; lra). change (INR 1) with 1. unfold eps in *. lra.
  - apply Forall_app in H. destruct H as [Hu Hw]. rewrite Rsumf_app in *. rewrite S_INR, plus_INR.
    pose proof (factors_nonneg _ Hu) as Pu. pose proof (factors_nonneg _ Hw) as Pw.
    destruct (IHu Hu ltac:(lia) ltac:(lra)) as [Nu Eu]. destruct (IHw Hw ltac:(lia) ltac:(lra)) as [Nw Ew].
    assert (INR (roundings u) + INR (roundings w) <= 1000) as Kr by (rewrite <- plus_INR; apply adds_real; lia).
    destruct (sum_step _ _ _ _ _ _ Pu Pw B (pos_INR _) (pos_INR _) Kr Eu Ew) as [Sm E].
    destruct (add_val _ _ Nu Nw Sm) as [N V]. split; [exact N|]. rewrite V. exact E.
  - apply Forall_app in H. destruct H as [Hu Hp]. rewrite Rsumf_app in *. rewrite S_INR.
    inversion Hp as [|? ? (N1 & N2 & V1 & V2) _]; subst. pose proof (factors_nonneg _ Hu) as Pu.
    assert (Rsumf exact_product [p] = value (fst p) * value (snd p)) as Ep by (unfold Rsumf, exact_product; cbn; ring). rewrite Ep in *.
    assert (0 <= value (fst p) * value (snd p)) as Pp by (apply Rmult_le_pos; lra).
    destruct (IHu Hu ltac:(lia) ltac:(lra)) as [Nu Eu].
    assert (INR (roundings u) + 0 <= 1000) as Kr by (rewrite Rplus_0_r; apply adds_real; lia).
    assert (Rabs (value (fst p) * value (snd p) - value (fst p) * value (snd p)) <= 2 * 0 * (eps * (value (fst p) * value (snd p)) + eta)) as Ez.
    { rewrite Rminus_diag_eq by reflexivity. rewrite Rabs_R0. lra. }
    destruct (sum_step _ _ _ _ _ _ Pu Pp B (pos_INR _) (Rle_refl 0) Kr Eu Ez) as [Sm E]. rewrite Rplus_0_r in E.
    rewrite Rplus_comm in Sm. destruct (fma_val _ _ _ N1 N2 Nu Sm) as [N V]. split; [exact N|]. rewrite V, Rplus_comm. exact E.
Qed.
Lemma zero_sum t : Forall good_factor (factors t) -> (forall p, In p (factors t) -> value (fst p) = 0) -> value (weighted_f64 t) = 0.
Proof.
  intros H Z. assert (number (weighted_f64 t) /\ value (weighted_f64 t) = 0) as [_ V]; [|exact V].
  assert (small 0) as Z0 by (apply (small_of_bpow _ 0); [lia|rewrite Rabs_R0; apply bpow_ge_0]).
  induction t as [|p|u IHu w IHw|u IHu p]; cbn [weighted_f64 factors] in *.
  - apply (of_Z_val 0). lia.
  - inversion H as [|? ? (N1 & N2 & _) _]; subst. specialize (Z p (or_introl eq_refl)). destruct (mul_val _ _ N1 N2) as [N V]; [now rewrite Z, Rmult_0_l|].
    split; [exact N|]. now rewrite V, Z, Rmult_0_l, rnd_0.
  - apply Forall_app in H. destruct H as [Hu Hw]. destruct IHu as [Nu Vu]; [exact Hu|intros p I; apply Z, in_or_app; now left|].
    destruct IHw as [Nw Vw]; [exact Hw|intros p I; apply Z, in_or_app; now right|].
    destruct (add_val _ _ Nu Nw) as [N V]; [now rewrite Vu, Vw, Rplus_0_l|]. split; [exact N|]. now rewrite V, Vu, Vw, Rplus_0_l, rnd_0.
  - apply Forall_app in H. destruct H as [Hu Hp]. destruct IHu as [Nu Vu]; [exact Hu|intros q I; apply Z, in_or_app; now left|].
    inversion Hp as [|? ? (N1 & N2 & _) _]; subst. assert (value (fst p) = 0) as Zp by (apply Z, in_or_app; right; now left).
    destruct (fma_val _ _ _ N1 N2 Nu) as [N V]; [now rewrite Vu, Zp, Rmult_0_l, Rplus_0_l|]. split; [exact N|]. now rewrite V, Vu, Zp, Rmult_0_l, Rplus_0_l, rnd_0.
Qed.
Lemma factors_length {A} (t : products A) : (length (factors t) <= roundings t)%nat.
Proof. induction t; cbn [factors roundings]; rewrite ?app_length; cbn [length]; lia. Qed.
Lemma weighted_bound wf we rgb t : Forall2 near_weight wf we -> Forall good_channel rgb -> adds_up t (combine rgb wf) ->
  let X := rgb2rad we (map value rgb) in
  number (weighted_f64 t) /\ 0 <= X /\ Rabs (value (weighted_f64 t) - X) <= (INR (roundings t) + 2) / 2 ^ 52 * X + 5000 * eta.
Proof.
  intros H G [P Kn]. pose proof (adds_real _ Kn) as K. cbv zeta. destruct (product_sum wf we H rgb G) as (Xp & X1 & X2).
  pose proof (combine_good wf we H rgb G) as C.
  assert (Forall good_factor (factors t)) as Ct by (eapply Permutation_Forall; [apply Permutation_sym, P|exact C]).
  rewrite <- (Rsumf_perm exact_product _ _ P) in X1, X2. set (X := rgb2rad we (map value rgb)) in *. pose proof eta_pos as Et.
  destruct (weighted_sum t Ct Kn) as (N & E).
  - assert (INR (length (factors t)) <= 1000) as L.
    { pose proof (factors_length t) as T. apply le_INR in T. lra. }
    assert (Rsumf exact_product (factors t) <= INR (length (factors t)) * bpow radix2 400) as S.
    { rewrite Forall_forall in Ct. clear - Ct. induction (factors t) as [|a l IH]; [unfold Rsumf; cbn; lra|]. rewrite Rsumf_cons. cbn [length]. rewrite S_INR.
      specialize (IH (fun x I => Ct x (or_intror I))). destruct (Ct a (or_introl eq_refl)) as (_ & _ & V1 & V2).
      pose proof (mul_channel _ _ V1 V2) as M. unfold exact_product at 1. lra. }
    eapply Rle_trans; [exact S|]. apply Rle_trans with (bpow radix2 10 * bpow radix2 400); [|rewrite <- bpow_plus; apply bpow_le; lia].
    apply Rmult_le_compat_r; [apply bpow_ge_0|]. change (bpow radix2 10) with 1024. lra.
  - split; [exact N|]. split; [exact Xp|].
    set (k := INR (roundings t)) in *. set (F := Rsumf exact_product (factors t)) in *. set (v := value (weighted_f64 t)) in *.
    assert (2 ^ 52 = 4503599627370496) as -> by (cbn; lra).
    clearbody k F v X. assert (0 <= k * X <= 1000 * X) as KX by (split; [apply Rmult_le_pos; lra|apply Rmult_le_compat_r; lra]).
    assert (k * F <= k * (X * (1 + 5 / 2 * eps))) as KF by (apply Rmult_le_compat_l; lra).
    assert (k * eta <= 1000 * eta) as KE by (apply Rmult_le_compat_r; lra).
    assert (Rabs (F - X) <= 5 / 2 * eps * X) as E2 by (apply Rabs_le; lra).
    replace (v - X) with ((v - F) + (F - X)) by ring. eapply Rle_trans; [apply Rabs_triang|].
    eapply Rle_trans; [apply Rplus_le_compat; [exact E|exact E2]|]. clear - X1 X2 KX KF KE Xp K Et.
    unfold eps in *. lra.
Qed.
Lemma eta_600 : 5000 * eta <= / 2 ^ 600.
Proof.
  rewrite inv_pow_bpow. unfold eta. apply Rle_trans with (bpow radix2 13 * bpow radix2 (-1075)).
  - apply Rmult_le_compat_r; [apply bpow_ge_0|]. change (bpow radix2 13) with 8192. lra.
  - rewrite <- bpow_plus. apply bpow_le. lia.
Qed.
Lemma colour_near wf we rgb t : Forall2 near_weight wf we -> Forall good_channel rgb -> adds_up t (combine rgb wf) ->
  number (weighted_f64 t) /\
  Rabs (value (weighted_f64 t) - rgb2rad we (map value rgb)) <= (INR (roundings t) + 2) / 2 ^ 52 * rgb2rad we (map value rgb) + / 2 ^ 600.
Proof.
  intros H G A. destruct (weighted_bound wf we rgb t H G A) as (N & _ & E). pose proof eta_600. split; [exact N|]. lra.
Qed.

(** * pixels *)
Lemma sub128_range t e : byte_value e -> (-128 <= sub128 t e <= 255)%Z.
Proof. unfold byte_value, sub128. intros H. destruct t; [lia|]. pose proof (Z.mod_pos_bound (e - 128) 256). lia. Qed.
Lemma pow2_bpow k : pow2 k = bpow radix2 k.
Proof. unfold pow2. rewrite bpow_powerRZ. reflexivity. Qed.
Lemma fits_small x m e : x = IZR m * bpow radix2 e -> (Z.abs m <= 2 ^ 53)%Z -> (-1074 <= e)%Z -> rnd x = x.
Proof. intros -> M E. apply rnd_id, fits_ints; assumption. Qed.
Lemma channel_val t c e : byte_value c -> byte_value e -> number (channel_f64 t c e) /\ value (channel_f64 t c e) = rgbe2rgb t c e.
Proof.
  intros C E. pose proof (sub128_range t e E) as K. unfold byte_value in C. unfold channel_f64, rgbe2rgb.
  destruct (c =? 0)%Z eqn:Ec; [apply of_Z_val; lia|]. apply Z.eqb_neq in Ec.
  destruct (of_Z_val c ltac:(lia)) as [N1 V1]. destruct (two_to_val (-1) ltac:(lia)) as [N2 V2].
  change (two_to (-1)) with half_f64 in N2, V2. change (bpow radix2 (-1)) with (/ 2) in V2.
  assert (1 <= IZR c <= 255) as Rc by (split; apply IZR_le; lia).
  destruct (add_val _ _ N1 N2) as [N3 V3]. { rewrite V1, V2. apply (small_of_bpow _ 8); [lia|]. change (bpow radix2 8) with 256. rewrite Rabs_pos_eq; lra. }
  rewrite V1, V2, (fits_small _ (2 * c + 1) (-1)) in V3; [|change (bpow radix2 (-1)) with (/ 2); rewrite plus_IZR, mult_IZR; lra|lia|lia].
  destruct (two_to_val (sub128 t e) ltac:(lia)) as [N4 V4]. change (two_to (sub128 t e)) with (pow2_f64 (sub128 t e)) in N4, V4.
  destruct (of_Z_val 256 ltac:(lia)) as [N5 V5].
  assert (bpow radix2 (sub128 t e) / 256 = bpow radix2 (sub128 t e - 8)) as D.
  { replace (sub128 t e - 8)%Z with (sub128 t e + (-8))%Z by lia. rewrite bpow_plus. change (bpow radix2 (-8)) with (/ 256). reflexivity. }
  destruct (div_val _ _ N4 N5) as [N6 V6]; [rewrite V5; lra| |].
  { rewrite V4, V5, D. apply (small_of_bpow _ 255); [lia|]. rewrite Rabs_pos_eq by apply bpow_ge_0. apply bpow_le. lia. }
  rewrite V4, V5, D, (fits_small _ 1 (sub128 t e - 8)) in V6; [|ring|lia|lia].
  assert ((IZR c + / 2) * bpow radix2 (sub128 t e - 8) = IZR (2 * c + 1) * bpow radix2 (sub128 t e - 9)) as F.
  { replace (sub128 t e - 9)%Z with (-1 + (sub128 t e - 8))%Z by lia. rewrite bpow_plus. change (bpow radix2 (-1)) with (/ 2). rewrite plus_IZR, mult_IZR. field. }
  destruct (mul_val _ _ N3 N6) as [N7 V7].
  { rewrite V3, V6. apply (small_of_bpow _ (8 + 255)); [lia|]. rewrite bpow_plus, Rabs_mult. apply Rmult_le_compat; try apply Rabs_pos.
    - change (bpow radix2 8) with 256. rewrite Rabs_pos_eq; lra.
    - rewrite Rabs_pos_eq by apply bpow_ge_0. apply bpow_le. lia. }
  split; [exact N7|]. rewrite V7, V3, V6, (fits_small _ _ _ F), pow2_bpow, D; [|lia|lia]. lra.
Qed.
Lemma channel_size t c e : byte_value c -> byte_value e -> 0 <= rgbe2rgb t c e <= 255.5 * (pow2 (sub128 t e) / 256).
Proof.
  intros [C1 C2] E. split; [apply chan_nonneg; exact C1|]. unfold rgbe2rgb. assert (0 < pow2 (sub128 t e)) as P by apply pow2_pos.
  destruct (c =? 0)%Z; [lra|]. apply Rmult_le_compat_r; [lra|]. apply IZR_le in C2. lra.
Qed.
Lemma pow2_size t e : byte_value e -> bpow radix2 (-128) <= pow2 (sub128 t e) <= bpow radix2 255.
Proof. intros E. pose proof (sub128_range t e E) as K. rewrite pow2_bpow. split; apply bpow_le; lia. Qed.
Lemma channel_good t c e : byte_value c -> byte_value e -> good_channel (channel_f64 t c e).
Proof.
  intros C E. destruct (channel_val t c e C E) as [N V]. split; [exact N|]. rewrite V, pow_bpow.
  pose proof (channel_size t c e C E) as [H1 H2]. pose proof (pow2_size t e E) as [_ H3].
  split; [exact H1|]. eapply Rle_trans; [exact H2|]. assert (bpow radix2 255 <= bpow radix2 (Z.of_nat 300)) by (apply bpow_le; lia).
  assert (0 < pow2 (sub128 t e)) by apply pow2_pos. lra.
Qed.

Lemma lum_step t r g b r' g' b' e : (0 <= r <= r')%Z -> (0 <= g <= g')%Z -> (0 <= b <= b')%Z -> (r + g + b < r' + g' + b')%Z ->
  179 * (65 / 1000) * (pow2 (sub128 t e) / 256) <= rgbe2lum t r' g' b' e - rgbe2lum t r g b e.
Proof.
  intros R G B S. rewrite !lum_eq. assert (0 < pow2 (sub128 t e)) as P by apply pow2_pos.
  assert (forall x y, (0 <= x < y)%Z -> pow2 (sub128 t e) / 256 <= rgbe2rgb t y e - rgbe2rgb t x e) as L.
  { intros x y H. unfold rgbe2rgb. destruct (Z.eqb_spec y 0); [lia|]. destruct (Z.eqb_spec x 0).
    - assert (1 <= IZR y) by (apply IZR_le; lia). rewrite Rminus_0_r. rewrite <- (Rmult_1_l (pow2 (sub128 t e) / 256)) at 1. apply Rmult_le_compat_r; lra.
    - assert (IZR x + 1 <= IZR y) by (rewrite <- plus_IZR; apply IZR_le; lia). rewrite <- Rmult_minus_distr_r.
      rewrite <- (Rmult_1_l (pow2 (sub128 t e) / 256)) at 1. apply Rmult_le_compat_r; lra. }
  assert (forall x y, (0 <= x <= y)%Z -> 0 <= rgbe2rgb t y e - rgbe2rgb t x e) as M.
  { intros x y H. destruct (Z.eq_dec x y) as [->|N]; [lra|]. pose proof (L x y ltac:(lia)). lra. }
  pose proof (M _ _ R). pose proof (M _ _ G). pose proof (M _ _ B).
  assert (r < r' \/ g < g' \/ b < b')%Z as [K|[K|K]] by lia.
  - pose proof (L r r' ltac:(lia)). lra.
  - pose proof (L g g' ltac:(lia)). lra.
  - pose proof (L b b' ltac:(lia)). lra.
Qed.
Lemma lum_upper t r g b e : byte_value r -> byte_value g -> byte_value b -> byte_value e ->
  rgbe2lum t r g b e <= 179 * 255.5 * (pow2 (sub128 t e) / 256).
Proof. intros R G B E. rewrite lum_eq. pose proof (channel_size t r e R E). pose proof (channel_size t g e G E). pose proof (channel_size t b e B E). lra. Qed.
Lemma pixel_near d r g b e t : byte_value r -> byte_value g -> byte_value b -> byte_value e -> adds_up t (pixel_f64 d r g b e) ->
  number (weighted_f64 t) /\
  Rabs (value (weighted_f64 t) - rgbe2lum d r g b e) <= (INR (roundings t) + 3) / 2 ^ 52 * rgbe2lum d r g b e.
Proof.
  intros R G B E A. set (rgb := [channel_f64 d r e; channel_f64 d g e; channel_f64 d b e]).
  assert (Forall good_channel rgb) as Hg by (unfold rgb; repeat (apply Forall_cons; [now apply channel_good|]); apply Forall_nil).
  destruct (weighted_bound _ _ rgb t lum_weights_near Hg A) as (N & Xp & H). split; [exact N|].
  assert (rgb2rad (map (fun x => x * 179) radiance_weights) (map value rgb) = rgbe2lum d r g b e) as EX.
  { unfold rgbe2lum, rgb2lum, rgb. cbn [map]. now rewrite !(fun c H => proj2 (channel_val d c e H E)) by assumption. }
  rewrite EX in H, Xp. set (X := rgbe2lum d r g b e) in *. assert (2 ^ 52 = 4503599627370496) as P52 by (cbn; lra). pose proof eta_pos as Et.
  assert (0 <= INR (roundings t)) as K by apply pos_INR.
  destruct (Z.eq_dec (r + g + b) 0) as [Z0|Z0].
  - assert (r = 0 /\ g = 0 /\ b = 0)%Z as (-> & -> & ->) by (unfold byte_value in *; lia).
    assert (value (weighted_f64 t) = 0) as V.
    { destruct A as [P _]. apply zero_sum.
      - eapply Permutation_Forall; [apply Permutation_sym, P|]. exact (combine_good _ _ lum_weights_near rgb Hg).
      - intros p I. eapply Permutation_in in I; [|exact P]. unfold pixel_f64 in I. destruct p as [c w]. apply in_combine_l in I. cbn [fst].
        change (channel_f64 d 0 e) with (f_of_Z 0) in I. destruct I as [<-|[<-|[<-|[]]]]; apply (of_Z_val 0); lia. }
    rewrite V.
    assert (X = 0) as ->. { unfold X. apply (lum_nonneg d 0 0 0 e); lia. }
    rewrite Rminus_0_r, Rabs_R0. lra.
  - assert (5000 * eta <= / 4503599627370496 * X) as HX.
    { pose proof (lum_step d 0 0 0 r g b e ltac:(unfold byte_value in *; lia) ltac:(unfold byte_value in *; lia) ltac:(unfold byte_value in *; lia) ltac:(unfold byte_value in *; lia)) as S.
      replace (rgbe2lum d 0 0 0 e) with 0 in S by (symmetry; apply (lum_nonneg d 0 0 0 e); lia). fold X in S.
      pose proof (pow2_size d e E) as [P1 _].
      assert (5000 * eta <= / 4503599627370496 * (179 * (65 / 1000) * (bpow radix2 (-128) / 256))) as Q; [|lra].
      unfold eta. apply Rle_trans with (bpow radix2 (-52) * bpow radix2 (-136)).
      - rewrite <- bpow_plus. apply Rle_trans with (bpow radix2 13 * bpow radix2 (-1075)).
        + apply Rmult_le_compat_r; [apply bpow_ge_0|]. change (bpow radix2 13) with 8192. lra.
        + rewrite <- bpow_plus. apply bpow_le. lia.
      - change (bpow radix2 (-52)) with (/ 4503599627370496). change (-136)%Z with (-128 + -8)%Z. rewrite bpow_plus. change (bpow radix2 (-8)) with (/ 256).
        pose proof (bpow_ge_0 radix2 (-128)). lra. }
    rewrite P52 in *. eapply Rle_trans; [exact H|]. lra.
Qed.
Lemma near_zero v x c : 0 <= x -> 0 <= c < 1 -> Rabs (v - x) <= c * x -> 0 <= v /\ (v = 0 <-> x = 0).
Proof.
  intros X C H. destruct (Rabs_le_inv _ _ H) as [H1 H2]. assert (0 <= (1 - c) * x) as Q by (apply Rmult_le_pos; lra). split; [lra|].
  split; intros E.
  - destruct X as [X|X]; [|lra]. exfalso. assert (0 < (1 - c) * x) by (apply Rmult_lt_0_compat; lra). lra.
  - assert (c * x = 0) as Q2 by (rewrite E; ring). lra.
Qed.
Lemma error_small n : (n <= 1000)%nat -> 0 <= (INR n + 3) / 2 ^ 52 <= 1003 / 4503599627370496.
Proof. intros H. apply adds_real in H. assert (2 ^ 52 = 4503599627370496) as -> by (cbn; lra). lra. Qed.
Lemma pixel_zero d r g b e t : byte_value r -> byte_value g -> byte_value b -> byte_value e -> adds_up t (pixel_f64 d r g b e) ->
  0 <= value (weighted_f64 t) /\ (value (weighted_f64 t) = 0 <-> r = 0%Z /\ g = 0%Z /\ b = 0%Z).
Proof.
  intros R G B E A. destruct (pixel_near d r g b e t R G B E A) as [_ H]. pose proof (error_small _ (proj2 A)) as C.
  destruct (lum_nonneg d r g b e (proj1 R) (proj1 G) (proj1 B)) as [X Z].
  assert (0 <= (INR (roundings t) + 3) / 2 ^ 52 < 1) as C1 by lra. destruct (near_zero _ _ _ X C1 H) as [H1 H2]. split; [exact H1|]. now rewrite H2.
Qed.
Lemma pixel_mono d r g b r' g' b' e t t' : (0 <= r <= r')%Z -> (0 <= g <= g')%Z -> (0 <= b <= b')%Z -> (r + g + b < r' + g' + b')%Z ->
  byte_value r' -> byte_value g' -> byte_value b' -> byte_value e -> adds_up t (pixel_f64 d r g b e) -> adds_up t' (pixel_f64 d r' g' b' e) ->
  value (weighted_f64 t) < value (weighted_f64 t').
Proof.
  intros R G B S R' G' B' E A A'.
  assert (byte_value r /\ byte_value g /\ byte_value b) as (R0 & G0 & B0) by (unfold byte_value in *; lia).
  destruct (pixel_near d r g b e t R0 G0 B0 E A) as [_ H]. destruct (pixel_near d r' g' b' e t' R' G' B' E A') as [_ H'].
  pose proof (lum_step d r g b r' g' b' e R G B S) as L. pose proof (lum_upper d r' g' b' e R' G' B' E) as U.
  destruct (lum_nonneg d r g b e (proj1 R0) (proj1 G0) (proj1 B0)) as [X _].
  pose proof (error_small _ (proj2 A)) as C. pose proof (error_small _ (proj2 A')) as C'.
  set (x := rgbe2lum d r g b e) in *. set (y := rgbe2lum d r' g' b' e) in *. assert (0 < pow2 (sub128 d e)) as P by apply pow2_pos.
  set (u := pow2 (sub128 d e) / 256) in *. assert (0 < u) as Pu by (unfold u; lra). clearbody u x y.
  set (c := (INR (roundings t) + 3) / 2 ^ 52) in *. set (c' := (INR (roundings t') + 3) / 2 ^ 52) in *. clearbody c c'.
  assert (c * x <= 1003 / 4503599627370496 * y) as Q1 by (apply Rmult_le_compat; lra).
  assert (c' * y <= 1003 / 4503599627370496 * y) as Q2 by (apply Rmult_le_compat_r; lra).
  destruct (Rabs_le_inv _ _ H) as [_ H1]. destruct (Rabs_le_inv _ _ H') as [H2 _]. lra.
Qed.

(** a case: the first product rounded, the others fused from left to right *)
Definition from_left {A} (l : list A) : products A :=
  match l with [] => Zero | a :: l => fold_left Fused l (Sum Zero (Product a)) end.
Lemma pixel_case : adds_up (from_left (pixel_f64 Uint8 10 200 0 130)) (pixel_f64 Uint8 10 200 0 130) /\ byte_value 10 /\ byte_value 200 /\ byte_value 130 /\
  Forall good_channel [channel_f64 Uint8 10 130; channel_f64 Uint8 200 130; channel_f64 Uint8 0 130].
Proof.
  unfold byte_value. split; [|split; [lia|split; [lia|split; [lia|]]]; repeat (apply Forall_cons; [apply channel_good; unfold byte_value; lia|]); apply Forall_nil].
  split; [cbn; apply Permutation_refl|cbn; lia].
Qed.
