(** Lemmas for Prop_Sum64.v *)
From Coq Require Import List ZArith Reals Floats.SpecFloat Lra Lia Psatz Permutation.
From Flocq Require Import Core BinarySingleNaN Relative.
From Verif Require Import Base L_Base BaseX M_Translate M_Mapper M_Metric M_Float S_Float M_Bin64 L_Float64 L_Bin64 L_Norm64 M_Angle64 S_Angle64 L_Angle64 L_Peak M_Sum64 S_Sum64.
Import ListNotations.
Local Open Scope R_scope.

Lemma terms_adds {A} (t : additions A) : (length (terms t) <= S (adds t))%nat.
Proof. induction t; cbn [terms adds length]; [lia|lia|]. rewrite app_length. lia. Qed.
Lemma eps_val : eps = / 9007199254740992. Proof. reflexivity. Qed.
Lemma eta_le_1 : eta <= 1. Proof. unfold eta. change 1 with (bpow radix2 0). apply bpow_le. lia. Qed.
Lemma Rabs_plus_le a b : Rabs (a + b) <= Rabs a + Rabs b. Proof. apply Rabs_triang. Qed.

(** the rounded sum of numbers *)
Definition mass {A} (f : A -> f64) (l : list A) : R := Rsumf (fun a => Rabs (value (f a))) l.
Lemma mass_nonneg {A} (f : A -> f64) l : 0 <= mass f l.
Proof. apply Rsumf_nonneg. intros a _. apply Rabs_pos. Qed.
Lemma mass_app {A} (f : A -> f64) l m : mass f (l ++ m) = mass f l + mass f m.
Proof. apply Rsumf_app. Qed.
Lemma sum_abs {A} (f : A -> f64) l : Rabs (Rsumf (fun a => value (f a)) l) <= mass f l.
Proof.
  induction l as [|a l IH]; [unfold mass, Rsumf; cbn; rewrite Rabs_R0; lra|]. unfold mass in *. rewrite !Rsumf_cons. eapply Rle_trans; [apply Rabs_triang|]. lra.
Qed.
Lemma tree_sum {A} (f : A -> f64) (t : additions A) :
  (forall a, In a (terms t) -> number (f a)) -> 2 * INR (adds t) * eps <= 1 -> mass f (terms t) <= bpow radix2 1000 ->
  number (f_sum f t) /\ Rabs (value (f_sum f t) - Rsumf (fun a => value (f a)) (terms t)) <= 2 * INR (adds t) * (eps * mass f (terms t) + eta).
Proof.
  assert (0 < eps) as Ep by (unfold eps; lra). pose proof eta_pos as Ep'. induction t as [|a|s IHs t IHt]; intros N K M.
  - cbn [f_sum terms adds]. destruct (of_Z_val 0 ltac:(lia)) as [Z V]. split; [exact Z|]. rewrite V. unfold Rsumf. cbn. rewrite Rminus_0_r, Rabs_R0. lra.
  - cbn [f_sum terms adds]. split; [apply N; now left|]. unfold Rsumf. cbn. replace (_ - _) with 0 by ring. rewrite Rabs_R0. lra.
  - cbn [f_sum terms adds] in *. rewrite mass_app in *. rewrite Rsumf_app. rewrite S_INR, plus_INR in *.
    pose proof (mass_nonneg f (terms s)) as Ms. pose proof (mass_nonneg f (terms t)) as Mt. pose proof (pos_INR (adds s)) as Ks. pose proof (pos_INR (adds t)) as Kt.
    destruct IHs as [Ns Es]; [intros a I; apply N, in_or_app; now left|nra|lra|].
    destruct IHt as [Nt Et]; [intros a I; apply N, in_or_app; now right|nra|lra|].
    pose proof (sum_abs f (terms s)) as As. pose proof (sum_abs f (terms t)) as At.
    set (ks := INR (adds s)) in *. set (kt := INR (adds t)) in *. clearbody ks kt.
    set (ms := mass f (terms s)) in *. set (mt := mass f (terms t)) in *. clearbody ms mt.
    set (Ss := Rsumf (fun a => value (f a)) (terms s)) in *. set (St := Rsumf (fun a => value (f a)) (terms t)) in *. clearbody Ss St.
    assert (0 <= ks * eps <= / 2) as Us by nra. assert (0 <= kt * eps <= / 2) as Ut by nra.
    (* the two parts are not huge *)
    assert (Rabs (value (f_sum f s)) <= ms * (1 + 2 * ks * eps) + 2 * ks * eta) as Vs.
    { replace (value (f_sum f s)) with (value (f_sum f s) - Ss + Ss) by ring. eapply Rle_trans; [apply Rabs_triang|]. lra. }
    assert (Rabs (value (f_sum f t)) <= mt * (1 + 2 * kt * eps) + 2 * kt * eta) as Vt.
    { replace (value (f_sum f t)) with (value (f_sum f t) - St + St) by ring. eapply Rle_trans; [apply Rabs_triang|]. lra. }
    assert (ms * (ks * eps) <= ms * / 2) as X1 by (apply Rmult_le_compat_l; lra). assert (mt * (kt * eps) <= mt * / 2) as X2 by (apply Rmult_le_compat_l; lra).
    set (x := value (f_sum f s)) in *. set (y := value (f_sum f t)) in *.
    assert (Rabs (x + y) <= ms * (1 + 2 * ks * eps) + 2 * ks * eta + (mt * (1 + 2 * kt * eps) + 2 * kt * eta)) as Vxy by (eapply Rle_trans; [apply Rabs_triang|]; lra).
    assert (ks * eta <= bpow radix2 1000 /\ kt * eta <= bpow radix2 1000) as [Y1 Y2].
    { assert (eta <= eps * bpow radix2 1000) as Q. { unfold eta. rewrite <- eps_bpow, <- bpow_plus. apply bpow_le. lia. }
      assert (0 < bpow radix2 1000) as Q0 by apply bpow_gt_0.
      assert (forall k, 0 <= k -> k * eps <= / 2 -> k * eta <= bpow radix2 1000) as G.
      { intros k P H. apply Rle_trans with (k * (eps * bpow radix2 1000)); [now apply Rmult_le_compat_l|]. rewrite <- Rmult_assoc.
        apply Rle_trans with (/ 2 * bpow radix2 1000); [apply Rmult_le_compat_r; lra|lra]. }
      split; apply G; lra. }
    assert (small (x + y)) as Sm.
    { apply small_high. unfold high. eapply Rle_trans; [exact Vxy|]. lra. }
    destruct (add_val _ _ Ns Nt Sm) as [Nn Vn]. split; [exact Nn|]. rewrite Vn.
    change (value (f_sum f s) + value (f_sum f t)) with (x + y). pose proof (err (x + y)) as E.
    replace (rnd (x + y) - (Ss + St)) with ((rnd (x + y) - (x + y)) + ((x - Ss) + (y - St))) by ring.
    eapply Rle_trans; [apply Rabs_triang|]. pose proof (Rabs_triang (x - Ss) (y - St)) as E3.
    (* eps * |x + y| *)
    assert (eps * Rabs (x + y) <= eps * (2 * (ms + mt)) + eps * (2 * (ks + kt) * eta)) as E4.
    { rewrite <- Rmult_plus_distr_l. apply Rmult_le_compat_l; [lra|]. lra. }
    assert (eps * (2 * (ks + kt) * eta) <= eta) as E5.
    { replace (eps * (2 * (ks + kt) * eta)) with ((2 * (ks + kt) * eps) * eta) by ring. rewrite <- (Rmult_1_l eta) at 2. apply Rmult_le_compat_r; [lra|]. lra. }
    assert (2 * ks * (eps * ms + eta) + 2 * kt * (eps * mt + eta) + 2 * (eps * (ms + mt) + eta) <= 2 * (ks + kt + 1) * (eps * (ms + mt) + eta)) as E6.
    { assert (0 <= ks * (eps * mt)) by (apply Rmult_le_pos; [lra|apply Rmult_le_pos; lra]). assert (0 <= kt * (eps * ms)) by (apply Rmult_le_pos; [lra|apply Rmult_le_pos; lra]). lra. }
    lra.
Qed.
(** terms with errors *)
Lemma Rsumf_near {A} (g F W : A -> R) d z l : (forall a, In a l -> Rabs (g a - F a) <= d * W a + z) ->
  Rabs (Rsumf g l - Rsumf F l) <= d * Rsumf W l + INR (length l) * z.
Proof.
  induction l as [|a l IH]; intros H; [unfold Rsumf; cbn; rewrite Rminus_0_r, Rabs_R0; lra|].
  rewrite !Rsumf_cons. specialize (IH (fun b I => H b (or_intror I))). specialize (H a (or_introl eq_refl)). cbn [length]. rewrite S_INR.
  replace (g a + Rsumf g l - (F a + Rsumf F l)) with ((g a - F a) + (Rsumf g l - Rsumf F l)) by ring. eapply Rle_trans; [apply Rabs_triang|]. lra.
Qed.
Lemma mass_near {A} (f : A -> f64) (F W : A -> R) d z l : (forall a, In a l -> Rabs (value (f a) - F a) <= d * W a + z /\ Rabs (F a) <= W a) ->
  mass f l <= (1 + d) * Rsumf W l + INR (length l) * z.
Proof.
  induction l as [|a l IH]; intros H; [unfold mass, Rsumf; cbn; lra|]. unfold mass in *.
  rewrite !Rsumf_cons. specialize (IH (fun b I => H b (or_intror I))). specialize (H a (or_introl eq_refl)). cbn [length]. rewrite S_INR. destruct H as [H1 H2].
  assert (Rabs (value (f a)) <= d * W a + z + W a). { replace (value (f a)) with ((value (f a) - F a) + F a) by ring. eapply Rle_trans; [apply Rabs_triang|]. lra. }
  lra.
Qed.
Lemma sum_near {A} (f : A -> f64) (F W : A -> R) d z (t : additions A) :
  (forall a, In a (terms t) -> number (f a) /\ Rabs (value (f a) - F a) <= d * W a + z /\ Rabs (F a) <= W a) ->
  0 <= d <= 1 -> eta <= z <= 1 -> INR (adds t) <= 2 ^ 40 -> Rsumf W (terms t) <= bpow radix2 800 ->
  let k := INR (adds t) in number (f_sum f t) /\
  Rabs (value (f_sum f t) - Rsumf F (terms t)) <= (d + 2 * k * eps * (1 + d)) * Rsumf W (terms t) + 4 * (k + 1) * z /\
  Rabs (Rsumf F (terms t)) <= Rsumf W (terms t).
Proof.
  intros H D Z K WB k. pose proof eta_pos as Et.
  assert (0 <= k) as Kp by apply pos_INR. assert (2 ^ 40 = 1099511627776) as P40 by (cbn; lra).
  assert (INR (length (terms t)) <= k + 1) as Ln. { unfold k. rewrite <- S_INR. apply le_INR, terms_adds. } pose proof (pos_INR (length (terms t))) as Lp.
  assert (2 * k * eps <= 1) as Ke. { unfold eps. fold k in K. lra. } assert (0 <= k * eps) as Kz by (unfold eps; lra).
  pose proof (mass_near f F W d z (terms t) (fun a I => proj2 (H a I))) as M.
  assert (0 <= Rsumf W (terms t)) as Wp. { apply Rsumf_nonneg. intros a I. eapply Rle_trans; [apply Rabs_pos|]. apply (H a I). }
  assert (INR (length (terms t)) * z <= (k + 1) * z) as Lz by (apply Rmult_le_compat_r; lra).
  assert (mass f (terms t) <= bpow radix2 1000) as MB.
  { eapply Rle_trans; [exact M|]. apply Rle_trans with (4 * bpow radix2 800).
    - assert ((k + 1) * z <= (k + 1) * 1) by (apply Rmult_le_compat_l; lra). assert (bpow radix2 41 <= bpow radix2 800) as B by (apply bpow_le; lia).
      change (bpow radix2 41) with 2199023255552 in B. fold k in K. assert (d * Rsumf W (terms t) <= 1 * Rsumf W (terms t)) by (apply Rmult_le_compat_r; lra). lra.
    - change 4 with (bpow radix2 2). rewrite <- bpow_plus. apply bpow_le. lia. }
  destruct (tree_sum f t (fun a I => proj1 (H a I)) Ke MB) as [N E]. fold k in E.
  pose proof (Rsumf_near (fun a => value (f a)) F W d z (terms t) (fun a I => proj1 (proj2 (H a I)))) as E2.
  split; [exact N|]. split.
  - replace (value (f_sum f t) - Rsumf F (terms t)) with ((value (f_sum f t) - Rsumf (fun a => value (f a)) (terms t)) + (Rsumf (fun a => value (f a)) (terms t) - Rsumf F (terms t))) by ring.
    eapply Rle_trans; [apply Rabs_triang|].
    assert (2 * k * (eps * mass f (terms t) + eta) <= 2 * k * eps * ((1 + d) * Rsumf W (terms t)) + 2 * k * eps * ((k + 1) * z) + 2 * k * eta) as E3.
    { assert (2 * k * eps * mass f (terms t) <= 2 * k * eps * ((1 + d) * Rsumf W (terms t) + (k + 1) * z)) by (apply Rmult_le_compat_l; lra). lra. }
    assert (2 * k * eps * ((k + 1) * z) <= 1 * ((k + 1) * z)) as E4 by (apply Rmult_le_compat_r; [apply Rmult_le_pos; lra|lra]).
    assert (2 * k * eta <= 2 * k * z) as E5 by (apply Rmult_le_compat_l; lra).
    lra.
  - clear - H. assert (forall l, (forall a, In a l -> Rabs (F a) <= W a) -> Rabs (Rsumf F l) <= Rsumf W l) as G.
    { induction l as [|a l IH]; intros B; [unfold Rsumf; cbn; rewrite Rabs_R0; lra|]. rewrite !Rsumf_cons. eapply Rle_trans; [apply Rabs_triang|].
      specialize (IH (fun b I => B b (or_intror I))). specialize (B a (or_introl eq_refl)). lra. }
    apply G. intros a I. apply (H a I).
Qed.

(** the terms of illum and avglum *)
Definition big : R := bpow radix2 200.
Definition tiny : R := bpow radix2 (-870).
Lemma big_pow : 2 ^ 200 = big. Proof. unfold big. rewrite bpow_powerRZ. change (IZR radix2) with 2. change 200%Z with (Z.of_nat 200). now rewrite <- pow_powerRZ. Qed.
Lemma small_of_bpow x e : (e <= 1023)%Z -> Rabs x <= bpow radix2 e -> small x.
Proof. intros E H. unfold small. eapply Rle_trans; [exact H|]. now apply bpow_le. Qed.
Lemma mul_big x y : 0 <= x <= big -> 0 <= y <= big -> 0 <= x * y <= bpow radix2 400.
Proof. intros X Y. change 400%Z with (200 + 200)%Z. rewrite bpow_plus. fold big. split; [apply Rmult_le_pos; lra|apply Rmult_le_compat; lra]. Qed.
Lemma eta_tiny y : 0 <= y <= big -> 2 * (eta * y) + eta <= tiny.
Proof.
  intros Y. unfold eta, tiny. assert (bpow radix2 (-1075) * y <= bpow radix2 (-1075) * bpow radix2 200) as H by (apply Rmult_le_compat_l; [apply bpow_ge_0|exact (proj2 Y)]).
  rewrite <- bpow_plus in H. change (-1075 + 200)%Z with (-875)%Z in H. assert (bpow radix2 (-870) = 32 * bpow radix2 (-875)) as ->.
  { change 32 with (bpow radix2 5). rewrite <- bpow_plus. reflexivity. }
  assert (bpow radix2 (-1075) <= bpow radix2 (-875)) by (apply bpow_le; lia). pose proof (bpow_ge_0 radix2 (-875)). lra.
Qed.
Lemma light_term l o : number l -> number o -> 0 <= value l <= big -> 0 <= value o <= big ->
  number (f_mul l o) /\ Rabs (value (f_mul l o) - value l * value o) <= eps * (value l * value o) + eta /\ 0 <= value (f_mul l o).
Proof.
  intros L O Vl Vo. pose proof (mul_big _ _ Vl Vo) as B. destruct (mul_val l o L O) as [N V].
  { apply (small_of_bpow _ 400); [lia|]. rewrite Rabs_pos_eq; lra. }
  split; [exact N|]. rewrite V. split; [|rewrite <- rnd_0; apply rnd_le; lra]. eapply Rle_trans; [apply err|]. rewrite Rabs_pos_eq; lra.
Qed.
Lemma ray_term c l o C d : cosine c -> number l -> number o -> 0 <= value l <= big -> 0 <= value o <= big -> Rabs (value c - C) <= d -> 0 <= d ->
  number (f_mul (f_mul c l) o) /\ Rabs (value (f_mul (f_mul c l) o) - C * value l * value o) <= (3 * eps + d) * (value l * value o) + tiny.
Proof.
  intros [Nc Vc] L O Vl Vo Ec D. pose proof (mul_big _ _ Vl Vo) as B. pose proof (eta_tiny _ Vo) as T. pose proof eta_pos as Et.
  set (x := value c) in *. set (y := value l) in *. set (w := value o) in *.
  assert (Rabs (x * y) <= y) as Bxy. { rewrite Rabs_mult, (Rabs_pos_eq y) by lra. rewrite <- (Rmult_1_l y) at 2. apply Rmult_le_compat_r; [lra|]. apply Rabs_le. lra. }
  destruct (mul_val c l Nc L) as [N1 V1]. { fold x y. apply (small_of_bpow _ 200); [lia|]. unfold big in Vl. lra. }
  fold x y in V1. pose proof (err (x * y)) as E1. set (p := rnd (x * y)) in *.
  assert (0 < eps < / 1000) as Ep by (unfold eps; lra).
  assert (Rabs (p - x * y) <= eps * y + eta) as E1'. { eapply Rle_trans; [exact E1|]. apply Rplus_le_compat_r, Rmult_le_compat_l; lra. }
  assert (Rabs p <= (1 + eps) * y + eta) as Bp. { replace p with ((p - x * y) + x * y) by ring. eapply Rle_trans; [apply Rabs_triang|]. lra. }
  assert (Rabs (p * w) <= (1 + eps) * (y * w) + eta * w) as Bpw.
  { rewrite Rabs_mult, (Rabs_pos_eq w) by lra. replace ((1 + eps) * (y * w) + eta * w) with (((1 + eps) * y + eta) * w) by ring. apply Rmult_le_compat_r; lra. }
  assert (eta * w <= tiny) as T1. { assert (0 <= eta * w) by (apply Rmult_le_pos; lra). lra. }
  assert (tiny <= bpow radix2 400) as T2 by (unfold tiny; apply bpow_le; lia).
  destruct (mul_val (f_mul c l) o N1 O) as [N2 V2].
  { rewrite V1. fold w. apply (small_of_bpow _ 402); [lia|]. change 402%Z with (2 + 400)%Z. rewrite bpow_plus. change (bpow radix2 2) with 4. eapply Rle_trans; [exact Bpw|].
    assert (eps * (y * w) <= 1 * (y * w)) by (apply Rmult_le_compat_r; lra). lra. }
  rewrite V1 in V2. fold w in V2. split; [exact N2|]. rewrite V2. pose proof (err (p * w)) as E2.
  replace (rnd (p * w) - C * y * w) with ((rnd (p * w) - p * w) + ((p - x * y) * w + (x - C) * (y * w))) by ring.
  eapply Rle_trans; [apply Rabs_triang|]. pose proof (Rabs_triang ((p - x * y) * w) ((x - C) * (y * w))) as E3.
  assert (Rabs ((p - x * y) * w) <= eps * (y * w) + eta * w) as E4.
  { rewrite Rabs_mult, (Rabs_pos_eq w) by lra. replace (eps * (y * w) + eta * w) with ((eps * y + eta) * w) by ring. apply Rmult_le_compat_r; lra. }
  assert (Rabs ((x - C) * (y * w)) <= d * (y * w)) as E5. { rewrite Rabs_mult, (Rabs_pos_eq (y * w)) by lra. apply Rmult_le_compat_r; lra. }
  assert (eps * Rabs (p * w) <= eps * ((1 + eps) * (y * w) + eta * w)) as E6 by (apply Rmult_le_compat_l; lra).
  assert (eps * (eps * (y * w)) <= 1 * (eps * (y * w))) as E7 by (apply Rmult_le_compat_r; [apply Rmult_le_pos; lra|lra]).
  assert (eps * (eta * w) <= 1 * (eta * w)) as E8 by (apply Rmult_le_compat_r; [apply Rmult_le_pos; lra|lra]).
  lra.
Qed.

Lemma Rsumf_perm {A} (f : A -> R) l l' : Permutation l l' -> Rsumf f l = Rsumf f l'.
Proof. intros H. unfold Rsumf. apply Rsum_perm. now apply Permutation_map. Qed.
Lemma Rsumf_map {A B} (f : B -> R) (g : A -> B) l : Rsumf f (map g l) = Rsumf (fun a => f (g a)) l.
Proof. unfold Rsumf. now rewrite map_map. Qed.
Lemma light_bound l : good_rays l -> 0 <= Rsumf (fun r => value (l64 r) * value (o64 r)) l <= INR (length l) * bpow radix2 400.
Proof.
  induction 1 as [|r l (_ & [_ O] & [_ L]) _ IH]; [unfold Rsumf; cbn; lra|]. rewrite Rsumf_cons. cbn [length]. rewrite S_INR. rewrite big_pow in *.
  pose proof (mul_big _ _ L O). lra.
Qed.
Lemma light_all t : INR (adds (A:=ray64) t) <= 2 ^ 40 -> good_rays (terms t) -> 0 <= Rsumf (fun r => value (l64 r) * value (o64 r)) (terms t) <= bpow radix2 442.
Proof.
  intros K G. destruct (light_bound _ G) as [H0 H]. split; [exact H0|]. eapply Rle_trans; [exact H|]. change 442%Z with (42 + 400)%Z. rewrite bpow_plus.
  apply Rmult_le_compat_r; [apply bpow_ge_0|]. pose proof (le_INR _ _ (terms_adds t)) as L. rewrite S_INR in L. change (bpow radix2 42) with 4398046511104.
  assert (2 ^ 40 = 1099511627776) by (cbn; lra). lra.
Qed.
Lemma scale_bpow e s : (0 <= s <= big) -> bpow radix2 e * s <= bpow radix2 (e + 200).
Proof. intros S. rewrite bpow_plus. apply Rmult_le_compat_l; [apply bpow_ge_0|exact (proj2 S)]. Qed.
Lemma inv_pow_bpow : / 2 ^ 600 = bpow radix2 (-600).
Proof. change (-600)%Z with (- (600))%Z. rewrite bpow_opp. f_equal. rewrite bpow_powerRZ. change (IZR radix2) with 2. change 600%Z with (Z.of_nat 600). now rewrite <- pow_powerRZ. Qed.

(** a product with the scale, after a sum with the error c*W + 4*(k+1)*tiny *)
Lemma scaled v s S W c k : number v -> moderate s -> 0 <= k <= 2 ^ 40 -> 0 <= W <= bpow radix2 442 -> Rabs S <= W -> 0 <= c <= / 1000 ->
  Rabs (value v - S) <= c * W + 4 * (k + 1) * tiny ->
  number (f_mul v s) /\ Rabs (value (f_mul v s) - S * value s) <= (c + eps * (1 + c)) * (W * value s) + bpow radix2 (-620) /\ Rabs (value v) <= 2 * bpow radix2 442.
Proof.
  intros N [Ns Vs] K WB SB C E. rewrite big_pow in Vs. assert (2 ^ 40 = 1099511627776) as P40 by (cbn; lra).
  assert (0 < tiny) as Tp by apply bpow_gt_0. pose proof eta_pos as Et. assert (0 < eps < / 1000) as Ep by (unfold eps; lra).
  set (z := 4 * (k + 1) * tiny) in *. assert (0 <= z <= bpow radix2 (-826)) as Z.
  { split; [apply Rmult_le_pos; lra|]. unfold z. change (-826)%Z with (44 + -870)%Z. rewrite bpow_plus. fold tiny. apply Rmult_le_compat_r; [lra|]. change (bpow radix2 44) with 17592186044416. lra. }
  assert (Rabs (value v) <= (1 + c) * W + z) as Bv. { replace (value v) with ((value v - S) + S) by ring. eapply Rle_trans; [apply Rabs_triang|]. lra. }
  assert (bpow radix2 (-826) <= / 1000 * bpow radix2 442) as Q.
  { apply Rle_trans with (bpow radix2 (-10) * bpow radix2 442). - rewrite <- bpow_plus. apply bpow_le. lia. - apply Rmult_le_compat_r; [apply bpow_ge_0|]. change (bpow radix2 (-10)) with (/ 1024). lra. }
  assert (c * W <= / 1000 * bpow radix2 442) as Q2 by (apply Rmult_le_compat; lra).
  assert (Rabs (value v) <= 2 * bpow radix2 442) as Bv'. { pose proof (bpow_ge_0 radix2 442). lra. }
  set (x := value v) in *. set (y := value s) in *.
  assert (Rabs (x * y) <= (1 + c) * (W * y) + z * y) as Bxy.
  { rewrite Rabs_mult, (Rabs_pos_eq y) by lra. replace ((1 + c) * (W * y) + z * y) with (((1 + c) * W + z) * y) by ring. apply Rmult_le_compat_r; lra. }
  destruct (mul_val v s N Ns) as [N1 V1].
  { fold x y. apply (small_of_bpow _ 643); [lia|]. rewrite Rabs_mult, (Rabs_pos_eq y) by lra. apply Rle_trans with (2 * bpow radix2 442 * y).
    - apply Rmult_le_compat_r; lra.
    - change 2 with (bpow radix2 1). rewrite <- bpow_plus. apply scale_bpow. exact Vs. }
  fold x y in V1. split; [exact N1|]. split; [|exact Bv']. rewrite V1. pose proof (err (x * y)) as E1.
  replace (rnd (x * y) - S * y) with ((rnd (x * y) - x * y) + (x - S) * y) by ring. eapply Rle_trans; [apply Rabs_triang|].
  assert (Rabs ((x - S) * y) <= (c * W + z) * y) as E2. { rewrite Rabs_mult, (Rabs_pos_eq y) by lra. apply Rmult_le_compat_r; lra. }
  assert (eps * Rabs (x * y) <= eps * ((1 + c) * (W * y) + z * y)) as E3 by (apply Rmult_le_compat_l; lra).
  assert (0 <= z * y <= bpow radix2 (-626)) as Zy.
  { split; [apply Rmult_le_pos; lra|]. apply Rle_trans with (bpow radix2 (-826) * y); [apply Rmult_le_compat_r; lra|]. apply (scale_bpow (-826)). exact Vs. }
  assert (eps * (z * y) <= 1 * (z * y)) as E4 by (apply Rmult_le_compat_r; lra).
  assert (eta <= bpow radix2 (-626)) as E5 by (unfold eta; apply bpow_le; lia).
  assert (bpow radix2 (-620) = 64 * bpow radix2 (-626)) as -> by (change 64 with (bpow radix2 6); rewrite <- bpow_plus; reflexivity).
  lra.
Qed.
Lemma cosines_accurate a v : cosines a -> cosines v -> cosine (ctheta_f64 a v) /\
  Rabs (value (ctheta_f64 a v) - clip (dot (vector_of a) (vector_of v)) (-1) 1) <= / 2 ^ 48.
Proof.
  destruct a as [[x y] z], v as [[x' y'] z']. intros (A1 & A2 & A3) (B1 & B2 & B3). split.
  - apply ctheta_cosine; cbn; repeat split; try apply cosine_below; try assumption; try (apply A1 || apply A2 || apply A3 || apply B1 || apply B2 || apply B3).
  - exact (ctheta_accurate x y z x' y' z' A1 A2 A3 B1 B2 B3).
Qed.
Lemma clip_abs x : Rabs (clip x (-1) 1) <= 1.
Proof. unfold clip. apply Rabs_le. split; [apply Rmax_case_strong || idtac|]; unfold Rmin, Rmax; repeat destruct Rle_dec; lra. Qed.


Definition ray_f64 (axis : fvec) (r : ray64) : f64 := f_mul (f_mul (ctheta_f64 axis (v64 r)) (l64 r)) (o64 r).
Definition ray_exact (axis : fvec) (r : ray64) : R := clip (dot (vector_of axis) (vector_of (v64 r))) (-1) 1 * value (l64 r) * value (o64 r).
Definition ray_light (r : ray64) : R := value (l64 r) * value (o64 r).
Lemma illum_sum axis t : cosines axis -> good_rays (terms t) -> INR (adds t) <= 2 ^ 40 -> let k := INR (adds t) in
  number (f_sum (ray_f64 axis) t) /\
  Rabs (value (f_sum (ray_f64 axis) t) - Rsumf (ray_exact axis) (terms t)) <= (35 * eps + 2 * k * eps * (1 + 35 * eps)) * Rsumf ray_light (terms t) + 4 * (k + 1) * tiny /\
  Rabs (Rsumf (ray_exact axis) (terms t)) <= Rsumf ray_light (terms t) /\ 0 <= Rsumf ray_light (terms t) <= bpow radix2 442.
Proof.
  intros A G K k. pose proof (light_all t K G) as WB. fold ray_light in WB.
  assert (2 ^ 48 = 281474976710656) as P48 by (cbn; lra).
  destruct (sum_near (ray_f64 axis) (ray_exact axis) ray_light (35 * eps) tiny t) as (N & E & B); [| |split; [apply bpow_le; lia|change 1 with (bpow radix2 0); apply bpow_le; lia]|exact K|eapply Rle_trans; [exact (proj2 WB)|apply bpow_le; lia]|].
  - intros r I. pose proof (proj1 (Forall_forall _ _) G r I) as (Gv & [No Vo] & [Nl Vl]). rewrite big_pow in *. destruct (cosines_accurate axis (v64 r) A Gv) as [Cc Ec].
    destruct (ray_term _ _ _ _ _ Cc Nl No Vl Vo Ec ltac:(lra)) as [Nr Er]. split; [exact Nr|]. split.
    + unfold ray_exact, ray_f64, ray_light. eapply Rle_trans; [exact Er|]. apply Req_le. rewrite P48. unfold eps. field.
    + unfold ray_exact, ray_light. rewrite Rmult_assoc, Rabs_mult, (Rabs_pos_eq (_ * _)) by (apply Rmult_le_pos; lra). rewrite <- (Rmult_1_l (value (l64 r) * value (o64 r))) at 2.
      apply Rmult_le_compat_r; [apply Rmult_le_pos; lra|]. apply clip_abs.
  - unfold eps. lra.
  - split; [exact N|]. split; [exact E|]. split; [exact B|exact WB].
Qed.
Lemma illum_near m axis scale t : cosines axis -> moderate scale -> good_rays (terms t) -> INR (adds t) <= 2 ^ 40 -> same_set m axis scale (terms t) ->
  number (illum_f64 axis scale t) /\
  Rabs (value (illum_f64 axis scale t) - illum m) <= (INR (adds t) + 20) / 2 ^ 52 * all_light m + / 2 ^ 600.
Proof.
  intros A S G K (D & Sc & P). unfold illum, all_light. rewrite !(Rsumf_perm _ _ _ P), !Rsumf_map, Sc. cbn [ray_of r_lum r_omega r_vec].
  rewrite (Rsumf_ext _ (ray_exact axis)) by (intros r _; unfold m_ctheta, vm_ctheta, ray_exact; now rewrite D). fold ray_light.
  assert (2 ^ 40 = 1099511627776) as P40 by (cbn; lra). assert (2 ^ 52 = 4503599627370496) as P52 by (cbn; lra). pose proof (pos_INR (adds t)) as Kp.
  destruct (illum_sum axis t A G K) as (N & E & B & WB).
  set (k := INR (adds t)) in *. set (c := 35 * eps + 2 * k * eps * (1 + 35 * eps)) in *.
  assert (0 <= c <= / 1000) as C. { unfold c, eps. lra. }
  destruct (scaled _ _ _ _ c k N S ltac:(lra) WB B C E) as (N2 & E2 & _). split; [exact N2|]. eapply Rle_trans; [exact E2|].
  rewrite inv_pow_bpow. apply Rplus_le_compat; [|apply bpow_le; lia].
  apply Rmult_le_compat_r; [apply Rmult_le_pos; [lra|apply (proj2 S)]|].
  rewrite P52. unfold c, eps. lra.
Qed.
Lemma avglum_near m axis scale area t : moderate scale -> number area -> / 2 ^ 200 <= value area -> good_rays (terms t) -> INR (adds t) <= 2 ^ 40 ->
  same_set m axis scale (terms t) -> ms_view_area m = value area ->
  number (avglum_f64 area scale t) /\ exists x, avglum m = Fin x /\
  Rabs (value (avglum_f64 area scale t) - x) <= (INR (adds t) + 4) / 2 ^ 52 * x + / 2 ^ 400.
Proof.
  intros S Na Va G K (_ & Sc & P) Ar. unfold avglum. rewrite !(Rsumf_perm _ _ _ P), !Rsumf_map, Sc, Ar. cbn [ray_of r_lum r_omega].
  set (W := fun r => value (l64 r) * value (o64 r)). set (f := fun r => f_mul (l64 r) (o64 r)).
  assert (/ 2 ^ 200 = bpow radix2 (-200)) as I200. { rewrite big_pow. unfold big. change (-200)%Z with (- (200))%Z. now rewrite bpow_opp. }
  rewrite I200 in Va. pose proof (bpow_gt_0 radix2 (-200)) as Bp. set (a := value area) in *.
  assert (/ a <= big) as Ia. { unfold big. change 200%Z with (- (-200))%Z. rewrite bpow_opp. apply Rinv_le; lra. }
  assert (0 < / a) as Ia0 by (apply Rinv_0_lt_compat; lra).
  pose proof (light_all t K G) as WB. fold W in WB. assert (2 ^ 40 = 1099511627776) as P40 by (cbn; lra). assert (2 ^ 52 = 4503599627370496) as P52 by (cbn; lra).
  pose proof (pos_INR (adds t)) as Kp. assert (eta <= tiny) as ET by (apply bpow_le; lia).
  destruct (sum_near f W W eps tiny t) as (N & E & B); [| |split; [exact ET|change 1 with (bpow radix2 0); apply bpow_le; lia]|exact K|eapply Rle_trans; [exact (proj2 WB)|apply bpow_le; lia]|].
  - intros r I. pose proof (proj1 (Forall_forall _ _) G r I) as (_ & [No Vo] & [Nl Vl]). rewrite big_pow in *.
    destruct (light_term _ _ Nl No Vl Vo) as (Nr & Er & _). split; [exact Nr|]. split; [unfold f, W; lra|]. unfold W. rewrite Rabs_pos_eq; [lra|apply Rmult_le_pos; lra].
  - unfold eps. lra.
  - set (k := INR (adds t)) in *. set (c := eps + 2 * k * eps * (1 + eps)) in *. assert (0 <= c <= / 1000) as C by (unfold c, eps; lra).
    destruct (scaled _ _ _ _ c k N S ltac:(lra) WB B C E) as (N2 & E2 & Bv). set (p := value (f_mul (f_sum f t) scale)) in *. set (y := value scale) in *.
    assert (0 <= y <= big) as Y. { destruct S as [_ Vs]. rewrite big_pow in Vs. exact Vs. }
    set (X := Rsumf W (terms t)) in *. set (c' := c + eps * (1 + c)) in *. assert (0 <= c' <= / 500) as C' by (unfold c', eps; lra).
    assert (0 <= X * y <= bpow radix2 642) as XY. { split; [apply Rmult_le_pos; lra|]. apply Rle_trans with (bpow radix2 442 * y); [apply Rmult_le_compat_r; lra|]. apply (scale_bpow 442). exact Y. }
    assert (0 <= X * y * / a) as XYA by (apply Rmult_le_pos; lra).
    (* the quotient before rounding *)
    assert (Rabs (p / a - X * y / a) <= c' * (X * y * / a) + bpow radix2 (-420)) as E3.
    { replace (p / a - X * y / a) with ((p - X * y) * / a) by (unfold Rdiv; ring). rewrite Rabs_mult, (Rabs_pos_eq (/ a)) by lra.
      apply Rle_trans with ((c' * (X * y) + bpow radix2 (-620)) * / a); [apply Rmult_le_compat_r; lra|]. rewrite Rmult_plus_distr_r.
      apply Rplus_le_compat; [lra|]. apply (scale_bpow (-620)). lra. }
    assert (Rabs (p / a) <= (1 + c') * (X * y * / a) + bpow radix2 (-420)) as Bq.
    { replace (p / a) with ((p / a - X * y / a) + X * y / a) by ring. eapply Rle_trans; [apply Rabs_triang|]. rewrite (Rabs_pos_eq (X * y / a)) by exact XYA. unfold Rdiv in *. lra. }
    assert (X * y * / a <= bpow radix2 842) as XB. { apply Rle_trans with (bpow radix2 642 * / a); [apply Rmult_le_compat_r; lra|]. apply (scale_bpow 642). lra. }
    destruct (div_val _ _ N2 Na) as [N3 V3]; [fold a; lra| |].
    { fold p a. apply (small_of_bpow _ 844); [lia|]. eapply Rle_trans; [exact Bq|]. change 844%Z with (2 + 842)%Z. rewrite bpow_plus. change (bpow radix2 2) with 4.
      assert (bpow radix2 (-420) <= bpow radix2 842) by (apply bpow_le; lia). assert (c' * (X * y * / a) <= 1 * (X * y * / a)) by (apply Rmult_le_compat_r; lra). lra. }
    fold p a in V3. unfold avglum_f64. fold f. split; [exact N3|]. exists (X * y / a). split.
    + unfold xdiv. unfold Reqb. destruct (Req_EM_T a 0) as [A0|A0]; [lra|]. reflexivity.
    + rewrite V3. pose proof (err (p / a)) as E4. replace (rnd (p / a) - X * y / a) with ((rnd (p / a) - p / a) + (p / a - X * y / a)) by ring.
      eapply Rle_trans; [apply Rabs_triang|]. assert (0 < eps < / 1000) as Ep by (unfold eps; lra).
      assert (eps * Rabs (p / a) <= eps * ((1 + c') * (X * y * / a) + bpow radix2 (-420))) as E5 by (apply Rmult_le_compat_l; lra).
      assert (eps * bpow radix2 (-420) <= 1 * bpow radix2 (-420)) as E6 by (apply Rmult_le_compat_r; [apply bpow_ge_0|lra]).
      assert (eta <= bpow radix2 (-420)) as E7 by (apply bpow_le; lia).
      assert (/ 2 ^ 400 = 1048576 * bpow radix2 (-420)) as ->.
      { change 1048576 with (bpow radix2 20). rewrite <- bpow_plus. change (20 + -420)%Z with (- (400))%Z. rewrite bpow_opp. f_equal. rewrite bpow_powerRZ. change (IZR radix2) with 2. change 400%Z with (Z.of_nat 400). now rewrite <- pow_powerRZ. }
      assert ((c' + eps * (1 + c')) * (X * y * / a) <= (k + 4) / 2 ^ 52 * (X * y / a)) as E8.
      { unfold Rdiv at 2. apply Rmult_le_compat_r; [exact XYA|]. rewrite P52. unfold c', c, eps. lra. }
      pose proof (bpow_ge_0 radix2 (-420)). lra.
Qed.

(** orders *)
Lemma same_perm m axis scale l l' : same_set m axis scale l -> Permutation l l' -> same_set m axis scale l'.
Proof. intros (D & S & P) Q. split; [exact D|]. split; [exact S|]. eapply perm_trans; [exact P|]. now apply Permutation_map. Qed.
Lemma illum_orders m axis scale s t : cosines axis -> moderate scale -> good_rays (terms s) -> Permutation (terms s) (terms t) ->
  INR (adds s) <= 2 ^ 40 -> INR (adds t) <= 2 ^ 40 -> same_set m axis scale (terms s) ->
  Rabs (value (illum_f64 axis scale s) - value (illum_f64 axis scale t)) <= (INR (adds s) + INR (adds t) + 40) / 2 ^ 52 * all_light m + 2 / 2 ^ 600.
Proof.
  intros A S G P Ks Kt M. assert (good_rays (terms t)) as G'.
  { unfold good_rays in *. rewrite Forall_forall in *. intros r I. apply G. eapply Permutation_in; [apply Permutation_sym; exact P|exact I]. }
  destruct (illum_near m axis scale s A S G Ks M) as [_ E1]. destruct (illum_near m axis scale t A S G' Kt (same_perm _ _ _ _ _ M P)) as [_ E2].
  replace (value (illum_f64 axis scale s) - value (illum_f64 axis scale t)) with ((value (illum_f64 axis scale s) - illum m) - (value (illum_f64 axis scale t) - illum m)) by ring.
  unfold Rminus at 1. eapply Rle_trans; [apply Rabs_triang|]. rewrite Rabs_Ropp. unfold Rdiv in *. lra.
Qed.
(** more light *)
Lemma adds_sub {A} (s t : additions A) b : INR (adds (Plus s t)) <= b -> INR (adds s) <= b /\ INR (adds t) <= b.
Proof. cbn [adds]. rewrite S_INR, plus_INR. pose proof (pos_INR (adds s)). pose proof (pos_INR (adds t)). lra. Qed.
Lemma good_sub s t : good_rays (terms (Plus s t)) -> good_rays (terms s) /\ good_rays (terms t).
Proof. unfold good_rays. cbn [terms]. apply Forall_app. Qed.
Lemma sum_size axis t : cosines axis -> good_rays (terms t) -> INR (adds t) <= 2 ^ 40 ->
  number (f_sum (ray_f64 axis) t) /\ Rabs (value (f_sum (ray_f64 axis) t)) <= 2 * bpow radix2 442.
Proof.
  intros A G K. assert (2 ^ 40 = 1099511627776) as P40 by (cbn; lra). pose proof (pos_INR (adds t)) as Kp.
  destruct (illum_sum axis t A G K) as (N & E & B & WB). split; [exact N|].
  assert (moderate (f_of_Z 1)) as S. { destruct (of_Z_val 1 ltac:(lia)) as [N1 V1]. split; [exact N1|]. rewrite V1, big_pow. unfold big. split; [lra|]. change 1 with (bpow radix2 0). apply bpow_le. lia. }
  set (k := INR (adds t)) in *. set (c := 35 * eps + 2 * k * eps * (1 + 35 * eps)) in *. assert (0 <= c <= / 1000) as C. { unfold c, eps. lra. }
  destruct (scaled _ _ _ _ c k N S ltac:(lra) WB B C E) as (_ & _ & H). exact H.
Qed.
Lemma ray_value axis r : cosines axis -> cosines (v64 r) /\ moderate (o64 r) /\ moderate (l64 r) ->
  value (ray_f64 axis r) = rnd (rnd (value (ctheta_f64 axis (v64 r)) * value (l64 r)) * value (o64 r)).
Proof.
  intros A (Gv & [No Vo] & [Nl Vl]). rewrite big_pow in *. destruct (cosines_accurate axis (v64 r) A Gv) as [[Nc Vc] _]. unfold ray_f64.
  set (x := value (ctheta_f64 axis (v64 r))) in *. set (y := value (l64 r)) in *. set (w := value (o64 r)) in *.
  assert (Rabs (x * y) <= bpow radix2 200) as Bxy.
  { rewrite Rabs_mult, (Rabs_pos_eq y) by lra. fold big. apply Rle_trans with (1 * y); [|lra]. apply Rmult_le_compat_r; [lra|]. apply Rabs_le. lra. }
  destruct (mul_val _ _ Nc Nl) as [N1 V1]. { apply (small_of_bpow _ 200); [lia|exact Bxy]. } fold x y in V1.
  destruct (mul_val _ _ N1 No) as [N2 V2].
  { rewrite V1. fold w. apply (small_of_bpow _ 400); [lia|]. rewrite Rabs_mult, (Rabs_pos_eq w) by lra. change 400%Z with (200 + 200)%Z. rewrite bpow_plus.
    apply Rmult_le_compat; [apply Rabs_pos|lra|apply rnd_bound; [lia|exact Bxy]|exact (proj2 Vo)]. }
  rewrite V1 in V2. exact V2.
Qed.
Lemma rnd_nonneg x : 0 <= x -> 0 <= rnd x.
Proof. intros H. rewrite <- rnd_0. now apply rnd_le. Qed.
Lemma sum_mono axis : cosines axis -> forall s t, brighter s t -> good_rays (terms s) -> good_rays (terms t) -> Forall (front axis) (terms s) ->
  INR (adds s) <= 2 ^ 40 -> INR (adds t) <= 2 ^ 40 -> 0 <= value (f_sum (ray_f64 axis) s) <= value (f_sum (ray_f64 axis) t).
Proof.
  intros A. induction s as [|a|s1 IH1 s2 IH2]; intros [|b|t1 t2] Br; try contradiction; intros Gs Gt Fs Ks Kt.
  - cbn [f_sum]. rewrite (proj2 (of_Z_val 0 ltac:(lia))). lra.
  - cbn [f_sum terms] in *. destruct Br as (Ev & Eo & El). inversion Gs as [|? ? Ga _]; subst. inversion Gt as [|? ? Gb _]; subst. inversion Fs as [|? ? Fa _]; subst.
    rewrite !ray_value by assumption. rewrite <- Ev, <- Eo. unfold front in Fa. destruct Ga as (_ & [_ Vo] & [_ Vl]).
    split.
    + apply rnd_nonneg, Rmult_le_pos; [|lra]. apply rnd_nonneg, Rmult_le_pos; lra.
    + apply rnd_le, Rmult_le_compat_r; [lra|]. apply rnd_le, Rmult_le_compat_l; assumption.
  - destruct Br as [B1 B2]. destruct (good_sub _ _ Gs) as [Gs1 Gs2]. destruct (good_sub _ _ Gt) as [Gt1 Gt2]. destruct (adds_sub _ _ _ Ks) as [Ks1 Ks2]. destruct (adds_sub _ _ _ Kt) as [Kt1 Kt2].
    cbn [terms] in Fs. apply Forall_app in Fs. destruct Fs as [Fs1 Fs2].
    specialize (IH1 t1 B1 Gs1 Gt1 Fs1 Ks1 Kt1). specialize (IH2 t2 B2 Gs2 Gt2 Fs2 Ks2 Kt2). cbn [f_sum].
    destruct (sum_size axis s1 A Gs1 Ks1) as [N1 S1]. destruct (sum_size axis s2 A Gs2 Ks2) as [N2 S2]. destruct (sum_size axis t1 A Gt1 Kt1) as [M1 T1]. destruct (sum_size axis t2 A Gt2 Kt2) as [M2 T2].
    assert (forall x y, Rabs x <= 2 * bpow radix2 442 -> Rabs y <= 2 * bpow radix2 442 -> small (x + y)) as Sm.
    { intros x y X Y. apply (small_of_bpow _ 444); [lia|]. eapply Rle_trans; [apply Rabs_triang|]. change 444%Z with (2 + 442)%Z. rewrite bpow_plus. change (bpow radix2 2) with 4. lra. }
    rewrite (proj2 (add_val _ _ N1 N2 (Sm _ _ S1 S2))), (proj2 (add_val _ _ M1 M2 (Sm _ _ T1 T2))).
    split; [apply rnd_nonneg; lra|apply rnd_le; lra].
Qed.
Lemma illum_mono axis scale s t : cosines axis -> moderate scale -> brighter s t -> good_rays (terms s) -> good_rays (terms t) ->
  Forall (front axis) (terms s) -> INR (adds s) <= 2 ^ 40 -> INR (adds t) <= 2 ^ 40 -> 0 <= value (illum_f64 axis scale s) <= value (illum_f64 axis scale t).
Proof.
  intros A [Ns Vs] Br Gs Gt Fs Ks Kt. rewrite big_pow in Vs. destruct (sum_mono axis A s t Br Gs Gt Fs Ks Kt) as [M1 M2].
  destruct (sum_size axis s A Gs Ks) as [N1 S1]. destruct (sum_size axis t A Gt Kt) as [N2 S2]. unfold illum_f64. fold (ray_f64 axis).
  assert (forall x, Rabs x <= 2 * bpow radix2 442 -> small (x * value scale)) as Sm.
  { intros x X. apply (small_of_bpow _ 643); [lia|]. rewrite Rabs_mult, (Rabs_pos_eq (value scale)) by lra. apply Rle_trans with (2 * bpow radix2 442 * value scale).
    - apply Rmult_le_compat_r; lra.
    - change 2 with (bpow radix2 1). rewrite <- bpow_plus. apply scale_bpow. exact Vs. }
  rewrite (proj2 (mul_val _ _ N1 Ns (Sm _ S1))), (proj2 (mul_val _ _ N2 Ns (Sm _ S2))).
  split; [apply rnd_nonneg, Rmult_le_pos; lra|apply rnd_le, Rmult_le_compat_r; lra].
Qed.

(** a case *)
Definition zi (z : Z) : f64 := f_of_Z z.
Definition ex_ray (l : Z) (o : Z) (v : fvec) : ray64 := Ray64 v (zi o) (zi l).
Definition ex_x : fvec := (zi 1, zi 0, zi 0).
Definition ex_d : fvec := (S754_finite false 5404319552844595 (-53), S754_finite false 7205759403792794 (-53), zi 0).
Definition ex_tree (l : Z) : additions ray64 := Plus (Plus (Term (ex_ray l 2 ex_x)) Nothing) (Term (ex_ray 5 3 ex_d)).
Definition ex_set : mset := MS (VM (vector_of ex_x) 180 1 (1, 1) (0, 0) (1, 1) 6 1 (vm_rmtx (mk_view vzero 180))) true 6
  (map ray_of (rev (terms (ex_tree 4)))) (value (zi 179)) 0 0 false [] 1.
Lemma zi_moderate z : (0 <= z <= 2 ^ 50)%Z -> moderate (zi z).
Proof.
  intros Z. destruct (of_Z_val z ltac:(lia)) as [N V]. split; [exact N|]. unfold zi. rewrite V. split; [apply IZR_le; lia|].
  rewrite pow_IZR. apply IZR_le. change (2 ^ Z.of_nat 200)%Z with (2 ^ 200)%Z. lia.
Qed.
Lemma zi_cosine z : (-1 <= z <= 1)%Z -> cosine (zi z).
Proof. intros Z. destruct (of_Z_val z ltac:(lia)) as [N V]. split; [exact N|]. unfold zi. rewrite V. split; apply IZR_le; lia. Qed.
Lemma ex_cosines : cosines ex_x /\ cosines ex_d.
Proof.
  assert (cosine (zi 1) /\ cosine (zi 0)) as [Z1 Z0] by (split; apply zi_cosine; lia). split; (split; [|split]); try assumption.
  all: split; [split; [reflexivity|exact I]|]; unfold value; change (powerRZ 2 (-53)) with (/ 2 ^ 53); assert (2 ^ 53 = 9007199254740992) as -> by (cbn; lra); lra.
Qed.
Lemma ex_good l : (0 <= l <= 1000)%Z -> good_rays (terms (ex_tree l)).
Proof.
  intros L. unfold good_rays. cbn [ex_tree terms app]. destruct ex_cosines as [X D].
  apply Forall_cons; [|apply Forall_cons; [|apply Forall_nil]]; unfold ex_ray; cbn [v64 o64 l64]; (split; [assumption|split; apply zi_moderate; lia]).
Qed.
Lemma ex_same : same_set ex_set ex_x (zi 179) (terms (ex_tree 4)).
Proof. split; [reflexivity|]. split; [reflexivity|]. cbn [ex_set ms_rays]. apply Permutation_map, Permutation_sym, Permutation_rev. Qed.
Lemma ex_front l : Forall (front ex_x) (terms (ex_tree l)).
Proof.
  cbn [ex_tree terms app]. apply Forall_cons; [|apply Forall_cons; [|apply Forall_nil]]; unfold front, ex_ray; cbn [v64].
  - replace (ctheta_f64 ex_x ex_x) with (zi 1) by (vm_compute; reflexivity). unfold zi. rewrite (proj2 (of_Z_val 1 ltac:(lia))). lra.
  - replace (ctheta_f64 ex_x ex_d) with (S754_finite false 5404319552844595 (-53)) by (vm_compute; reflexivity).
    unfold value. change (powerRZ 2 (-53)) with (/ 2 ^ 53). assert (2 ^ 53 = 9007199254740992) as -> by (cbn; lra). lra.
Qed.
Lemma ex_brighter : brighter (ex_tree 4) (ex_tree 7).
Proof.
  cbn [ex_tree brighter ex_ray v64 o64 l64]. repeat split; try lra. unfold zi. rewrite (proj2 (of_Z_val 4 ltac:(lia))), (proj2 (of_Z_val 7 ltac:(lia))). lra.
Qed.
Lemma sum_sample : exists m axis scale area s t, cosines axis /\ moderate scale /\ number area /\ / 2 ^ 200 <= value area /\ ms_view_area m = value area /\
  good_rays (terms s) /\ good_rays (terms t) /\ INR (adds s) <= 2 ^ 40 /\ INR (adds t) <= 2 ^ 40 /\ same_set m axis scale (terms s) /\ brighter s t /\
  Forall (front axis) (terms s) /\ length (terms s) = 2%nat /\ 0 < all_light m.
Proof.
  exists ex_set, ex_x, (zi 179), (zi 6), (ex_tree 4), (ex_tree 7).
  assert (value (zi 6) = 6) as V6 by (apply (of_Z_val 6); lia).
  assert (2 ^ 40 = 1099511627776) as P40 by (cbn; lra).
  split; [apply ex_cosines|]. split; [apply zi_moderate; lia|]. split; [apply (of_Z_val 6); lia|]. rewrite V6.
  split. { apply Rle_trans with 1; [|lra]. rewrite <- Rinv_1. apply Rinv_le_contravar; [lra|apply pow_R1_Rle; lra]. }
  split; [reflexivity|]. split; [apply ex_good; lia|]. split; [apply ex_good; lia|]. split; [cbn [ex_tree adds]; rewrite P40; cbn; lra|]. split; [cbn [ex_tree adds]; rewrite P40; cbn; lra|].
  split; [exact ex_same|]. split; [exact ex_brighter|]. split; [apply ex_front|]. split; [reflexivity|].
  unfold all_light. cbn [ex_set ms_rays ms_scale ex_tree terms app rev map ray_of ex_ray v64 o64 l64 Rsumf fold_right r_lum r_omega].
  unfold Rsumf. cbn [map Rsum fold_right ray_of ex_ray v64 o64 l64 r_lum r_omega]. unfold zi.
  rewrite (proj2 (of_Z_val 4 ltac:(lia))), (proj2 (of_Z_val 5 ltac:(lia))), (proj2 (of_Z_val 2 ltac:(lia))), (proj2 (of_Z_val 3 ltac:(lia))), (proj2 (of_Z_val 179 ltac:(lia))). lra.
Qed.
