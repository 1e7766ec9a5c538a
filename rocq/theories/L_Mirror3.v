(** A point spread kernel of an odd number of pixels is its own mirror image. *)
From Coq Require Import Lra Lia Psatz.
From Verif Require Import Base L_Base M_Translate M_Mapper M_Io S_Mapper L_Mapper L_Io L_Initimg L_Draw M_Gss S_Gss L_Gss L_Gss9 M_Ndimage S_Ndimage S_Mirror L_Mirror L_Mirror2 L_Kernel L_Kernel2.
Local Open Scope R_scope.

Lemma combine_map {A B C} (f : A -> B) (g : A -> C) l : combine (map f l) (map g l) = map (fun x => (f x, g x)) l.
Proof. induction l as [|x l IH]; [reflexivity|]. cbn [map combine]. now rewrite IH. Qed.
Lemma grid_pos r k : (k < Z.to_nat r * Z.to_nat r)%nat -> exists i j, (i < Z.to_nat r)%nat /\ (j < Z.to_nat r)%nat /\ k = (i * Z.to_nat r + j)%nat.
Proof. apply pos_split. Qed.

Section Kernel.
Variables (age pigment pupd fw : R) (m : Z).
Hypotheses (Ha : 10 <= age <= 100) (Hg : 0 < pigment < 1) (Hp : 1.1 < pupd <= 8) (Hf : hemi_angle fw) (Hm : (0 <= m)%Z).
Notation w := (2 * m + 1)%Z.
Notation coef := (psf_coef age pigment pupd).
Notation vk := (mk_view (V3 0 1 0) fw).
Definition kf (p : Z * Z) : R :=
  let v := pixel2ray vk w (IZR (fst p) + 1 / 2, IZR (snd p) + 1 / 2) in
  (if in_view vk 0 v then spread f_b coef (vm_radians vk v) else 0) * pixel2omega vk w (IZR (fst p) + 1 / 2, IZR (snd p) + 1 / 2).
Lemma raw_eq ppa : Rceil (fw * 60 * ppa) = w -> kernel_raw fw ppa coef = map kf (zgrid w w).
Proof.
  intros E. unfold kernel_raw. rewrite E. rewrite rays_eq by exact Hf. unfold pixel_omegas. rewrite combine_map, map_map. reflexivity.
Qed.
Lemma kf_mirror i j : (0 <= i < w)%Z -> (0 <= j < w)%Z -> kf (w - 1 - i, j)%Z = kf (i, j).
Proof.
  intros Hi Hj. unfold kf. cbn [fst snd]. cbv zeta. unfold in_view, vm_radians. pose proof (ray_dot (V3 0 1 0) fw w i j (proj1 regular_y) ltac:(lia)) as D. cbv zeta in D. rewrite D. f_equal.
  rewrite (minus_IZR (w - 1)), (minus_IZR w). replace (IZR w - 1 - IZR i + 1 / 2) with (IZR w - (IZR i + 1 / 2)) by field. apply omega_mirror. lia.
Qed.
Lemma kf_mid : kf (m, m) = spread f_b coef 0 * step2 (vscl (V3 0 1 0) fw) w.
Proof.
  assert (IZR w = 2 * IZR m + 1) as W by (rewrite plus_IZR, mult_IZR; reflexivity). assert (0 <= IZR m) as M0 by (apply (IZR_le 0); lia).
  unfold kf. cbn [fst snd]. cbv zeta. replace (IZR m + 1 / 2) with (IZR w / 2) by lra. rewrite px_omega_mid by (exact Hf || lia). f_equal.
  destruct (px_radians (V3 0 1 0) fw w (IZR w / 2) (IZR w / 2) (proj1 regular_y) Hf ltac:(lia) ltac:(lra) ltac:(lra)) as [E _].
  assert (Z : pd (at_px (vscl (V3 0 1 0) fw) w (IZR w / 2) (IZR w / 2)) = 0).
  { unfold at_px, pd. cbn [fst snd]. replace (IZR w / 2 / IZR w - 1 / 2) with 0 by (field; lra). transitivity (sqrt 0); [f_equal; unfold square; ring|apply sqrt_0]. }
  rewrite Z, Rmult_0_r in E. replace (in_view vk 0 _) with true; [now rewrite E|]. symmetry. unfold in_view. apply Rltb_true. rewrite E.
  pose proof (vscl_range (V3 0 1 0) fw Hf) as S. unfold vscl in S. pose proof PI_RGT_0. set (t := vm_viewangle vk * vm_chordfactor vk / 180) in S.
  replace (vm_chordfactor vk * vm_viewangle vk * PI / 360) with (PI * (t / 2)) by (unfold t; field). nra.
Qed.
Lemma kf_less i j : (0 <= i < w)%Z -> (0 <= j < w)%Z -> (i, j) <> (m, m) -> kf (i, j) < kf (m, m).
Proof.
  intros Hi Hj N. assert (1 <= m)%Z as M1. { destruct (Z.eq_dec m 0) as [->|]; [|lia]. exfalso. apply N. f_equal; lia. }
  assert (IZR w = 2 * IZR m + 1) as W by (rewrite plus_IZR, mult_IZR; reflexivity). assert (1 <= IZR m) as M0 by (apply (IZR_le 1); lia).
  rewrite kf_mid. pose proof (vscl_range (V3 0 1 0) fw Hf) as S. pose proof (step2_pos _ w S ltac:(lia)) as O.
  assert (P : forall y, 0 < spread f_b coef y) by (intros y; apply psf_positive; lra).
  unfold kf. cbn [fst snd]. cbv zeta.
  assert (U : forall k, (0 <= k < w)%Z -> 0 <= IZR k + 1 / 2 <= IZR w).
  { intros k [K1 K2]. assert (IZR k + 1 <= IZR w) by (rewrite <- plus_IZR; apply IZR_le; lia). apply IZR_le in K1. lra. }
  assert (U' : forall k, (0 <= k < w)%Z -> 1 / 2 <= IZR k + 1 / 2 <= IZR w - 1 / 2).
  { intros k [K1 K2]. assert (IZR k + 1 <= IZR w) by (rewrite <- plus_IZR; apply IZR_le; lia). apply IZR_le in K1. lra. }
  destruct (in_view _ _ _) eqn:V.
  2:{ rewrite Rmult_0_l. apply Rmult_lt_0_compat; auto. }
  apply px_in_view in V; [|exact (proj1 regular_y)|exact Hf|lia|now apply U|now apply U].
  destruct (px_radians (V3 0 1 0) fw w (IZR i + 1 / 2) (IZR j + 1 / 2) (proj1 regular_y) Hf ltac:(lia) (U i Hi) (U j Hj)) as [E _]. rewrite E.
  pose proof (px_omega_le (V3 0 1 0) fw w (IZR i + 1 / 2) (IZR j + 1 / 2) Hf ltac:(lia) (U' i Hi) (U' j Hj)) as L.
  set (q := pd _) in *. assert (0 <= q) as Q by apply pd_nonneg. assert (q <> 0) as Q0.
  { intros Z. apply pd_zero in Z as [Zx Zy]. unfold at_px in Zx, Zy. cbn [fst snd] in Zx, Zy. apply N.
    assert (X : forall k : Z, (IZR k + 1 / 2) / IZR w - 1 / 2 = 0 -> k = m).
    { intros k Z. assert (IZR k + 1 / 2 = IZR w / 2) as Z'. { apply (Rmult_eq_reg_r (/ IZR w)); [|apply Rinv_neq_0_compat; lra]. replace (IZR w / 2 * / IZR w) with (1 / 2) by (field; lra). unfold Rdiv in *. lra. }
      apply eq_IZR. lra. }
    f_equal; apply X; [apply Rmult_integral in Zx as [Zx|Zx]; lra|apply Rmult_integral in Zy as [Zy|Zy]; lra]. }
  pose proof PI_RGT_0. pose proof (spread_less age pigment pupd (PI * q) Ha Hg Hp ltac:(nra)) as D. pose proof (P (PI * q)). pose proof (P 0).
  apply Rle_lt_trans with (spread f_b coef (PI * q) * step2 (vscl (V3 0 1 0) fw) w); [apply Rmult_le_compat_l; lra|apply Rmult_lt_compat_r; lra].
Qed.
Lemma raw_peak : np_argmax (map kf (zgrid w w)) = Ok (Z.to_nat m * Z.to_nat w + Z.to_nat m)%nat.
Proof.
  apply argmax_spec with (kf (m, m)).
  - rewrite grid_at by lia. now rewrite Z2Nat.id by lia.
  - intros k x K E. assert (k < Z.to_nat w * Z.to_nat w)%nat as L. { rewrite <- (grid_length kf w). apply nth_error_Some. congruence. }
    destruct (grid_pos w k L) as (i & j & Hi & Hj & ->). rewrite grid_at in E by lia. injection E as <-. apply kf_less; try lia. intros C. injection C as C1 C2. apply K. nia.
Qed.
Lemma fixed_mirror ppa cap k : Rceil (fw * 60 * ppa) = w -> kernel_fix cap (kernel_raw fw ppa coef) = Ok k -> mirror_of (Z.to_nat w) k k.
Proof.
  intros E. rewrite raw_eq by exact E. unfold kernel_fix. rewrite raw_peak. cbn [bind]. cbv zeta. intros X. assert (Inj : forall A (a b : A), Ok a = Ok b -> a = b) by (intros ? ? ? Q; now injection Q). apply Inj in X. subst k. set (x := cap - _). clearbody x.
  set (c := (Z.to_nat m * Z.to_nat w + Z.to_nat m)%nat). pose proof (mirror_grid kf w kf_mirror) as (L & _ & M). repeat split; rewrite ?set_nth_length; try exact L.
  intros i j Hi Hj. rewrite !nth_error_set_nth. rewrite M by assumption.
  replace ((Z.to_nat w - 1 - i) * Z.to_nat w + j =? c)%nat with (i * Z.to_nat w + j =? c)%nat; [reflexivity|].
  unfold c. destruct (Nat.eqb_spec (i * Z.to_nat w + j) (Z.to_nat m * Z.to_nat w + Z.to_nat m)) as [Q|Q], (Nat.eqb_spec ((Z.to_nat w - 1 - i) * Z.to_nat w + j) (Z.to_nat m * Z.to_nat w + Z.to_nat m)) as [Q'|Q']; auto; exfalso.
  - apply Q'. assert (i = Z.to_nat m) by nia. subst i. replace (Z.to_nat w - 1 - Z.to_nat m)%nat with (Z.to_nat m) by lia. exact Q.
  - apply Q. assert (Z.to_nat w - 1 - i = Z.to_nat m)%nat as Q2 by nia. assert (i = Z.to_nat m) by lia. subst i. rewrite Q2 in Q'. exact Q'.
Qed.
End Kernel.

Lemma odd_kernel_mirrors par ppa : 10 <= g_age par <= 100 -> 0 < g_pigment par < 1 -> hemi_angle (g_fwidth par) -> 0 < ppa -> Z.odd (Rceil (g_fwidth par * 60 * ppa)) = true -> kernel_mirrors par ppa.
Proof.
  intros Ha Hg Hf Hp O ev pupa pupd Pu cap k. cbv zeta. intros _ K.
  assert (0 <= ev) as Ev. { unfold pupil in Pu. destruct (Rltb ev 0) eqn:L; [discriminate|]. apply Rltb_false in L. lra. }
  destruct (pupil_spec (g_age par) ev Ha Ev) as (p & P & R). rewrite P in Pu. injection Pu as _ <-.
  assert (0 < g_fwidth par * 60 * ppa) as W by (destruct Hf; apply Rmult_lt_0_compat; lra).
  assert (0 < Rceil (g_fwidth par * 60 * ppa))%Z as W'.
  { unfold Rceil. pose proof (Rfloor_spec (- (g_fwidth par * 60 * ppa))) as F. assert (IZR (Rfloor (- (g_fwidth par * 60 * ppa))) < 0) as N by lra. apply (lt_IZR _ 0) in N. lia. }
  apply Z.odd_spec in O as [m E]. exists (Z.to_nat (2 * m + 1)). split.
  - apply Nat.odd_spec. exists (Z.to_nat m). lia.
  - apply (fixed_mirror (g_age par) (g_pigment par) p (g_fwidth par) m Ha Hg R Hf ltac:(lia) ppa cap); assumption.
Qed.
Lemma mirror_score d va par i i' illum : regular_dir d -> hemi_angle va -> (0 < gi_nx i)%Z -> gi_ny i = gi_nx i ->
  (g_psf par = true -> 10 <= g_age par <= 100 /\ 0 < g_pigment par < 1 /\ hemi_angle (g_fwidth par) /\ Z.odd (window_of (g_fwidth par) va (gi_nx i)) = true) -> mirror_img i i' ->
  process_gss scipy_filters par (gss_new (mk_view d va)) i' illum = process_gss scipy_filters par (gss_new (mk_view d va)) i illum.
Proof.
  intros G H Hr Hy K M. apply (mirror_process d va (gi_nx i)); auto. intros P. destruct (K P) as (K1 & K2 & K3 & K4). destruct H as [H0 H1].
  assert (0 < IZR (gi_nx i)) by now apply (IZR_lt 0). apply odd_kernel_mirrors; auto.
  - apply Rdiv_lt_0_compat; lra.
  - replace (g_fwidth par * 60 * (IZR (gi_nx i) / (60 * va))) with (g_fwidth par * IZR (gi_nx i) / va) by (field; lra). exact K4.
Qed.
