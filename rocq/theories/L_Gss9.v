(** Lemmas in the form of the statements. *)
From Coq Require Import Lra Lia Psatz.
From Verif Require Import Base L_Base L_Trig M_Translate S_Translate L_Angles M_Mapper S_Mapper L_Mapper L_Draw M_Io L_Io M_Gss S_Gss.
From Verif Require Import L_Gss L_Gss2 L_Gss3 L_Gss4 L_Gss5 L_Gss6 L_Gss7 L_Gss8.
Local Open Scope R_scope.

Lemma half_sat_form e_a : 0 < e_a -> half_saturation e_a = Rpower (Rpower 5.701055 (1 / 2.55) + Rpower e_a (1 / 2.55)) 2.55.
Proof.
  intros H. unfold half_saturation. destruct (pow0_pos e_a (1 / 2.55) H) as [-> _]. apply pow0_pos.
  assert (0 < Rpower 5.701055 (1 / 2.55)) by apply exp_pos. assert (0 < Rpower e_a (1 / 2.55)) by apply exp_pos. lra.
Qed.
Lemma bins_once e : 0 <= e < 1 ->
  exists pre b post, combine steps (combine lbounds ubounds) = pre ++ b :: post /\
    fst (snd b) <= e < snd (snd b) /\ nearest_in steps e (fst b) /\
    Forall (fun b' => ~ (fst (snd b') <= e < snd (snd b'))) (pre ++ post).
Proof.
  intros H. destruct (code_bins_find e H) as (pre & b & post & E & I & P1 & P2 & N). exists pre, b, post.
  split; [exact E|]. split; [now apply inc_true|]. split; [exact N|]. apply Forall_app.
  split; (eapply Forall_impl; [|eassumption]); intros b' Hb'; now apply inc_false.
Qed.
Lemma widths_ends : length steps = 31%nat /\ nth 0 steps 0 = emin /\ last steps 0 = emax /\ forall s, In s steps -> emin <= s <= emax.
Proof.
  destruct steps_last as [L N]. destruct steps_cons as [l E]. split; [exact N|]. split; [now rewrite E|]. split; [exact L|exact steps_range].
Qed.
Lemma stale_vm scale vm vm' i i' : vm_aspect vm = 1%Z -> square_img i -> square_img i' -> gi_nx i' = gi_nx i ->
  gs_vm (grun scale (gss_new vm) [SetImage i; SetView vm'; SetImage i']) = vm'.
Proof.
  intros A Hi Hi' E. unfold grun. cbn [fold_left gstep]. destruct (set_lum_reach scale vm (gss_new vm) i A (or_introl eq_refl) Hi) as [e ->].
  unfold set_lum. cbn [gi_nx]. fold (scaled scale i').
  assert (gs_res (with_lum (set_vm (loaded vm (gi_nx i) (scaled scale i) e) vm') (scaled scale i')) = gi_nx i) as -> by reflexivity.
  rewrite E, Z.eqb_refl.
  destruct (set_ecc_keeps (with_lum (set_vm (loaded vm (gi_nx i) (scaled scale i) e) vm') (scaled scale i')) (scaled scale i')) as [->|[e' ->]]; reflexivity.
Qed.
Lemma black_after scale d va l n : regular_dir d -> hemi_angle va -> l * scale <> 0 ->
  let vm := mk_view d va in
  let st := grun scale (gss_new vm) [SetImage (GImg 1 1 [l])] in
  let black := GImg 1 1 [0] in
  n = norm d ->
  gs_ecc st = Some (sigma_of vm n) /\ snd (set_lum scale st black) = Some ZeroDivisionError /\
  gs_ecc (fst (set_lum scale st black)) = Some (sigma_of vm n) /\ gs_lum (fst (set_lum scale st black)) = Some (GImg 1 1 [0 * scale]).
Proof.
  intros G H Hl vm st black ->. pose proof (mk_view_hemi_aspect d va H) as A. fold vm in A.
  assert (gs_ecc st = Some (sigma_of vm (norm d))) as E.
  { unfold st, grun. cbn [fold_left gstep]. destruct (accepted scale vm (dot_img l) A (dot_square l) (dot_accepted d va l scale G H Hl)) as (e & Es & _ & Ee).
    unfold dot_img in Es. rewrite Es. cbn [fst loaded gs_ecc]. f_equal. rewrite Ee. cbv zeta. cbn [dot_img gi_nx].
    unfold masked_omega, weights. unfold vm. rewrite one_ray by assumption. destruct (one_omega d va H) as (w & Hw & ->).
    unfold Rsumf. cbn [scaled dot_img gi_px combine map Rsum fold_right fst snd]. rewrite one_in_view by assumption.
    assert (0 < (l * scale) ^ 4) as P. { replace ((l * scale) ^ 4) with (((l * scale) * (l * scale)) * ((l * scale) * (l * scale))) by ring. assert (0 < (l * scale) * (l * scale)) by nra. now apply Rmult_lt_0_compat. }
    set (q := (l * scale) ^ 4) in *. clearbody q. field. split; apply Rgt_not_eq; lra. }
  split; [exact E|].
  assert (reachable vm st) as R by (apply grun_reach; [exact A|now left|repeat constructor; cbn; lia]).
  rewrite (black_image scale vm st black A R ltac:(apply dot_square) ltac:(repeat constructor)). cbn [fst snd loaded gs_ecc gs_lum]. rewrite E. repeat split.
Qed.
Lemma psf_one b c : 0 < b ->
  exists pr : Riemann_integrable (fun phi => f_b b c phi * (2 * PI * sin phi)) 0 (PI / 2), RiemannInt pr = c.
Proof.
  intros Hb. destruct (psf_integral [(b, c)] ltac:(repeat constructor; exact Hb)) as [pr E].
  assert (forall phi, Rsumf (fun bc => f_b (fst bc) (snd bc) phi) [(b, c)] * (2 * PI * sin phi) = f_b b c phi * (2 * PI * sin phi)) as X.
  { intros phi. unfold Rsumf. cbn [map Rsum fold_right fst snd]. ring. }
  pose proof PI_RGT_0 as P. assert (0 <= PI / 2) as P2 by lra.
  assert (continuity (fun phi => f_b b c phi * (2 * PI * sin phi))) as C.
  { apply (continuity_mult (f_b b c) (fun phi => 2 * PI * sin phi)); [now apply f_b_cont|]. apply (continuity_scal sin), continuity_sin. }
  pose proof (continuity_implies_RiemannInt P2 (fun x _ => C x)) as pr'. exists pr'.
  transitivity (RiemannInt pr); [apply RiemannInt_P18; [exact P2|intros; now rewrite X]|].
  rewrite E. cbn [map Rsum fold_right snd]. ring.
Qed.
Lemma psf_positive age pigment pupd phi : 0 <= age <= 100 -> 0 < pigment < 1 -> 1 / 4 <= pupd ->
  0 < spread f_b (psf_coef age pigment pupd) phi /\ 0 < spread l_b (psf_coef age pigment pupd) phi.
Proof.
  intros Ha Hp Hd. pose proof (bs_spec age pigment pupd Ha Hp Hd) as B. destruct (cs_spec age pigment pupd Hp ltac:(lra)) as (C & _ & L).
  assert (length (fst (psf_coef age pigment pupd)) = 4%nat) as L1 by reflexivity.
  unfold spread. revert B C L L1. generalize (fst (psf_coef age pigment pupd)) (snd (psf_coef age pigment pupd)). clear. intros bs cs B C L L1.
  destruct bs as [|b1 [|b2 [|b3 [|b4 [|]]]]]; try discriminate. destruct cs as [|c1 [|c2 [|c3 [|c4 [|]]]]]; try discriminate.
  repeat match goal with H : Forall _ (_ :: _) |- _ => inversion H; clear H; subst end.
  unfold Rsumf. cbn [combine map Rsum fold_right fst snd]. split.
  - pose proof (f_b_pos b1 c1 phi). pose proof (f_b_pos b2 c2 phi). pose proof (f_b_pos b3 c3 phi). pose proof (f_b_pos b4 c4 phi). lra.
  - pose proof (l_b_pos b1 c1 phi). pose proof (l_b_pos b2 c2 phi). pose proof (l_b_pos b3 c3 phi). pose proof (l_b_pos b4 c4 phi). lra.
Qed.
Lemma uniform_same fl fl' par par' vm i l ev : filters_ok fl -> filters_ok fl' -> vm_aspect vm = 1%Z -> square_img i ->
  gi_px i = map (fun _ => l) (gi_px i) -> 0 < vm_viewangle vm ->
  0 < l * g_scale par -> seen_omega vm (gi_nx i) <> 0 -> g_f par <> 0 -> 10 <= g_age par <= 100 -> 0 < ev ->
  hemi_angle (g_fwidth par) -> 0.004 <= g_fwidth par -> hemi_angle (g_fwidth par') -> 0.004 <= g_fwidth par' ->
  g_age par' = g_age par -> g_f par' = g_f par -> g_scale par' = g_scale par -> g_raw par' = g_raw par ->
  process_gss fl par (gss_new vm) i (Some ev) = process_gss fl' par' (gss_new vm) i (Some ev) /\
  exists s, process_gss fl par (gss_new vm) i (Some ev) = Ok s.
Proof.
  intros F F' A Hi U V Hl Ho Hf Ha He W1 W2 W1' W2' Ea Ef Es Er.
  destruct (pupil_spec (g_age par) ev Ha ltac:(lra)) as (pd & Ep & Bp).
  assert (0 < PI * square (pd / 2)) as PA by (apply Rmult_lt_0_compat; [apply PI_RGT_0|unfold square; nra]).
  set (pupa := PI * square (pd / 2)) in *. clearbody pupa.
  assert (0 < square (g_f par)) as Sf by (unfold square; nra).
  set (e_r := retinal_irradiance (g_f par) (l * g_scale par) pupa). set (e_g := retinal_irradiance (g_f par) (ev / PI) pupa).
  assert (0 < e_r) as Her by (unfold e_r, retinal_irradiance; apply Rmult_lt_0_compat; [apply Rdiv_lt_0_compat; assumption|exact Hl]).
  destruct (cone_ok e_r (local_eye_adaptation e_r e_g) ltac:(lra) (adapt_nonneg _ _)) as (v & Ev & _).
  rewrite (process_uniform fl par vm i l ev pupa pd v) by auto.
  rewrite (process_uniform fl' par' vm i l ev pupa pd v); auto; try congruence; try (rewrite ?Es, ?Ef, ?Ea; assumption).
  rewrite Er. split; [reflexivity|]. eexists. reflexivity.
Qed.
Lemma c72_sample :
  vm_aspect (mk_view (V3 0 1 0) 180) = 1%Z /\ square_img (GImg 1 1 [1000]) /\
  Forall square_op ([SetImage (GImg 2 2 [1; 2; 3; 4])] ++ [SetImage (GImg 1 1 [1000])]) /\
  snd (set_lum 179 (gss_new (mk_view (V3 0 1 0) 180)) (GImg 1 1 [1000])) = None /\
  vm_viewangle (mk_view (V3 0 1 0) 180) = 180 /\ vm_viewangle (mk_view (V3 0 1 0) 90) = 90 /\ vm_aspect (mk_view (V3 0 1 0) 360) = 2%Z.
Proof.
  pose proof hemi_180 as H. assert (hemi_angle 90) as H9 by (unfold hemi_angle; lra). split; [now apply mk_view_hemi_aspect|].
  split; [repeat split|]. split; [repeat constructor|]. split; [apply (dot_accepted (V3 0 1 0) 180 1000 179); [apply regular_y|exact H|lra]|].
  split; [now apply mk_view_hemi_va|]. split; [now apply mk_view_hemi_va|]. apply mk_view_360.
Qed.
Lemma c98_sample :
  let par := GPar 20 17 179 0.106 10 false true true false in let vm := mk_view (V3 0 1 0) 180 in let i := GImg 1 1 [1000] in
  filters_ok trivial_filters /\ vm_aspect vm = 1%Z /\ square_img i /\ 0 <= g_scale par /\ Forall (fun x => 0 <= x) (gi_px i) /\
  snd (set_lum (g_scale par) (gss_new vm) i) = None /\ g_f par <> 0 /\ 10 <= g_age par <= 100 /\
  0 < seen_illuminance vm (GImg 1 1 [1000 * 179]) /\ (g_psf par = true -> forall pupd, 1.1 < pupd <= 8 -> psf_ok par (IZR 1 / (60 * vm_viewangle vm)) pupd).
Proof.
  pose proof hemi_180 as H. cbv zeta. cbn [g_scale g_f g_age g_psf]. split; [exact trivial_ok|]. split; [now apply mk_view_hemi_aspect|].
  split; [repeat split|]. split; [lra|]. split; [repeat constructor; lra|].
  split; [apply (dot_accepted (V3 0 1 0) 180 1000 179); [apply regular_y|exact H|lra]|]. split; [lra|]. split; [lra|].
  split; [apply (dot_illum (V3 0 1 0) 180 (1000 * 179)); [apply regular_y|exact H|lra]|discriminate].
Qed.
Lemma c99_sample :
  let par := GPar 20 17 179 0.106 10 true true true false in let par' := GPar 20 17 179 0.5 4 false false true false in
  let vm := mk_view (V3 0 1 0) 180 in let i := GImg 1 1 [1000] in
  filters_ok trivial_filters /\ vm_aspect vm = 1%Z /\ square_img i /\ gi_px i = map (fun _ => 1000) (gi_px i) /\ 0 < vm_viewangle vm /\
  0 < 1000 * g_scale par /\ seen_omega vm (gi_nx i) <> 0 /\ g_f par <> 0 /\ 10 <= g_age par <= 100 /\
  hemi_angle (g_fwidth par) /\ 0.004 <= g_fwidth par /\ hemi_angle (g_fwidth par') /\ 0.004 <= g_fwidth par'.
Proof.
  pose proof hemi_180 as H. cbv zeta. cbn [g_scale g_f g_age g_psf g_fwidth gi_px gi_nx]. split; [exact trivial_ok|]. split; [now apply mk_view_hemi_aspect|].
  split; [repeat split|]. split; [reflexivity|]. split; [rewrite mk_view_hemi_va by exact H; lra|]. split; [lra|].
  split; [apply Rgt_not_eq, dot_seen; [apply regular_y|exact H]|]. unfold hemi_angle. lra.
Qed.
