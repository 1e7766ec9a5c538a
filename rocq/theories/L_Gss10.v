From Coq Require Import Lra Lia Psatz.
From Verif Require Import Base L_Base L_Trig M_Translate S_Translate L_Angles M_Mapper S_Mapper L_Mapper L_Draw M_Io L_Io M_Gss S_Gss L_Gss L_Gss2 L_Gss3 L_Gss4 L_Gss5 L_Gss6 L_Gss8 L_Gss9.
Local Open Scope R_scope.

(** a window of less than 0.004 degrees has no step *)
Lemma capture_narrow fwidth coef : 0 <= fwidth < 0.004 -> capture fwidth coef = Raise IndexError.
Proof.
  intros H. unfold capture. assert (Rfloor (fwidth / 0.002 / 2) = 0%Z) as ->; [|reflexivity].
  apply Rfloor_unique. lra.
Qed.
Lemma process_narrow fl par vm i illum : vm_aspect vm = 1%Z -> square_img i ->
  0 <= g_scale par -> Forall (fun x => 0 <= x) (gi_px i) -> snd (set_lum (g_scale par) (gss_new vm) i) = None ->
  10 <= g_age par <= 100 -> 0 < illum_of par vm i illum -> g_psf par = true -> 0 <= g_fwidth par < 0.004 ->
  process_gss fl par (gss_new vm) i illum = Raise IndexError.
Proof.
  intros A Hi Hs Hx Hok Ha He Hp Hw. 
  destruct (accepted _ vm i A Hi Hok) as (e & E & Re & _). unfold process_gss. rewrite E. unfold compute. cbn [loaded gs_lum gs_omega gs_mask gs_ctheta gs_pparcmin gs_sigma gs_ecc].
  fold (masked_omega vm (gi_nx i)).
  assert (match illum with Some x => x | None => eye_illuminance (map (in_view vm 0) (pixelrays vm (gi_nx i))) (map (cos_theta vm) (pixelrays vm (gi_nx i))) (gi_px (scaled (g_scale par) i)) (masked_omega vm (gi_nx i)) end = illum_of par vm i illum) as ->.
  { unfold illum_of. destruct illum; [reflexivity|]. apply eye_illuminance_eq; auto. now apply scaled_square. }
  set (ev := illum_of par vm i illum) in *. clearbody ev. cbv zeta.
  destruct (pupil_spec (g_age par) ev Ha ltac:(lra)) as (pd & -> & Bp). cbn [bind].
  unfold glare_response. rewrite Hp. unfold apply_psf. rewrite capture_narrow by exact Hw. reflexivity.
Qed.
Lemma narrow_sample :
  let par := GPar 20 17 179 0.106 0.003 true true true false in let vm := mk_view (V3 0 1 0) 180 in let i := GImg 1 1 [1000] in
  vm_aspect vm = 1%Z /\ square_img i /\ 0 <= g_scale par /\ Forall (fun x => 0 <= x) (gi_px i) /\
  snd (set_lum (g_scale par) (gss_new vm) i) = None /\ 10 <= g_age par <= 100 /\
  0 < seen_illuminance vm (GImg 1 1 [1000 * 179]) /\ g_psf par = true /\ 0 <= g_fwidth par < 0.004.
Proof.
  pose proof hemi_180 as H. cbv zeta. cbn [g_scale g_f g_age g_psf g_fwidth]. split; [now apply mk_view_hemi_aspect|].
  split; [repeat split|]. split; [lra|]. split; [repeat constructor; lra|].
  split; [apply (dot_accepted (V3 0 1 0) 180 1000 179); [apply regular_y|exact H|lra]|]. split; [lra|].
  split; [apply (dot_illum (V3 0 1 0) 180 (1000 * 179)); [apply regular_y|exact H|lra]|]. split; [reflexivity|lra].
Qed.
