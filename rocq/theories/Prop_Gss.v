(** Properties C68-C74 and C96-C100: the glare sensation score. *)
From Coq Require Import Lra Lia.
From Verif Require Import Base L_Base M_Translate M_Mapper S_Mapper L_Mapper L_Draw M_Io M_Gss S_Gss.
From Verif Require Import L_Gss L_Gss2 L_Gss3 L_Gss4 L_Gss5 L_Gss6 L_Gss7 L_Pupil L_Pupil4 L_Gss8 L_Gss9 L_Gss10 L_Gss11.
Local Open Scope R_scope.

(** C68: four positive weights that sum to one *)
Theorem C68_weights age pigment pupd : 0 < pigment < 1 -> 0 < pupd ->
  Forall (fun c => 0 < c) (snd (psf_coef age pigment pupd)) /\ Rsum (snd (psf_coef age pigment pupd)) = 1 /\
  length (snd (psf_coef age pigment pupd)) = 4%nat.
Proof. exact (cs_spec age pigment pupd). Qed.
Print Assumptions C68_weights.
(** C68: the widths that go with them are positive up to the age of 100 and for pupils the eye has *)
Theorem C68_widths age pigment pupd : 0 <= age <= 100 -> 0 < pigment < 1 -> 1 / 4 <= pupd ->
  Forall (fun b => 0 < b) (fst (psf_coef age pigment pupd)).
Proof. exact (bs_spec age pigment pupd). Qed.
Print Assumptions C68_widths.
Example C68_example : 0 <= 20 <= 100 /\ 0 < 0.106 < 1 /\ 1 / 4 <= 3.2.
Proof. lra. Qed.

(** C69: the cone response is in [0, 1), 0 only without light *)
Theorem C69_range e_r e_a : 0 <= e_r -> 0 <= e_a ->
  exists v, cone_response e_r e_a = Ok v /\ 0 <= v < 1 /\ (v = 0 <-> e_r = 0).
Proof. exact (cone_ok e_r e_a). Qed.
Print Assumptions C69_range.
Theorem C69_irradiance r1 r2 e_a v1 v2 : 0 <= e_a -> r1 < r2 ->
  cone_response r1 e_a = Ok v1 -> cone_response r2 e_a = Ok v2 -> v1 < v2.
Proof. exact (cone_incr r1 r2 e_a v1 v2). Qed.
Print Assumptions C69_irradiance.
Theorem C69_adaptation e_r a1 a2 v1 v2 : 0 < e_r -> 0 <= a1 < a2 ->
  cone_response e_r a1 = Ok v1 -> cone_response e_r a2 = Ok v2 -> v2 < v1.
Proof. exact (cone_decr e_r a1 a2 v1 v2). Qed.
Print Assumptions C69_adaptation.
(** C69: one half at the half saturation (5.701055^(1/2.55) + e_a^(1/2.55))^2.55, which is 5.701055 in the dark and grows
    with adaptation *)
Theorem C69_half e_a : 0 <= e_a ->
  cone_response (half_saturation e_a) e_a = Ok (1 / 2) /\ half_saturation 0 = 5.701055 /\
  (0 < e_a -> half_saturation e_a = Rpower (Rpower 5.701055 (1 / 2.55) + Rpower e_a (1 / 2.55)) 2.55) /\
  forall b, e_a < b -> half_saturation e_a < half_saturation b.
Proof. exact (fun H => conj (cone_half e_a H) (conj half_sat_0 (conj (half_sat_form e_a) (fun b Hb => half_sat_incr e_a b (conj H Hb))))). Qed.
Print Assumptions C69_half.
Example C69_example : 0 <= 1 /\ 0 <= 2 /\ exists v1 v2, cone_response 1 2 = Ok v1 /\ cone_response 3 2 = Ok v2.
Proof.
  exact (conj Rle_0_1 (conj (Rlt_le 0 2 Rlt_0_2) (match cone_ok 1 2 ltac:(lra) ltac:(lra), cone_ok 3 2 ltac:(lra) ltac:(lra) with
    | ex_intro _ v1 (conj H1 _), ex_intro _ v2 (conj H2 _) => ex_intro _ v1 (ex_intro _ v2 (conj H1 H2)) end))).
Qed.

(** C70: both responses are in (0, 1) within the view, their sum is below 1, and both are 0 outside; the on
    response grows and the off response falls *)
Theorem C70_responses r :
  let p := normalized_field_response true r in
  0 < fst p < 1 /\ 0 < snd p < 1 /\ fst p + snd p < 1 /\ normalized_field_response false r = (0, 0) /\
  forall r', r < r' -> fst p < fst (normalized_field_response true r') /\ snd (normalized_field_response true r') < snd p.
Proof. exact (let '(conj a (conj b c)) := response_in r in conj a (conj b (conj c (conj (response_out r) (fun r' => response_mono r r'))))). Qed.
Print Assumptions C70_responses.
(** C70: the score before weighting is >= 0, at most the fourth root of the solid angle, and monotone in each response *)
Theorem C70_score r_g omega : Forall (fun w => 0 <= w) omega -> 
  Forall (fun p => 0 <= fst p /\ 0 <= snd p /\ fst p + snd p <= 1) r_g ->
  0 <= gss_raw r_g omega <= pow0 (Rsum omega) (1 / 4) /\
  forall r_g', Forall2 (fun p q => 0 <= fst p <= fst q /\ 0 <= snd p <= snd q) r_g r_g' -> gss_raw r_g omega <= gss_raw r_g' omega.
Proof. exact (fun Hw Hr => conj (conj (gss_raw_nonneg r_g omega) (gss_raw_le r_g omega Hw Hr)) (fun r_g' => gss_raw_mono r_g r_g' omega Hw)). Qed.
Print Assumptions C70_score.
(** C70: the weight of every eccentricity is between 9.8 and 33.5 *)
Theorem C70_weight ecc : 0.009 <= ecc <= 0.12 -> 9.8 <= weight ecc <= 33.5.
Proof. exact (weight_range ecc). Qed.
Print Assumptions C70_weight.
Example C70_example : Forall (fun w => 0 <= w) [0.5; 1] /\
  Forall (fun p => 0 <= fst p /\ 0 <= snd p /\ fst p + snd p <= 1) [(0.5, 0.25); (0, 0)] /\ 0.009 <= 0.05 <= 0.12.
Proof. repeat split; repeat apply Forall_cons; try apply Forall_nil; cbn [fst snd]; lra. Qed.

(** C71: every pixel gets the response of one width, the one closest to its eccentricity *)
Theorem C71_bins gauss pparcmin sigma vvm : (forall w, length (gauss w vvm) = length vvm) -> length sigma = length vvm ->
  length (field_response gauss pparcmin sigma vvm) = length vvm /\
  forall k, (k < length vvm)%nat -> 0 <= nth k sigma 0 < 1 ->
    exists w, nearest_in steps (nth k sigma 0) w /\
      nth k (field_response gauss pparcmin sigma vvm) 0 =
      nth k (gauss (w * pparcmin * 60) vvm) 0 - 0.67 * nth k (gauss (w * pparcmin * 60 * 3.5) vvm) 0.
Proof. exact (field_response_spec gauss pparcmin sigma vvm). Qed.
Print Assumptions C71_bins.
(** C71: exactly one of the 31 intervals contains an eccentricity *)
Theorem C71_once e : 0 <= e < 1 ->
  exists pre b post, combine steps (combine lbounds ubounds) = pre ++ b :: post /\
    fst (snd b) <= e < snd (snd b) /\ nearest_in steps e (fst b) /\
    Forall (fun b' => ~ (fst (snd b') <= e < snd (snd b'))) (pre ++ post).
Proof. exact (bins_once e). Qed.
Print Assumptions C71_once.
Theorem C71_widths : length steps = 31%nat /\ nth 0 steps 0 = 0.009 /\ last steps 0 = 0.12 /\ forall s, In s steps -> 0.009 <= s <= 0.12.
Proof. exact widths_ends. Qed.
Print Assumptions C71_widths.
Example C71_example : (forall w : R, length ((fun _ l => l) w [1; 2]) = 2%nat) /\ length [0.01; 0.1] = length [1; 2] /\ 0 <= 0.01 < 1.
Proof. repeat split; lra. Qed.

(** C72: square images in one view: after every history the arrays are those of the view and the last image's size *)
Theorem C72_partial scale vm ops i : vm_aspect vm = 1%Z -> Forall square_op (ops ++ [SetImage i]) ->
  let st := grun scale (gss_new vm) (ops ++ [SetImage i]) in
  arrays_of vm (gi_nx i) st /\ gs_vm st = vm /\
  gs_lum st = Some (GImg (gi_nx i) (gi_ny i) (map (fun x => x * scale) (gi_px i))).
Proof. exact (history_arrays scale vm ops i). Qed.
Print Assumptions C72_partial.
(** C72: whatever happened before, a square image of another size brings the arrays of the current view *)
Theorem C72_new_size_partial scale st i : vm_aspect (gs_vm st) = 1%Z -> square_img i -> gs_res st <> gi_nx i ->
  arrays_of (gs_vm st) (gi_nx i) (fst (set_lum scale st i)).
Proof. exact (new_size scale st i). Qed.
Print Assumptions C72_new_size_partial.
(** a new view with an image of the same size keeps the arrays of the old view, which are not those of the new one *)
Theorem C72_view_refuted scale vm vm' i i' : vm_aspect vm = 1%Z -> square_img i -> square_img i' -> gi_nx i' = gi_nx i ->
  0 < vm_viewangle vm -> 0 < vm_viewangle vm' -> vm_viewangle vm <> vm_viewangle vm' ->
  let st := grun scale (gss_new vm) [SetImage i; SetView vm'; SetImage i'] in
  gs_vm st = vm' /\ arrays_of vm (gi_nx i) st /\ ~ arrays_of vm' (gi_nx i) st.
Proof. exact (fun A B C D E F G => conj (stale_vm scale vm vm' i i' A B C D) (conj (stale_view scale vm vm' i i' A B C D) (stale_view_wrong scale vm vm' i i' A B C D E F G))). Qed.
Print Assumptions C72_view_refuted.
(** a rejected image that is not square makes the object reject images it accepted before *)
Theorem C72_rejected_refuted scale vm i bad : vm_aspect vm = 1%Z -> square_img i -> snd (set_lum scale (gss_new vm) i) = None ->
  (0 < gi_nx bad)%Z -> (0 < gi_ny bad)%Z -> gi_nx bad <> gi_ny bad -> gi_nx bad <> gi_nx i ->
  let st1 := grun scale (gss_new vm) [SetImage i] in
  let st2 := grun scale (gss_new vm) [SetImage i; SetImage bad] in
  snd (set_lum scale st1 i) = None /\ snd (set_lum scale st1 bad) = Some ValueError /\ snd (set_lum scale st2 i) = Some ValueError.
Proof. exact (rejected scale vm i bad). Qed.
Print Assumptions C72_rejected_refuted.
(** an all black image raises ZeroDivisionError and leaves the eccentricity of the image before in place *)
Theorem C72_black_refuted scale d va l n : regular_dir d -> hemi_angle va -> l * scale <> 0 -> 
  let vm := mk_view d va in
  let st := grun scale (gss_new vm) [SetImage (GImg 1 1 [l])] in
  let black := GImg 1 1 [0] in
  n = norm d ->
  gs_ecc st = Some (sigma_of vm n) /\ snd (set_lum scale st black) = Some ZeroDivisionError /\
  gs_ecc (fst (set_lum scale st black)) = Some (sigma_of vm n) /\ gs_lum (fst (set_lum scale st black)) = Some (GImg 1 1 [0 * scale]).
Proof. exact (black_after scale d va l n). Qed.
Print Assumptions C72_black_refuted.
(** a 360 degree view is never accepted *)
Theorem C72_full_view_refuted scale vm i : vm_aspect vm = 2%Z -> (0 < gi_nx i)%Z ->
  snd (set_lum scale (gss_new vm) i) = Some IndexError.
Proof. exact (full_view scale vm i). Qed.
Print Assumptions C72_full_view_refuted.
Example C72_example :
  vm_aspect (mk_view (V3 0 1 0) 180) = 1%Z /\ square_img (GImg 1 1 [1000]) /\
  Forall square_op ([SetImage (GImg 2 2 [1; 2; 3; 4])] ++ [SetImage (GImg 1 1 [1000])]) /\
  snd (set_lum 179 (gss_new (mk_view (V3 0 1 0) 180)) (GImg 1 1 [1000])) = None /\
  vm_viewangle (mk_view (V3 0 1 0) 180) = 180 /\ vm_viewangle (mk_view (V3 0 1 0) 90) = 90 /\ vm_aspect (mk_view (V3 0 1 0) 360) = 2%Z.
Proof. exact c72_sample. Qed.

(** C73: the eccentricity is within its limits for every direction, and the lower limit in the view direction *)
Theorem C73_range vm v : 0.009 <= sigma_of vm v <= 0.12.
Proof. exact (ecc_scale_range (xyz2vxy vm v)). Qed.
Print Assumptions C73_range.
Theorem C73_view d va : regular_dir d -> hemi_angle va -> sigma_of (mk_view d va) (norm d) = 0.009.
Proof. exact (sigma_view d va). Qed.
Print Assumptions C73_view.
(** C73: the lower limit is only reached in the centre of the image, and the value grows away from it *)
Theorem C73_centre vm v x y t u :
  (sigma_of vm v = 0.009 -> xyz2vxy vm v = (1 / 2, 1 / 2)) /\
  (0 <= t <= u -> ecc_scale (1 / 2 + t * x, 1 / 2 + t * y) <= ecc_scale (1 / 2 + u * x, 1 / 2 + u * y)).
Proof. exact (conj (ecc_scale_emin (xyz2vxy vm v)) (ecc_scale_radial x y t u)). Qed.
Print Assumptions C73_centre.
Example C73_example : regular_dir (V3 0 1 0) /\ hemi_angle 180.
Proof. exact (conj (proj1 regular_y) hemi_180). Qed.

(** C74: the weighted geometric mean of both irradiances *)
Theorem C74_mean e_r e_g : 0 < e_r -> 0 < e_g ->
  local_eye_adaptation e_r e_g = Rpower e_r 0.8 * Rpower e_g (1 - 0.8) /\
  0 < local_eye_adaptation e_r e_g /\ Rmin e_r e_g <= local_eye_adaptation e_r e_g <= Rmax e_r e_g /\
  (forall r g, e_r <= r -> e_g <= g -> e_r < r \/ e_g < g -> local_eye_adaptation e_r e_g < local_eye_adaptation r g).
Proof.
  exact (fun H1 H2 => conj (adapt_form e_r e_g H1 H2) (conj (adapt_pos e_r e_g H2) (conj (adapt_between e_r e_g H1 H2)
    (fun r g A B => adapt_mono e_r r e_g g (conj H1 A) (conj H2 B))))).
Qed.
Print Assumptions C74_mean.
Theorem C74_same e : 0 < e -> local_eye_adaptation e e = e.
Proof. exact (adapt_same e). Qed.
Print Assumptions C74_same.
(** a pixel without light is treated like one with irradiance 1: it is adapted to more than every dim pixel *)
Theorem C74_dark_refuted e_g : 0 < e_g -> local_eye_adaptation 0 e_g = local_eye_adaptation 1 e_g /\
  forall e_r, 0 < e_r < 1 -> local_eye_adaptation e_r e_g < local_eye_adaptation 0 e_g.
Proof. exact (adapt_dark e_g). Qed.
Print Assumptions C74_dark_refuted.
Example C74_example : 0 < 0.5 /\ 0 < 2 /\ (0 < 0.5 < 1).
Proof. lra. Qed.

(** C96: the pupil is between 1.1 and 8 mm wide, for the ages 10 to 100 and every illuminance *)
Theorem C96_range age ev : 10 <= age <= 100 -> 0 <= ev ->
  exists pd, pupil age ev = Ok (PI * square (pd / 2), pd) /\ 1.1 < pd <= 8.
Proof. exact (pupil_spec age ev). Qed.
Print Assumptions C96_range.
(** C96: up to the age of 38.2 it closes with light *)
Theorem C96_closes_partial age e1 e2 : age <= 38.2 -> 0 <= e1 < e2 ->
  exists p1 p2, pupil age e1 = Ok p1 /\ pupil age e2 = Ok p2 /\ snd p2 < snd p1 /\ fst p2 < fst p1.
Proof. exact (pupil_closes_38 age e1 e2). Qed.
Print Assumptions C96_closes_partial.
(** C96: from the age of fifty more than three times the light opens it *)
Theorem C96_closes_refuted age : 50 <= age <= 100 -> exists p1 p2, pupil age 160 = Ok p1 /\ pupil age (160 * sqrt 10) = Ok p2 /\
  160 < 160 * sqrt 10 /\ snd p1 < snd p2 /\ fst p1 < fst p2.
Proof. exact (pupil_opens_more age). Qed.
Print Assumptions C96_closes_refuted.
(** C96: from the age of 38.3 on it is wider at 165 lux than at 140 lux *)
Theorem C96_age_refuted age : 38.3 <= age <= 100 ->
  exists p1 p2, pupil age 140 = Ok p1 /\ pupil age 165 = Ok p2 /\ snd p1 < snd p2 /\ fst p1 < fst p2.
Proof. exact (pupil_opens_38 age). Qed.
Print Assumptions C96_age_refuted.
Example C96_ages : 25 <= 38.2 /\ 0 <= 100 < 200 /\ 38.3 <= 40 <= 100 /\ 50 <= 70 <= 100.
Proof. lra. Qed.
Example C96_example : 10 <= 20 <= 100 /\ 0 <= 500.
Proof. lra. Qed.

(** C97: each component integrates to its weight over the hemisphere, so the point spread function to 1 *)
Theorem C97_component b c : 0 < b ->
  exists pr : Riemann_integrable (fun phi => f_b b c phi * (2 * PI * sin phi)) 0 (PI / 2), RiemannInt pr = c.
Proof. exact (psf_one b c). Qed.
Print Assumptions C97_component.
Theorem C97_total age pigment pupd : 0 <= age <= 100 -> 0 < pigment < 1 -> 1 / 4 <= pupd ->
  exists pr : Riemann_integrable (fun phi => spread f_b (psf_coef age pigment pupd) phi * (2 * PI * sin phi)) 0 (PI / 2),
  RiemannInt pr = 1.
Proof. exact (psf_total age pigment pupd). Qed.
Print Assumptions C97_total.
(** C97: it is positive in every direction *)
Theorem C97_positive age pigment pupd phi : 0 <= age <= 100 -> 0 < pigment < 1 -> 1 / 4 <= pupd ->
  0 < spread f_b (psf_coef age pigment pupd) phi /\ 0 < spread l_b (psf_coef age pigment pupd) phi.
Proof. exact (psf_positive age pigment pupd phi). Qed.
Print Assumptions C97_positive.
(** C97: for a pupil of 0.1 mm a width is negative *)
Theorem C97_small_pupil_refuted : exists b, nth_error (fst (psf_coef 0 0.1 0.1)) 1 = Some b /\ b < 0.
Proof. exact bs_negative. Qed.
Print Assumptions C97_small_pupil_refuted.
(** C97: whatever the kernel, fixing its peak makes its sum the captured part *)
Theorem C97_kernel cap k : k <> [] -> exists k', kernel_fix cap k = Ok k' /\ length k' = length k /\ Rsum k' = cap.
Proof. exact (kernel_fix_spec cap k). Qed.
Print Assumptions C97_kernel.
Example C97_example : 0 <= 20 <= 100 /\ 0 < 0.106 < 1 /\ 1 / 4 <= 3.2 /\ [0.25; 0.5] <> [].
Proof. repeat split; try lra. discriminate. Qed.

(** C98: an accepted non negative image with light at the eye gets a score, between 0 and 33.5 times (raw: once)
    the fourth root of the solid angle in view; with the point spread function on, its kernel has to be non negative *)
Theorem C98_partial fl par vm i illum : filters_ok fl -> vm_aspect vm = 1%Z -> square_img i ->
  0 <= g_scale par -> Forall (fun x => 0 <= x) (gi_px i) -> snd (set_lum (g_scale par) (gss_new vm) i) = None ->
  g_f par <> 0 -> 10 <= g_age par <= 100 ->
  0 < match illum with Some e => e | None => seen_illuminance vm (GImg (gi_nx i) (gi_ny i) (map (fun x => x * g_scale par) (gi_px i))) end ->
  (g_psf par = true -> forall pupd, 1.1 < pupd <= 8 -> psf_ok par (IZR (gi_nx i) / (60 * vm_viewangle vm)) pupd) ->
  exists s, process_gss fl par (gss_new vm) i illum = Ok s /\
    0 <= s <= (if g_raw par then 1 else 33.5) * pow0 (seen_omega vm (gi_nx i)) (1 / 4).
Proof. exact (process_ok fl par vm i illum). Qed.
Print Assumptions C98_partial.
(** C98: an image is accepted exactly if some pixel in view has light and a solid angle *)
Theorem C98_accepted scale vm i : vm_aspect vm = 1%Z -> square_img i ->
  snd (set_lum scale (gss_new vm) i) = None <->
  exists k, (k < length (gi_px i))%nat /\ nth k (gi_px i) 0 * scale <> 0 /\
    in_view vm 0 (nth k (pixelrays vm (gi_nx i)) (V3 0 0 0)) = true /\ nth k (pixel_omegas vm (gi_nx i)) 0 <> 0.
Proof. exact (accept_iff scale vm i). Qed.
Print Assumptions C98_accepted.
(** C98: a window of less than 0.004 degrees leaves every accepted image without a score *)
Theorem C98_window_refuted fl par vm i illum : vm_aspect vm = 1%Z -> square_img i ->
  0 <= g_scale par -> Forall (fun x => 0 <= x) (gi_px i) -> snd (set_lum (g_scale par) (gss_new vm) i) = None -> 10 <= g_age par <= 100 ->
  0 < match illum with Some e => e | None => seen_illuminance vm (GImg (gi_nx i) (gi_ny i) (map (fun x => x * g_scale par) (gi_px i))) end ->
  g_psf par = true -> 0 <= g_fwidth par < 0.004 -> process_gss fl par (gss_new vm) i illum = Raise IndexError.
Proof. exact (process_narrow fl par vm i illum). Qed.
Print Assumptions C98_window_refuted.
Example C98_window_example :
  let par := GPar 20 17 179 0.106 0.003 true true true false in let vm := mk_view (V3 0 1 0) 180 in let i := GImg 1 1 [1000] in
  vm_aspect vm = 1%Z /\ square_img i /\ 0 <= g_scale par /\ Forall (fun x => 0 <= x) (gi_px i) /\
  snd (set_lum (g_scale par) (gss_new vm) i) = None /\ 10 <= g_age par <= 100 /\
  0 < seen_illuminance vm (GImg 1 1 [1000 * 179]) /\ g_psf par = true /\ 0 <= g_fwidth par < 0.004.
Proof. exact narrow_sample. Qed.
(** C98: with a window of 1 to 10 degrees that is not wider than a pixel the kernel is non negative, so nothing is left to assume;
    the window captures at most the whole of the spread function *)
Theorem C98_coarse_partial fl par vm i illum : filters_ok fl -> vm_aspect vm = 1%Z -> square_img i ->
  0 <= g_scale par -> Forall (fun x => 0 <= x) (gi_px i) -> snd (set_lum (g_scale par) (gss_new vm) i) = None ->
  g_f par <> 0 -> 10 <= g_age par <= 100 ->
  0 < match illum with Some e => e | None => seen_illuminance vm (GImg (gi_nx i) (gi_ny i) (map (fun x => x * g_scale par) (gi_px i))) end ->
  0.106 <= g_pigment par < 1 -> 1 <= g_fwidth par <= 10 -> g_fwidth par * IZR (gi_nx i) <= vm_viewangle vm ->
  exists s, process_gss fl par (gss_new vm) i illum = Ok s /\
    0 <= s <= (if g_raw par then 1 else 33.5) * pow0 (seen_omega vm (gi_nx i)) (1 / 4).
Proof. exact (process_coarse fl par vm i illum). Qed.
Print Assumptions C98_coarse_partial.
Theorem C98_captured_partial age pigment pupd fwidth cap : 10 <= age <= 100 -> 0.106 <= pigment < 1 -> 1.1 < pupd <= 8 -> 1 <= fwidth <= 10 ->
  capture fwidth (psf_coef age pigment pupd) = Ok cap -> 0 < cap <= 1.
Proof. exact (capture_le age pigment pupd fwidth cap). Qed.
Print Assumptions C98_captured_partial.
Example C98_example :
  let par := GPar 20 17 179 0.106 10 true true true false in let vm := mk_view (V3 0 1 0) 180 in let i := GImg 1 1 [1000] in
  filters_ok trivial_filters /\ vm_aspect vm = 1%Z /\ square_img i /\ 0 <= g_scale par /\ Forall (fun x => 0 <= x) (gi_px i) /\
  snd (set_lum (g_scale par) (gss_new vm) i) = None /\ g_f par <> 0 /\ 10 <= g_age par <= 100 /\
  0 < seen_illuminance vm (GImg 1 1 [1000 * 179]) /\ 0.106 <= g_pigment par < 1 /\ 1 <= g_fwidth par <= 10 /\ g_fwidth par * IZR (gi_nx i) <= vm_viewangle vm /\
  (g_psf par = true -> forall pupd, 1.1 < pupd <= 8 -> psf_ok par (IZR (gi_nx i) / (60 * vm_viewangle vm)) pupd).
Proof. exact coarse_sample. Qed.

(** C99: the score of a uniform image in closed form *)
Theorem C99_uniform fl par vm i l ev pupa pupd v : filters_ok fl -> vm_aspect vm = 1%Z -> square_img i ->
  gi_px i = map (fun _ => l) (gi_px i) -> 0 < vm_viewangle vm ->
  0 < l * g_scale par -> seen_omega vm (gi_nx i) <> 0 -> g_f par <> 0 ->
  hemi_angle (g_fwidth par) -> 0.004 <= g_fwidth par ->
  pupil (g_age par) ev = Ok (pupa, pupd) -> 0 < ev -> 0 < pupa ->
  let e_r := retinal_irradiance (g_f par) (l * g_scale par) pupa in
  let e_g := retinal_irradiance (g_f par) (ev / PI) pupa in
  cone_response e_r (local_eye_adaptation e_r e_g) = Ok v ->
  let p := normalized_field_response true (v * (1 - 0.67)) in
  process_gss fl par (gss_new vm) i (Some ev) =
  Ok (pow0 ((fst p ^ 4 + snd p ^ 4) * seen_omega vm (gi_nx i)) (1 / 4) * (if g_raw par then 1 else weight (mean_ecc vm (gi_nx i)))).
Proof. exact (process_uniform fl par vm i l ev pupa pupd v). Qed.
Print Assumptions C99_uniform.
(** C99: it does not depend on the optical corrections, the filters or the window *)
Theorem C99_same fl fl' par par' vm i l ev : filters_ok fl -> filters_ok fl' -> vm_aspect vm = 1%Z -> square_img i ->
  gi_px i = map (fun _ => l) (gi_px i) -> 0 < vm_viewangle vm ->
  0 < l * g_scale par -> seen_omega vm (gi_nx i) <> 0 -> g_f par <> 0 -> 10 <= g_age par <= 100 -> 0 < ev ->
  hemi_angle (g_fwidth par) -> 0.004 <= g_fwidth par -> hemi_angle (g_fwidth par') -> 0.004 <= g_fwidth par' ->
  g_age par' = g_age par -> g_f par' = g_f par -> g_scale par' = g_scale par -> g_raw par' = g_raw par ->
  process_gss fl par (gss_new vm) i (Some ev) = process_gss fl' par' (gss_new vm) i (Some ev) /\
  exists s, process_gss fl par (gss_new vm) i (Some ev) = Ok s.
Proof. exact (uniform_same fl fl' par par' vm i l ev). Qed.
Print Assumptions C99_same.
Example C99_example :
  let par := GPar 20 17 179 0.106 10 true true true false in let par' := GPar 20 17 179 0.5 4 false false true false in
  let vm := mk_view (V3 0 1 0) 180 in let i := GImg 1 1 [1000] in
  filters_ok trivial_filters /\ vm_aspect vm = 1%Z /\ square_img i /\ gi_px i = map (fun _ => 1000) (gi_px i) /\ 0 < vm_viewangle vm /\
  0 < 1000 * g_scale par /\ seen_omega vm (gi_nx i) <> 0 /\ g_f par <> 0 /\ 10 <= g_age par <= 100 /\
  hemi_angle (g_fwidth par) /\ 0.004 <= g_fwidth par /\ hemi_angle (g_fwidth par') /\ 0.004 <= g_fwidth par'.
Proof. exact c99_sample. Qed.

(** C100: the score of an image does not depend on the square images the object processed before *)
Theorem C100_history fl par vm ops i illum : vm_aspect vm = 1%Z -> Forall square_op ops -> square_img i ->
  process_gss fl par (grun (g_scale par) (gss_new vm) ops) i illum = process_gss fl par (gss_new vm) i illum.
Proof. exact (process_same fl par vm ops i illum). Qed.
Print Assumptions C100_history.
Example C100_example : vm_aspect (mk_view (V3 0 1 0) 180) = 1%Z /\
  Forall square_op [SetImage (GImg 2 2 [1; 2; 3; 4]); SetImage (GImg 1 1 [0])] /\ square_img (GImg 1 1 [1000]).
Proof. repeat split; try (repeat constructor); apply c72_sample. Qed.
