(** C137: left and right are the same to the glare sensation score. C138: no pixel sees more than one in the middle. Definitions in S_Mirror, S_Mapper and M_Ndimage. *)
From Coq Require Import Lra Lia.
From Verif Require Import Base M_Translate S_Translate M_Mapper S_Mapper M_Io M_Gss S_Gss M_Ndimage S_Mirror L_Kernel L_Mirror3 L_Mirror4 L_Mirror5.
Local Open Scope R_scope.

(** a square image and its mirror image get the same score, or the same exception, in every view of up to 180 degrees, provided that the window of
    the point spread function, if it is on, is an odd number of pixels wide *)
Theorem C137_partial : forall d va par i i' illum, regular_dir d -> hemi_angle va -> (0 < gi_nx i)%Z -> gi_ny i = gi_nx i ->
  (g_psf par = true -> 10 <= g_age par <= 100 /\ 0 < g_pigment par < 1 /\ hemi_angle (g_fwidth par) /\ Z.odd (window_of (g_fwidth par) va (gi_nx i)) = true) ->
  mirror_img i i' ->
  process_gss scipy_filters par (gss_new (mk_view d va)) i' illum = process_gss scipy_filters par (gss_new (mk_view d va)) i illum.
Proof. exact mirror_score. Qed.
Print Assumptions C137_partial.
Example C137_case : hemi_angle 10 /\ Z.odd (window_of 10 10 3) = true /\
  mirror_img (GImg 3 3 [0; 0; 5; 1; 2; 3; 0; 0; 0]) (GImg 3 3 [0; 0; 0; 1; 2; 3; 0; 0; 5]) /\
  exists s, process_gss scipy_filters (GPar 20 17 179 0.106 10 false true true false) (gss_new (mk_view (V3 0 1 0) 10)) (GImg 3 3 [0; 0; 5; 1; 2; 3; 0; 0; 0]) (Some 100) = Ok s.
Proof. split; [unfold hemi_angle; lra|]. split; [now rewrite window_3|]. split; [exact pair_mirror|exact pair_score]. Qed.

(** a window of two pixels moves the light to one side: a bright pixel in the middle of the image, which is its own mirror image, is spread unevenly *)
Theorem C137_even_refuted : forall age pigment pupd mask omega, 10 <= age <= 100 -> 0 < pigment < 1 -> 1.1 < pupd <= 8 ->
  let par := GPar age 17 179 pigment 10 true false false false in
  window_of 10 15 3 = 2%Z /\ mirror_of 3 [0; 0; 0; 0; 1; 0; 0; 0; 0] [0; 0; 0; 0; 1; 0; 0; 0; 0] /\
  exists out, apply_psf (flt_conv scipy_filters) par (IZR 3 / (60 * 15)) mask omega [0; 0; 0; 0; 1; 0; 0; 0; 0] pupd = Ok out /\ ~ mirror_of 3 out out.
Proof. exact even_moved. Qed.
Print Assumptions C137_even_refuted.
(** where the kernel has its peak, which then takes up what the window captures: in the middle of an odd window; above the middle of an even one
    (of 2 m rows, row m is the one that scipy's convolve puts on the pixel) *)
Theorem C137_peak : forall age pigment pupd fw ppa m, 10 <= age <= 100 -> 0 < pigment < 1 -> 1.1 < pupd <= 8 -> hemi_angle fw -> (0 <= m)%Z ->
  Rceil (fw * 60 * ppa) = (2 * m + 1)%Z -> np_argmax (kernel_raw fw ppa (psf_coef age pigment pupd)) = Ok (Z.to_nat (m * (2 * m + 1) + m)).
Proof. exact odd_peak. Qed.
Print Assumptions C137_peak.
Theorem C137_peak_refuted : forall fw ppa coef m, hemi_angle fw -> (0 < m)%Z -> Rceil (fw * 60 * ppa) = (2 * m)%Z ->
  exists i j, (0 <= i < m)%Z /\ (0 <= j < 2 * m)%Z /\ np_argmax (kernel_raw fw ppa coef) = Ok (Z.to_nat (i * (2 * m) + j)).
Proof. exact even_peak. Qed.
Print Assumptions C137_peak_refuted.
Example C137_peak_case : hemi_angle 10 /\ Rceil (10 * 60 * (1 / 200)) = (2 * 1 + 1)%Z /\ Rceil (10 * 60 * (1 / 300)) = (2 * 1)%Z.
Proof.
  split; [unfold hemi_angle; lra|]. replace (10 * 60 * (1 / 200)) with (IZR 3) by lra. replace (10 * 60 * (1 / 300)) with (IZR 2) by lra. now rewrite !Rceil_IZR.
Qed.

(** C138: two rays are no further apart than their places in the image, times the angle that the image covers *)
Theorem C138_close : forall d va p q, hemi_angle va -> in_unit_square p -> in_unit_square q ->
  let s := vm_viewangle (mk_view d va) * vm_chordfactor (mk_view d va) / 180 in
  angle (vxy2xyz (mk_view d va) p) (vxy2xyz (mk_view d va) q) <= PI * s * pdist p q.
Proof. exact rays_close. Qed.
Print Assumptions C138_close.
(** C138: the solid angle of a pixel anywhere in the image is at most that of one in the middle *)
Theorem C138_largest : forall d va res x y, hemi_angle va -> (0 < res)%Z -> 1 / 2 <= x <= IZR res - 1 / 2 -> 1 / 2 <= y <= IZR res - 1 / 2 ->
  pixel2omega (mk_view d va) res (x, y) <= pixel2omega (mk_view d va) res (IZR res / 2, IZR res / 2).
Proof. exact omega_largest. Qed.
Print Assumptions C138_largest.
Example C138_case : hemi_angle 180 /\ in_unit_square (0, 1) /\ in_unit_square (1 / 4, 1 / 2) /\ (0 < 512)%Z /\ 1 / 2 <= 1 / 2 <= IZR 512 - 1 / 2.
Proof. unfold hemi_angle, in_unit_square. cbn [fst snd]. repeat split; try lra; lia. Qed.
