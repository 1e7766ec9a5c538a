(** A pair of images of which each is the mirror image of the other, and their score. *)
From Coq Require Import Lra Lia Psatz.
From Verif Require Import Base L_Base L_Trig M_Translate M_Mapper M_Io S_Mapper L_Mapper L_Io L_Initimg L_Draw M_Gss S_Gss L_Gss L_Gss2 L_Gss3 L_Gss4 L_Gss5 L_Gss6 L_Gss9 M_Ndimage S_Ndimage L_Ndimage L_Ndimage3 S_Mirror L_Mirror L_Mirror2 L_Kernel L_Kernel2 L_Mirror3 L_Mirror4.
Local Open Scope R_scope.

Lemma pair_mirror : mirror_img (GImg 3 3 [0; 0; 5; 1; 2; 3; 0; 0; 0]) (GImg 3 3 [0; 0; 0; 1; 2; 3; 0; 0; 5]).
Proof. repeat split. intros i j Hi Hj. cbn in Hi, Hj. destruct i as [|[|[|]]], j as [|[|[|]]]; try (exfalso; lia); reflexivity. Qed.
Lemma window_3 : window_of 10 10 3 = 3%Z.
Proof. unfold window_of. replace (10 * IZR 3 / 10) with (IZR 3) by lra. apply Rceil_IZR. Qed.
Lemma pair_score : exists s, process_gss scipy_filters (GPar 20 17 179 0.106 10 false true true false) (gss_new (mk_view (V3 0 1 0) 10)) (GImg 3 3 [0; 0; 5; 1; 2; 3; 0; 0; 0]) (Some 100) = Ok s.
Proof.
  assert (H : hemi_angle 10) by (unfold hemi_angle; lra). assert (Sq : square_img (GImg 3 3 [0; 0; 5; 1; 2; 3; 0; 0; 0])) by (unfold square_img; cbn; repeat split; lia).
  destruct (process_ok scipy_filters (GPar 20 17 179 0.106 10 false true true false) (mk_view (V3 0 1 0) 10) (GImg 3 3 [0; 0; 5; 1; 2; 3; 0; 0; 0]) (Some 100)) as (s & E & _); [| | | | | | | | | |now exists s].
  - exact scipy_ok.
  - now apply mk_view_hemi_aspect.
  - exact Sq.
  - cbn [g_scale]. lra.
  - cbn [gi_px]. repeat constructor; lra.
  - apply (accept_iff 179 (mk_view (V3 0 1 0) 10)); [now apply mk_view_hemi_aspect|exact Sq|]. exists 4%nat. cbn [gi_px gi_nx length nth]. split; [lia|]. split; [lra|].
    rewrite rays_eq by exact H. unfold pixel_omegas. change (zgrid 3 3) with [(0, 0); (0, 1); (0, 2); (1, 0); (1, 1); (1, 2); (2, 0); (2, 1); (2, 2)]%Z. cbn [map nth fst snd].
    replace (1 + 1 / 2) with (IZR 3 / 2) by lra. split.
    + unfold in_view. apply Rltb_true. destruct (px_radians (V3 0 1 0) 10 3 (IZR 3 / 2) (IZR 3 / 2) (proj1 regular_y) H ltac:(lia) ltac:(lra) ltac:(lra)) as [-> _].
      assert (Z : pd (at_px (vscl (V3 0 1 0) 10) 3 (IZR 3 / 2) (IZR 3 / 2)) = 0).
      { unfold at_px, pd. cbn [fst snd]. replace (IZR 3 / 2 / IZR 3 - 1 / 2) with 0 by (field; lra). transitivity (sqrt 0); [f_equal; unfold square; ring|apply sqrt_0]. }
      rewrite Z, Rmult_0_r. pose proof (vscl_range (V3 0 1 0) 10 H) as S. unfold vscl in S. pose proof PI_RGT_0. set (t := vm_viewangle (mk_view (V3 0 1 0) 10) * vm_chordfactor (mk_view (V3 0 1 0) 10) / 180) in S.
      replace (vm_chordfactor (mk_view (V3 0 1 0) 10) * vm_viewangle (mk_view (V3 0 1 0) 10) * PI / 360) with (PI * (t / 2)) by (unfold t; field). nra.
    + rewrite px_omega_mid by (exact H || lia). apply Rgt_not_eq. apply step2_pos; [now apply vscl_range|lia].
  - cbn [g_f]. lra.
  - cbn [g_age]. lra.
  - unfold illum_of. lra.
  - discriminate.
Qed.
Lemma omega_largest d va r x y : hemi_angle va -> (0 < r)%Z -> 1 / 2 <= x <= IZR r - 1 / 2 -> 1 / 2 <= y <= IZR r - 1 / 2 ->
  pixel2omega (mk_view d va) r (x, y) <= pixel2omega (mk_view d va) r (IZR r / 2, IZR r / 2).
Proof. intros H Hr Hx Hy. rewrite px_omega_mid by (exact H || lia). now apply px_omega_le. Qed.
Lemma odd_peak age pigment pupd fw ppa m : 10 <= age <= 100 -> 0 < pigment < 1 -> 1.1 < pupd <= 8 -> hemi_angle fw -> (0 <= m)%Z -> Rceil (fw * 60 * ppa) = (2 * m + 1)%Z ->
  np_argmax (kernel_raw fw ppa (psf_coef age pigment pupd)) = Ok (Z.to_nat (m * (2 * m + 1) + m)).
Proof.
  intros Ha Hg Hp Hf Hm E. rewrite (raw_eq age pigment pupd fw m) by assumption. rewrite raw_peak by assumption. f_equal. nia.
Qed.
