From Coq Require Import Ascii String Lra Lia Permutation.
From Verif Require Import Base BaseX L_Base L_Trig M_Translate S_Translate L_Angles M_Mapper S_Mapper L_Mapper L_Draw M_Io L_Io M_Header M_Metric M_Peak S_Peak M_Imgmetric S_Imgmetric S_Imgmetric2 S_Imgmetric3
  S_Metric L_Metric M_Gss S_Gss L_Gss L_Gss8 L_Imgmetric L_Imgmetric2 L_Imgmetric3 L_Imgmetric4 L_Imgmetric5.
Import ListNotations.
Local Open Scope R_scope.

Lemma blue_alone order blur fuel : exists vals, imgmetric bit_parse order blur fuel (opts1 false None) (blue_file "") ["illum"; "avglum"]%string = Some (Ok vals).
Proof.
  rewrite (mono_weights _ _ _ _ (opts1 false None) (blue_file "") _ None None eq_refl view180 blue_square blue_mono); [|reflexivity|discriminate].
  cbn [normalized opts1 mo_peakn]. match goal with |- context [construct fuel ?o ?v ?l] => destruct (small_construct fuel o v l) as (m & om & E) end.
  { rewrite !map_length. apply blue_length. }
  rewrite E. cbn [option_map fst]. eexists. reflexivity.
Qed.
Lemma blue_both order blur fuel : imgmetric bit_parse order blur fuel (opts1 false None) (blue_file "") ["illum"; "avglum"; "irradiance"]%string = Some (Raise TypeError).
Proof.
  apply (color_default bit_parse order blur fuel (opts1 false None) (blue_file "") _ None (list_ascii_of_string "") eq_refl view180 blue_square);
    try reflexivity; [right; right; now left|exact bits_none].
Qed.

(** * one bright blue pixel *)
Lemma dot_square_image : square_image (if_im dot_file).
Proof. split; [cbn; lia|]. split; [reflexivity|]. intros i j. reflexivity. Qed.
Notation front := (V3 0 1 0).
Lemma hemi180 : hemi_angle 180.
Proof. unfold hemi_angle. lra. Qed.
Lemma omega_180 : pixel_omegas (mk_view front 180) 1 = [4].
Proof.
  pose proof hemi180 as H. unfold pixel_omegas, zgrid, zrange. change (Z.to_nat 1) with 1%nat. cbn [seq map flat_map app fst snd Z.of_nat].
  f_equal. rewrite omega_eq. cbn [fst snd]. unfold om, vnorm. rewrite cross_sqr.
  assert (vscl front 180 = 1) as V.
  { unfold vscl. rewrite mk_view_hemi_va by exact H. enough (vm_chordfactor (mk_view front 180) = 1) as -> by field.
    rewrite chordfactor_hemi by exact H. unfold half. replace (180 * PI / 360) with (PI / 2) by field. replace (PI / 2 / 2) with (PI / 4) by field.
    rewrite sin_PI4. pose proof PI_RGT_0. pose proof sqrt2_pos. pose proof sqrt2_sqr. match goal with |- ?x = 1 => replace x with (sqrt 2 * sqrt 2 / 2) by (field; lra) end.
    rewrite sqrt2_sqr. field. }
  rewrite V. unfold view_at.
  replace ((0 + 1 / 2 - 1 / 2) / 1 - 1 / 2) with (- (1 / 2)) by field. replace ((0 + 1 / 2 + 1 / 2) / 1 - 1 / 2) with (1 / 2) by field.
  replace ((0 + 1 / 2) / 1 - 1 / 2) with 0 by field. rewrite !Rmult_0_l.
  replace (- (1 / 2) * (-1 * 1)) with (1 / 2) by field. replace (1 / 2 * (-1 * 1)) with (- (1 / 2)) by field.
  replace (- (1 / 2) * (1 * 1)) with (- (1 / 2)) by field. replace (1 / 2 * (1 * 1)) with (1 / 2) by field.
  rewrite ang2dir_flip.
  assert (pd (1 / 2, 0) = 1 / 2) as P1.
  { unfold pd. cbn [fst snd]. unfold square. rewrite Rmult_0_l, Rplus_0_r. apply sqrt_square. lra. }
  assert (pd (0, 1 / 2) = 1 / 2) as P2.
  { unfold pd. cbn [fst snd]. unfold square. rewrite Rmult_0_l, Rplus_0_l. apply sqrt_square. lra. }
  assert (pd (0, - (1 / 2)) = 1 / 2) as P3.
  { unfold pd. cbn [fst snd]. unfold square. rewrite Rmult_0_l, Rplus_0_l. replace (- (1 / 2) * - (1 / 2)) with (1 / 2 * (1 / 2)) by ring. apply sqrt_square. lra. }
  rewrite !ang2dir_eq by lra. rewrite P1, P2, P3. cbn [fst snd vx vy vz].
  replace (PI * (1 / 2)) with (PI / 2) by field. rewrite sin_PI2, cos_PI2.
  unfold vsub, dot. cbn [vx vy vz]. rewrite !Rmult_0_l.
  match goal with |- sqrt ?x = 4 => replace x with (4 * 4) by field end. apply sqrt_square. lra.
Qed.
Lemma front_norm : norm front = front.
Proof. apply norm_unit_id. unfold dot. cbn. lra. Qed.
Lemma dot_rows {A} (f : list R -> A) : pixel_rows (view_of None) (if_im dot_file) f = [(front, 4, f [0; 0; 1000])].
Proof.
  unfold pixel_rows. cbn [if_im dot_file im_ny im_px view_of]. rewrite one_ray by (apply regular_y || exact hemi180). rewrite front_norm.
  pose proof omega_180 as O. unfold pixel_omegas in O. rewrite O. reflexivity.
Qed.
Notation peaka := (67967 / 10 ^ 9).
Definition one_set (o : mopts) (w l : R) : mset := MS (view_of None) true w [Ray front w l] (mo_scale o) (mo_threshold o) 30 (mo_lowlight o) [] 0.
Lemma dot_construct fuel o w l : construct fuel (opts_of o) (view_of None) [Ray front w l] = Some (one_set o w l, [w]).
Proof.
  assert (in_view (view_of None) 0 (norm front) = true) as V by (apply one_in_view; [apply regular_y|exact hemi180]).
  assert (no_edge_rays (view_of None) [Ray front w l]) as N by (right; intros r [<-|[]]; left; exact V).
  unfold construct. destruct (view_rays_plain _ _ N) as (mask & -> & _). unfold seen. cbn [map r_vec r_omega r_lum filter]. rewrite V, orb_true_r, front_norm.
  unfold set_omega. cbn [length Nat.ltb Nat.leb]. rewrite andb_false_r. cbn [map r_vec r_omega r_lum]. unfold mk_rays. cbn [combine map fst snd Rsum fold_right].
  unfold one_set, opts_of. cbn [o_guth o_scale o_threshold o_tradius o_lowlight]. rewrite Rplus_0_r. reflexivity.
Qed.
Lemma sorted_one order key : sorts_down order -> order key [0%nat] = [0%nat].
Proof. intros S. destruct (S key [0%nat]) as [P _]. apply Permutation_sym in P. now apply Permutation_length_1_inv in P. Qed.
Lemma radius_lt : cos (sqrt (peaka / PI) * 4) < 1.
Proof.
  pose proof PI_RGT_0. rewrite <- cos_0. assert (0 < peaka) by lra. assert (0 < sqrt (peaka / PI)) by (apply sqrt_lt_R0, Rdiv_lt_0_compat; lra).
  assert (sqrt (peaka / PI) < / 4).
  { replace (/ 4) with (sqrt (/ 4 * / 4)) by (apply sqrt_square; lra). pose proof PI_lo. apply sqrt_lt_1; [left; apply Rdiv_lt_0_compat; lra|lra|].
    apply Rmult_lt_reg_r with PI; [lra|]. unfold Rdiv at 1. rewrite Rmult_assoc, Rinv_l by lra. lra. }
  pose proof PI_lo. apply cos_decreasing_1; lra.
Qed.
Lemma dot_peak order blur : sorts_down order ->
  normalized order blur [1] (opts1 true (Some [0; 0; 1])) (pixel_rows (view_of None) (if_im dot_file) (fun px => [rgb2rad [0; 0; 1] px])) =
  Ok [Pix front peaka [4 * 1000 / peaka]].
Proof.
  intros S. rewrite dot_rows. unfold normalized. cbn [mo_peakn opts1 map fst snd].
  assert (rgb2rad [0; 0; 1] [0; 0; 1000] = 1000) as -> by (cbn; lra).
  assert (lum [1] (Pix front 4 [1000]) = 1000) as L by (unfold lum; cbn; lra).
  unfold normalize_peak, find_peak, bright. cbn [length seq filter get nth]. unfold get. cbn [nth]. rewrite L.
  assert (Rgtb 1000 (a_peakt (peak_of (opts1 true (Some [0; 0; 1]))) / a_scale (peak_of (opts1 true (Some [0; 0; 1])))) = true) as ->
    by (apply Rltb_true; cbn; lra).
  rewrite sorted_one by exact S. cbn [hd filter nth map].
  assert (Rgtb (dot (p_v (Pix front 4 [1000])) (p_v (Pix front 4 [1000]))) (cosrad (peak_of (opts1 true (Some [0; 0; 1])))) = true) as ->.
  { apply Rltb_true. unfold cosrad. cbn [p_v peak_of opts1 a_peaka a_peakrad mo_peaka]. unfold dot. cbn [vx vy vz]. pose proof radius_lt. lra. }
  cbn [map nth]. unfold merge_peak. rewrite L. cbn [filter]. rewrite L.
  assert (Rleb (1000 * a_blurtol (peak_of (opts1 true (Some [0; 0; 1])))) 1000 = true) as -> by (apply Rleb_true; cbn; lra).
  cbn [map mean running length last p_o p_l nth above chan seq firstn]. rewrite L. unfold mean. cbn [length Rsum fold_right INR].
  cbn [above peak_of a_peaka a_peakc a_blursun opts1 mo_peaka mo_blursun].
  assert (forall a b : R, b < a -> Rgtb a b = true) as G by (intros; now apply Rltb_true).
  rewrite !(G (0 + 4 * 1000)) by lra. unfold argmax. cbn [find_first]. rewrite !(G (0 + 4 * 1000)) by lra. cbn [Nat.eqb Nat.sub nth firstn map].
  unfold weighted_dir. cbn [map Rsum fold_right p_o p_v]. rewrite L.
  assert (Reqb (4 * 1000 + 0) 0 = false) as -> by (apply Reqb_false; lra).
  assert (norm (vscale (/ (4 * 1000 + 0)) (vadd (vscale (4 * 1000) front) vzero)) = front) as ->.
  { rewrite <- front_norm at 2. f_equal. unfold vscale, vadd, vzero. cbn [vx vy vz]. f_equal; field. }
  cbn [bind fst snd firstn]. unfold delete_rows, in_pc. cbn [length seq filter existsb Nat.eqb orb negb map app]. unfold chan. cbn [p_l nth]. do 3 f_equal; [lra|]. f_equal. lra.
Qed.
Lemma maxlum_one o w l : maxlum (one_set o w l) = l * mo_scale o.
Proof. reflexivity. Qed.
Lemma dot_alone parse order blur fuel : sorts_down order ->
  imgmetric parse order blur fuel (opts1 true (Some [0; 0; 1])) dot_file ["maxlum"]%string = Some (Ok [Fin (4 * 1000 / peaka * 179)]).
Proof.
  intros S. assert (mono_names ["maxlum"%string]) as M by (repeat (apply Forall_cons; [apply mem_in; vm_compute; reflexivity|]); apply Forall_nil).
  rewrite (mono_weights parse order blur fuel (opts1 true (Some [0; 0; 1])) dot_file ["maxlum"%string] None (Some [0; 0; 1]) eq_refl view180 dot_square_image M eq_refl);
    [|now intros w [= <-]].
  cbv zeta. rewrite dot_peak by exact S. cbn [map p_v p_o p_l nth]. rewrite dot_construct. cbn [option_map fst]. reflexivity.
Qed.
Lemma dot_color parse order blur fuel : exists r,
  imgmetric parse order blur fuel (opts1 true (Some [0; 0; 1])) dot_file ["maxlum"; "irradiance"]%string = Some (Ok (Fin (1000 * 179) :: r)).
Proof.
  assert (color_names ["maxlum"; "irradiance"]%string) as M
    by (split; [repeat (apply Forall_cons; [apply mem_in; vm_compute; reflexivity|]); apply Forall_nil|right; left; reflexivity]).
  rewrite (peak_default parse order blur fuel (opts1 true (Some [0; 0; 1])) dot_file _ None [0; 0; 1] eq_refl view180 dot_square_image M eq_refl eq_refl).
  2: { intros i j. unfold radiance_weights. cbn. lra. }
  rewrite (color_weights parse order blur fuel (no_peakn (opts1 true (Some [0; 0; 1]))) dot_file _ None [0; 0; 1] eq_refl view180 dot_square_image M eq_refl eq_refl).
  unfold normalized. cbn [mo_peakn no_peakn]. rewrite dot_rows. cbn [map fst snd p_v p_o p_l]. unfold construct_color. cbn [map fst snd].
  assert (rgb2rad [0; 0; 1] [0; 0; 1000] = 1000) as -> by (cbn; lra).
  rewrite dot_construct. cbn [option_map fst]. eexists. reflexivity.
Qed.
