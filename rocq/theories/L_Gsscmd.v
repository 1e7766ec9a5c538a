From Coq Require Import Lra Lia Psatz.
From Verif Require Import Base L_Base L_Trig M_Translate S_Translate L_Angles M_Mapper S_Mapper L_Mapper L_Draw M_Io L_Io M_Gss S_Gss L_Gss L_Gss2 L_Gss3 L_Gss4 L_Gss5 L_Gss6 L_Gss8 L_Gss9
  M_Imgmetric L_Imgmetric2 L_Imgmetric3 M_Gsscmd S_Gsscmd.
Local Open Scope R_scope.

Lemma init_state par f st : good_file f -> gss_init par f = Ok st ->
  st = grun (g_scale par) (gss_new (file_view f)) [SetImage (gf_img f)].
Proof.
  intros (A & S & v & Hv). unfold gss_init, file_view. rewrite Hv. cbn [grun fold_left gstep].
  destruct v as [vm|]; match goal with |- context [set_lum ?a ?b ?c] => destruct (set_lum a b c) as [st' [e|]] end; try discriminate; now intros [= <-].
Qed.
Lemma nth_illum (files : list gfile) illums k : match illums with Some l => length l = length files | None => True end -> (k < length files)%nat ->
  nth_error (match illums with Some l => map Some l | None => map (fun _ => None) files end) k = Some (illum_at illums k).
Proof.
  intros H Hk. destruct illums as [l|]; cbn [illum_at].
  - rewrite nth_error_map. destruct (nth_error l k) eqn:E; [reflexivity|]. apply nth_error_None in E. lia.
  - rewrite nth_error_map. destruct (nth_error files k) eqn:E; [reflexivity|]. apply nth_error_None in E. lia.
Qed.
Lemma combine_nth' {A B} (l : list A) (r : list B) k x y : nth_error l k = Some x -> nth_error r k = Some y -> nth_error (combine l r) k = Some (x, y).
Proof. revert r k. induction l as [|a l IH]; intros [|b r] [|k]; cbn; try discriminate; [now intros [= ->] [= ->]|apply IH]. Qed.

(** every score is the score in the view of the first image *)
Theorem compute_first fl par f files illums scores : good_file f -> Forall (fun g => square_img (gf_img g)) files ->
  match illums with Some l => length l = length (f :: files) | None => True end ->
  gss_compute fl par (f :: files) illums = Ok scores ->
  length scores = length (f :: files) /\
  forall k g s, nth_error (f :: files) k = Some g -> nth_error scores k = Some s ->
    process_gss fl par (gss_new (file_view f)) (gf_img g) (illum_at illums k) = Ok s.
Proof.
  intros G Hs Hi. unfold gss_compute. destruct (gss_init par f) as [st|] eqn:Ei; cbn [bind]; [|discriminate]. intros H.
  apply each_ok in H. pose proof (forall2_length _ _ _ H) as L.
  assert (length (combine (f :: files) (match illums with Some l => map Some l | None => map (fun _ => None) (f :: files) end)) = length (f :: files)) as E.
  { rewrite combine_length. destruct illums as [l|]; rewrite map_length; [rewrite Hi|]; lia. }
  rewrite E in L. split; [exact L|]. intros k g s Hg Hk.
  assert (k < length (f :: files))%nat as Lk by (apply nth_error_Some; congruence).
  pose proof (combine_nth' _ _ k g _ Hg (nth_illum (f :: files) illums k Hi Lk)) as Hc.
  pose proof (forall2_nth _ _ _ k _ _ H Hc Hk) as X. cbn [fst snd] in X. rewrite <- X. rewrite (init_state par f st G Ei). symmetry.
  destruct G as (A & S & v & _). apply process_same; [exact A|constructor; [exact S|constructor]|].
  destruct k as [|k]; cbn in Hg; [injection Hg as <-; exact S|]. apply nth_error_In in Hg. rewrite Forall_forall in Hs. now apply Hs.
Qed.
Theorem compute_own fl par f files illums scores : good_file f -> Forall good_file files -> Forall (fun g => file_view g = file_view f) files ->
  match illums with Some l => length l = length (f :: files) | None => True end ->
  gss_compute fl par (f :: files) illums = Ok scores ->
  length scores = length (f :: files) /\
  forall k g s, nth_error (f :: files) k = Some g -> nth_error scores k = Some s -> own_score fl par g (illum_at illums k) = Ok s.
Proof.
  intros G Hs Hv Hi H. destruct (compute_first fl par f files illums scores G) as [L X]; auto.
  { eapply Forall_impl; [|exact Hs]. intros g (_ & S & _). exact S. }
  split; [exact L|]. intros k g s Hg Hk. unfold own_score. replace (file_view g) with (file_view f); [exact (X k g s Hg Hk)|].
  destruct k as [|k]; cbn in Hg; [now injection Hg as <-|]. apply nth_error_In in Hg. rewrite Forall_forall in Hv. symmetry. now apply Hv.
Qed.
(** more images or fewer illuminances *)
Lemma compute_short fl par f files l scores : (length l < length (f :: files))%nat ->
  gss_compute fl par (f :: files) (Some l) = Ok scores -> length scores = length l.
Proof.
  intros Hl. unfold gss_compute. destruct (gss_init par f) as [st|]; cbn [bind]; [|discriminate]. intros H. apply each_ok, forall2_length in H.
  rewrite combine_length, map_length in H. lia.
Qed.
Lemma compute_empty fl par illums : gss_compute fl par [] illums = Raise IndexError.
Proof. reflexivity. Qed.
(** the first image decides whether there are any scores *)
Lemma compute_black fl par f files illums v : gf_view f = Ok v -> vm_aspect (file_view f) = 1%Z -> square_img (gf_img f) ->
  Forall (fun x => x = 0) (gi_px (gf_img f)) -> exists e, gss_compute fl par (f :: files) illums = Raise e.
Proof.
  intros Hv A S Hb. unfold gss_compute, gss_init.
  assert (snd (set_lum (g_scale par) (gss_new (file_view f)) (gf_img f)) <> None) as N.
  { intros H. apply accept_iff in H; [|exact A|exact S]. destruct H as (k & Hk & Hz & _). apply Hz. rewrite Forall_forall in Hb. rewrite (Hb (nth k (gi_px (gf_img f)) 0)); [ring|]. now apply nth_In. }
  unfold file_view in N. rewrite Hv in N. rewrite Hv.
  destruct v as [vm|]; match goal with |- context [set_lum ?a ?b ?c] => destruct (set_lum a b c) as [st' [e|]] end; cbn [bind]; eauto; exfalso; now apply N.
Qed.

(** * the view matters *)
Lemma one_omega_value d va : hemi_angle va -> pixel_omegas (mk_view d va) 1 = [4 * sin (PI * (vscl d va / 2)) ^ 2].
Proof.
  intros H. unfold pixel_omegas, zgrid, zrange. change (Z.to_nat 1) with 1%nat. cbn [seq map flat_map app fst snd Z.of_nat]. f_equal.
  rewrite omega_eq. cbn [fst snd]. unfold om, vnorm. rewrite cross_sqr.
  pose proof (vscl_range d va H) as V. set (s := vscl d va) in *. clearbody s. unfold view_at.
  replace ((0 + 1 / 2 - 1 / 2) / 1 - 1 / 2) with (- (1 / 2)) by field. replace ((0 + 1 / 2 + 1 / 2) / 1 - 1 / 2) with (1 / 2) by field.
  replace ((0 + 1 / 2) / 1 - 1 / 2) with 0 by field. rewrite !Rmult_0_l.
  replace (- (1 / 2) * (-1 * s)) with (s / 2) by field. replace (1 / 2 * (-1 * s)) with (- (s / 2)) by field.
  replace (- (1 / 2) * (1 * s)) with (- (s / 2)) by field. replace (1 / 2 * (1 * s)) with (s / 2) by field.
  rewrite ang2dir_flip.
  assert (pd (s / 2, 0) = s / 2) as P1.
  { unfold pd. cbn [fst snd]. unfold square. rewrite Rmult_0_l, Rplus_0_r. apply sqrt_square. lra. }
  assert (pd (0, s / 2) = s / 2) as P2.
  { unfold pd. cbn [fst snd]. unfold square. rewrite Rmult_0_l, Rplus_0_l. apply sqrt_square. lra. }
  assert (pd (0, - (s / 2)) = s / 2) as P3.
  { unfold pd. cbn [fst snd]. unfold square. rewrite Rmult_0_l, Rplus_0_l. replace (- (s / 2) * - (s / 2)) with (s / 2 * (s / 2)) by ring. apply sqrt_square. lra. }
  rewrite !ang2dir_eq by lra. rewrite P1, P2, P3. cbn [fst snd vx vy vz].
  assert (0 < sin (PI * (s / 2))) as S by (pose proof PI_RGT_0; apply sin_gt_0; [apply Rmult_lt_0_compat; lra|nra]).
  set (c := cos (PI * (s / 2))). set (q := sin (PI * (s / 2))) in *. clearbody c q.
  unfold vsub, dot. cbn [vx vy vz]. rewrite !Rmult_0_l.
  match goal with |- sqrt ?x = _ => replace x with ((4 * q ^ 2) * (4 * q ^ 2)) by (field; lra) end. apply sqrt_square. nra.
Qed.

Lemma uniform_scores fl par l ev : filters_ok fl -> 0 < l * g_scale par -> g_f par <> 0 -> 10 <= g_age par <= 100 -> 0 < ev ->
  hemi_angle (g_fwidth par) -> 0.004 <= g_fwidth par -> g_raw par = true ->
  exists c, 0 < c /\ forall d va, regular_dir d -> hemi_angle va ->
    process_gss fl par (gss_new (mk_view d va)) (dot_img l) (Some ev) = Ok (pow0 (c * seen_omega (mk_view d va) 1) (1 / 4)).
Proof.
  intros F Hl Hf Ha He W1 W2 Hr.
  destruct (pupil_spec (g_age par) ev Ha ltac:(lra)) as (pd & Ep & Bp).
  assert (0 < PI * square (pd / 2)) as PA by (apply Rmult_lt_0_compat; [apply PI_RGT_0|unfold square; nra]).
  set (pupa := PI * square (pd / 2)) in *. clearbody pupa.
  assert (0 < square (g_f par)) as Sf by (unfold square; nra).
  set (e_r := retinal_irradiance (g_f par) (l * g_scale par) pupa). set (e_g := retinal_irradiance (g_f par) (ev / PI) pupa).
  assert (0 < e_r) as Her by (unfold e_r, retinal_irradiance; apply Rmult_lt_0_compat; [apply Rdiv_lt_0_compat; assumption|exact Hl]).
  destruct (cone_ok e_r (local_eye_adaptation e_r e_g) ltac:(lra) (adapt_nonneg _ _)) as (v & Ev & _).
  set (p := normalized_field_response true (v * (1 - fr_k))). exists (fst p ^ 4 + snd p ^ 4). split.
  { unfold p, normalized_field_response. cbn [fst snd]. pose proof (exp_pos (- fr_a * (v * (1 - fr_k) - fr_b))). pose proof (exp_pos (fr_a * (v * (1 - fr_k) + fr_b))).
    apply Rplus_lt_0_compat; apply pow_lt, Rdiv_lt_0_compat; lra. }
  intros d va G H. rewrite (process_uniform fl par (mk_view d va) (dot_img l) l ev pupa pd v); auto.
  - rewrite Hr. cbn [dot_img gi_nx]. now rewrite Rmult_1_r.
  - now apply mk_view_hemi_aspect.
  - apply dot_square.
  - reflexivity.
  - rewrite mk_view_hemi_va by exact H. unfold hemi_angle in H. lra.
  - cbn [dot_img gi_nx]. apply Rgt_not_eq, dot_seen; assumption.
Qed.
Lemma seen_value d va : regular_dir d -> hemi_angle va -> seen_omega (mk_view d va) 1 = 4 * sin (PI * (vscl d va / 2)) ^ 2.
Proof.
  intros G H. unfold seen_omega. rewrite one_ray, one_omega_value by assumption. unfold Rsumf. cbn [combine map Rsum fold_right fst snd].
  rewrite one_in_view by assumption. ring.
Qed.
Lemma seen_less d : regular_dir d -> 0 < seen_omega (mk_view d 90) 1 < seen_omega (mk_view d 180) 1.
Proof.
  intros G. assert (hemi_angle 90) as H9 by (unfold hemi_angle; lra). pose proof hemi_180 as H1. split; [now apply dot_seen|]. rewrite !seen_value by assumption.
  assert (vscl d 180 = 1) as ->. { unfold vscl. rewrite mk_view_hemi_va, chordfactor_180 by exact H1. field. }
  replace (PI * (1 / 2)) with (PI / 2) by field. rewrite sin_PI2.
  assert (0 < vscl d 90 <= 1 / 2) as V. { pose proof (vscl_range d 90 H9). unfold vscl in *. rewrite mk_view_hemi_va in * by exact H9. pose proof (chordfactor_bounds d 90 H9). lra. }
  pose proof PI_RGT_0 as P. assert (sin (PI * (vscl d 90 / 2)) < 1) as S1.
  { rewrite <- sin_PI2. apply sin_increasing_1; nra. }
  assert (0 < sin (PI * (vscl d 90 / 2))) as S0 by (apply sin_gt_0; nra). nra.
Qed.
Lemma first_view fl : filters_ok fl ->
  exists a b, a < b /\ own_score fl raw_par narrow (Some 100) = Ok a /\
    gss_compute fl raw_par [narrow; wide] (Some [100; 100]) = Ok [a; a] /\
    gss_compute fl raw_par [wide; narrow] (Some [100; 100]) = Ok [b; b].
Proof.
  intros F. assert (hemi_angle 90) as H9 by (unfold hemi_angle; lra). pose proof hemi_180 as H1. pose proof (proj1 regular_y) as Y.
  destruct (uniform_scores fl raw_par 1000 100 F) as (c & Hc & Hs); cbn [raw_par g_scale g_f g_age g_fwidth g_raw]; try lra; try reflexivity.
  { unfold hemi_angle. lra. }
  pose proof (Hs (V3 0 1 0) 90 Y H9) as E9. pose proof (Hs (V3 0 1 0) 180 Y H1) as E1.
  exists (pow0 (c * seen_omega (mk_view (V3 0 1 0) 90) 1) (1 / 4)), (pow0 (c * seen_omega (mk_view (V3 0 1 0) 180) 1) (1 / 4)).
  pose proof (seen_less (V3 0 1 0) Y) as L. split; [apply pow0_lt; [lra|split; nra]|]. split; [exact E9|].
  assert (forall va, hemi_angle va -> exists st, set_lum (g_scale raw_par) (gss_new (mk_view (V3 0 1 0) va)) (dot_img 1000) = (st, None) /\
    process_gss fl raw_par st (dot_img 1000) (Some 100) = process_gss fl raw_par (gss_new (mk_view (V3 0 1 0) va)) (dot_img 1000) (Some 100)) as St.
  { intros va H. pose proof (dot_accepted (V3 0 1 0) va 1000 179 Y H ltac:(lra)) as D. change 179 with (g_scale raw_par) in D.
    destruct (set_lum (g_scale raw_par) (gss_new (mk_view (V3 0 1 0) va)) (dot_img 1000)) as [st o] eqn:E. cbn [snd] in D. subst o. exists st. split; [reflexivity|].
    rewrite <- (process_same fl raw_par (mk_view (V3 0 1 0) va) [SetImage (dot_img 1000)] (dot_img 1000) (Some 100));
      [cbn [grun fold_left gstep]; now rewrite E|now apply mk_view_hemi_aspect|constructor; [apply dot_square|constructor]|apply dot_square]. }
  destruct (St 90 H9) as (s9 & A9 & P9). destruct (St 180 H1) as (s1 & A1 & P1). split.
  - unfold gss_compute, gss_init. cbn [narrow gf_view gf_img]. rewrite A9. cbn [bind map combine each fst snd narrow wide gf_img]. rewrite P9, E9. reflexivity.
  - unfold gss_compute, gss_init. cbn [wide gf_view gf_img]. rewrite A1. cbn [bind map combine each fst snd narrow wide gf_img]. rewrite P1, E1. reflexivity.
Qed.
Lemma good_wide : good_file wide.
Proof. split; [apply mk_view_hemi_aspect, hemi_180|]. split; [apply dot_square|]. now exists None. Qed.
Lemma same_files fl : filters_ok fl -> exists b, gss_compute fl raw_par [wide; wide] (Some [100; 100]) = Ok [b; b].
Proof.
  intros F. destruct (first_view fl F) as (a & b & _ & _ & _ & E). exists b. exact E.
Qed.
