(** Proofs about angular coordinates, chords, rotations, reflections *)
From Coq Require Import Lra Lia.
From Verif Require Import Base L_Base M_Translate S_Translate L_Concentric.
Local Open Scope R_scope.

(** ** elementary bounds *)
Lemma sin_ge_cubic x : 0 <= x <= 4 -> x - x * x * x / 6 <= sin x.
Proof.
  intros [H1 H2]. pose proof (pre_sin_bound x 0 H1 H2) as [H _].
  unfold sin_approx, sin_term in H; simpl in H. lra.
Qed.
Lemma sin_le_x x : 0 <= x -> sin x <= x.
Proof.
  intros H. destruct (Req_dec x 0) as [->|]; [rewrite sin_0; lra|]. left; apply sin_lt_x; lra.
Qed.
Lemma PI_gt_3 : 3 < PI.
Proof.
  pose proof (PI2_3_2) as H. unfold PI2 in H. lra.
Qed.
Lemma PI_le_4 : PI <= 4. Proof. exact PI_4. Qed.

Lemma sin2cos2 x : sin x * sin x + cos x * cos x = 1.
Proof. pose proof (sin2_cos2 x) as E; unfold Rsqr in E; exact E. Qed.

(** ** norm *)
Lemma norm_dot v : v <> vzero -> dot (norm v) (norm v) = 1.
Proof.
  intros H. pose proof (vnorm_pos v H). pose proof (vnorm_sqr v) as E.
  unfold norm, dot; simpl. unfold dot in E.
  replace (vx v / vnorm v * (vx v / vnorm v) + vy v / vnorm v * (vy v / vnorm v) + vz v / vnorm v * (vz v / vnorm v))
    with ((vx v * vx v + vy v * vy v + vz v * vz v) / (vnorm v * vnorm v)) by (field; lra).
  rewrite E. field. rewrite <- E; nra.
Qed.
Lemma norm_unit_id v : dot v v = 1 -> norm v = v.
Proof.
  intros H. apply vnorm_1 in H. unfold norm; rewrite H. apply vec3_ext; simpl; field.
Qed.
Lemma norm_scale_eq v : v <> vzero -> v = vscale (vnorm v) (norm v).
Proof. intros H; pose proof (vnorm_pos v H). apply vec3_ext; unfold norm, vscale; simpl; field; lra. Qed.
Lemma norm_scale k v : 0 < k -> v <> vzero -> norm (vscale k v) = norm v.
Proof.
  intros Hk Hv. pose proof (vnorm_pos v Hv). unfold norm. rewrite vnorm_scale, (Rabs_pos_eq k) by lra.
  apply vec3_ext; simpl; field; lra.
Qed.
Lemma unit_nonzero v : dot v v = 1 -> v <> vzero.
Proof. intros H ->; unfold dot, vzero in H; simpl in H; lra. Qed.
Lemma norm1_eq v : norm1 v = if Reqb (vnorm v) 0 then vzero else norm v.
Proof.
  unfold norm1, norm. change (sqrt (square (vx v) + square (vy v) + square (vz v))) with (vnorm v).
  case_Reqb (vnorm v) 0; [|reflexivity].
  assert (dot v v = 0) as H by (rewrite <- vnorm_sqr, E; ring).
  apply dot_zero in H; subst. unfold vzero; simpl. f_equal; field.
Qed.
Lemma norm1_nonzero v : v <> vzero -> norm1 v = norm v.
Proof. intros H; rewrite norm1_eq. pose proof (vnorm_pos v H). case_Reqb (vnorm v) 0; [lra|reflexivity]. Qed.
Lemma norm1_zero : norm1 vzero = vzero.
Proof.
  rewrite norm1_eq. case_Reqb (vnorm vzero) 0; [reflexivity|].
  exfalso; apply E. unfold vnorm, dot, vzero; simpl. replace (0*0+0*0+0*0) with 0 by ring. apply sqrt_0.
Qed.

(** ** theta/phi *)
Lemma tpnorm_id t p : 0 <= t < PI -> 0 <= p < 2 * PI -> tpnorm (t, p) = (t, p).
Proof.
  intros Ht Hp. pose proof PI_pos. unfold tpnorm; simpl.
  rewrite !Rmod_shift by lra. rewrite !Rmod_small by lra. reflexivity.
Qed.
Lemma tpnorm_range tp : 0 <= fst (tpnorm tp) < PI /\ 0 <= snd (tpnorm tp) < 2 * PI.
Proof. pose proof PI_pos. unfold tpnorm; simpl. split; apply Rmod_range; lra. Qed.
Lemma tpnorm_idem tp : tpnorm (tpnorm tp) = tpnorm tp.
Proof.
  destruct (tpnorm_range tp) as [H1 H2]. rewrite (surjective_pairing (tpnorm tp)) at 1.
  rewrite tpnorm_id by auto. rewrite <- surjective_pairing; reflexivity.
Qed.
Lemma tpnorm_pi p : fst (tpnorm (PI, p)) = 0.
Proof.
  pose proof PI_pos. unfold tpnorm; simpl. rewrite Rmod_shift by lra.
  replace PI with (0 + PI) at 1 by ring. rewrite Rmod_shift by lra. apply Rmod_small; lra.
Qed.

Definition sph (t p : R) : vec3 := V3 (sin t * cos p) (sin t * sin p) (cos t).
Lemma sph_unit t p : dot (sph t p) (sph t p) = 1.
Proof.
  unfold dot, sph; simpl. pose proof (sin2cos2 t). pose proof (sin2cos2 p).
  replace (_ + _ + _) with (sin t * sin t * (sin p * sin p + cos p * cos p) + cos t * cos t) by ring.
  rewrite H0; lra.
Qed.
Lemma tp2xyz_sph n tp : tp2xyz n tp = let q := if n then tpnorm tp else tp in sph (fst q) (snd q).
Proof.
  unfold tp2xyz. cbv zeta. fold (sph (fst (if n then tpnorm tp else tp)) (snd (if n then tpnorm tp else tp))).
  apply norm_unit_id, sph_unit.
Qed.
Lemma tp2xyz_unit n tp : vnorm (tp2xyz n tp) = 1.
Proof. rewrite tp2xyz_sph; apply vnorm_1, sph_unit. Qed.

Lemma sph_period t p (k : Z) : sph t (p + IZR k * (2 * PI)) = sph t p.
Proof.
  assert (S : sin (IZR k * (2 * PI)) = 0).
  { replace (IZR k * (2 * PI)) with (IZR (k * 2) * PI) by (rewrite mult_IZR; ring).
    apply sin_eq_0_1; exists (k * 2)%Z; reflexivity. }
  assert (C : cos (IZR k * (2 * PI)) = 1).
  { replace (IZR k * (2 * PI)) with (2 * (IZR k * PI)) by ring. rewrite cos_2a_sin.
    rewrite (sin_eq_0_1 (IZR k * PI)) by (exists k; reflexivity). ring. }
  unfold sph. rewrite cos_plus, sin_plus, S, C. apply vec3_ext; simpl; ring.
Qed.
Lemma tp2xyz_theta_phi t p : 0 <= t < PI -> tp2xyz true (t, p) = sph t p.
Proof.
  intros Ht. rewrite tp2xyz_sph; cbv zeta. unfold tpnorm; simpl. pose proof PI_pos.
  rewrite !Rmod_shift by lra. rewrite (Rmod_small t) by auto.
  destruct (Rmod_exists p (2 * PI)) as [k ->]; [lra|]. apply sph_period.
Qed.
Lemma tp2xyz_pi p : tp2xyz true (PI, p) = V3 0 0 1.
Proof.
  rewrite tp2xyz_sph; cbv zeta. rewrite tpnorm_pi. unfold sph. rewrite sin_0, cos_0.
  apply vec3_ext; simpl; ring.
Qed.


Lemma isclose_zero rt at_ x : isclose rt at_ x 0 = Rleb (Rabs x) at_.
Proof. unfold isclose. rewrite Rminus_0_r, Rabs_R0, Rmult_0_r, Rplus_0_r; reflexivity. Qed.

Lemma xyz2tp_eq v : dot v v = 1 ->
  xyz2tp v = tpnorm (acos (vz v),
    if Rleb (acos (vz v)) cap_top then PI
    else if Rleb (PI - cap_bot) (acos (vz v)) then PI else arctan2 (vy v) (vx v)).
Proof.
  intros H. unfold xyz2tp. rewrite isclose_zero. pose proof (acos_bound (vz v)) as Hb.
  pose proof PI_pos. rewrite (Rabs_pos_eq (acos (vz v))) by lra.
  f_equal. f_equal. unfold cap_top.
  destruct (Rleb (acos (vz v)) (/ 10 ^ 10)); [reflexivity|].
  unfold isclose. rewrite (Rabs_pos_eq PI) by lra.
  replace (Rabs (acos (vz v) - PI)) with (PI - acos (vz v)) by (rewrite Rabs_minus_sym, Rabs_pos_eq; lra).
  unfold rtol_default. fold cap_bot.
  case_Rleb (PI - acos (vz v)) cap_bot; case_Rleb (PI - cap_bot) (acos (vz v)); auto; lra.
Qed.

Lemma unit_z v : dot v v = 1 -> -1 <= vz v <= 1.
Proof. unfold dot; intros; split; nra. Qed.

Lemma unit_sin_acos v : dot v v = 1 ->
  sin (acos (vz v)) = sqrt (vx v * vx v + vy v * vy v).
Proof.
  intros H. rewrite sin_acos by (apply unit_z; auto). f_equal. unfold Rsqr, dot in *. lra.
Qed.

Lemma unit_sph v : dot v v = 1 -> sph (acos (vz v)) (arctan2 (vy v) (vx v)) = v.
Proof.
  intros H. unfold sph. rewrite unit_sin_acos, cos_acos by (auto using unit_z).
  destruct (arctan2_polar (vy v) (vx v)) as [E1 E2]. apply vec3_ext; simpl; auto.
Qed.

Lemma caps_small : 0 < cap_top < / 10 ^ 9 /\ cap_top < cap_bot /\ cap_bot < / 10 ^ 4.
Proof.
  unfold cap_top, cap_bot. pose proof PI_gt_3. pose proof PI_le_4. split; [|split]; lra.
Qed.

Lemma tp_roundtrip t p : cap_top < t -> t < PI - cap_bot -> 0 <= p < 2 * PI ->
  xyz2tp (tp2xyz true (t, p)) = (t, p).
Proof.
  intros Ht1 Ht2 Hp. pose proof caps_small as [C1 [C2 C3]]. pose proof PI_gt_3.
  rewrite tp2xyz_theta_phi by lra. rewrite xyz2tp_eq by apply sph_unit.
  unfold sph; simpl vx; simpl vy; simpl vz. rewrite acos_cos by lra.
  rcase; [lra|]. rcase; [lra|].
  assert (0 < sin t) by (apply sin_gt_0; lra).
  destruct (Rle_dec p PI).
  - rewrite arctan2_unique by lra. apply tpnorm_id; lra.
  - replace (sin p) with (sin (p - 2 * PI)) by (rewrite sin_minus, cos_2PI, sin_2PI; ring).
    replace (cos p) with (cos (p - 2 * PI)) by (rewrite cos_minus, cos_2PI, sin_2PI; ring).
    rewrite arctan2_unique by lra. unfold tpnorm; simpl.
    rewrite Rmod_shift, Rmod_small by lra.
    replace (p - 2 * PI + 2 * PI) with p by ring. rewrite Rmod_small by lra. reflexivity.
Qed.

(** inside the caps the azimuth comes back as pi *)
Lemma tp_roundtrip_cap t p : 0 < t < PI -> (t <= cap_top \/ PI - cap_bot <= t) ->
  xyz2tp (tp2xyz true (t, p)) = (t, PI).
Proof.
  intros Ht Hc. pose proof PI_pos.
  rewrite tp2xyz_theta_phi by lra. rewrite xyz2tp_eq by apply sph_unit.
  unfold sph; simpl vx; simpl vy; simpl vz. rewrite acos_cos by lra.
  assert (E : (if Rleb t cap_top then PI else if Rleb (PI - cap_bot) t then PI
     else arctan2 (sin t * sin p) (sin t * cos p)) = PI).
  { rcase; [reflexivity|]. rcase; [reflexivity|]. lra. }
  rewrite E. apply tpnorm_id; lra.
Qed.

Lemma acos_lt_PI z : -1 < z <= 1 -> acos z < PI.
Proof.
  intros H. rewrite <- (acos_opp 1), acos_1, Rminus_0_r || idtac.
  pose proof (acos_bound z) as [_ Hb]. destruct (Req_dec (acos z) PI) as [E|E]; [|lra].
  assert (cos (acos z) = cos PI) by (rewrite E; reflexivity). rewrite cos_acos, cos_PI in * by lra. lra.
Qed.

Lemma xyz_tp_general v : dot v v = 1 -> v <> V3 0 0 (-1) ->
  tp2xyz true (xyz2tp v) = sph (acos (vz v))
    (if Rleb (acos (vz v)) cap_top then PI
     else if Rleb (PI - cap_bot) (acos (vz v)) then PI else arctan2 (vy v) (vx v)).
Proof.
  intros H Hv. rewrite xyz2tp_eq by auto.
  set (p := if Rleb _ _ then _ else _). clearbody p.
  assert (Hz : -1 < vz v).
  { pose proof (unit_z v H). destruct (Req_dec (vz v) (-1)) as [E|]; [|lra].
    exfalso; apply Hv. unfold dot in H. destruct v as [x y z]; simpl in *; subst z.
    assert (x = 0) by nra. assert (y = 0) by nra. subst; reflexivity. }
  pose proof (acos_lt_PI (vz v)) as Hl. pose proof (unit_z v H). specialize (Hl ltac:(lra)).
  pose proof (acos_bound (vz v)).
  rewrite tp2xyz_sph; cbv zeta; cbv iota. rewrite tpnorm_idem.
  unfold tpnorm; simpl. pose proof PI_pos.
  rewrite !Rmod_shift by lra. rewrite (Rmod_small (acos (vz v))) by lra.
  destruct (Rmod_exists p (2 * PI)) as [k ->]; [lra|]. apply sph_period.
Qed.

Lemma xyz_tp_roundtrip v : dot v v = 1 -> cap_top < acos (vz v) < PI - cap_bot ->
  tp2xyz true (xyz2tp v) = v.
Proof.
  intros H [H1 H2]. rewrite xyz_tp_general; auto.
  - rcase; [lra|]. rcase; [lra|]. apply unit_sph; auto.
  - intros ->; simpl in H2. replace (-1) with (- (1)) in H2 by ring.
    rewrite acos_opp, acos_1 in H2. pose proof caps_small; lra.
Qed.
Lemma xyz_tp_roundtrip_z : tp2xyz true (xyz2tp (V3 0 0 1)) = V3 0 0 1.
Proof.
  rewrite xyz_tp_general; [|unfold dot; simpl; ring|intros E; inversion E; lra].
  simpl vz. rewrite acos_1. unfold sph. rewrite sin_0, cos_0. apply vec3_ext; simpl; ring.
Qed.
Lemma xyz_tp_nadir : tp2xyz true (xyz2tp (V3 0 0 (-1))) = V3 0 0 1.
Proof.
  rewrite xyz2tp_eq by (unfold dot; simpl; ring). simpl vz.
  replace (-1) with (- (1)) by ring. rewrite acos_opp, acos_1, Rminus_0_r.
  rewrite tp2xyz_sph; cbv zeta; cbv iota. rewrite tpnorm_idem.
  rewrite tpnorm_pi. unfold sph; rewrite sin_0, cos_0. apply vec3_ext; simpl; ring.
Qed.
(** residual inside the caps *)
Lemma sph_dist t p q : vnorm (vsub (sph t p) (sph t q)) <= 2 * Rabs (sin t).
Proof.
  assert (E : dot (vsub (sph t p) (sph t q)) (vsub (sph t p) (sph t q)) = sin t * sin t * (2 - 2 * cos (p - q))).
  { unfold dot, vsub, sph; simpl. rewrite cos_minus. pose proof (sin2cos2 p). pose proof (sin2cos2 q). nra. }
  unfold vnorm. rewrite E.
  assert (0 <= Rabs (sin t)) by apply Rabs_pos.
  replace (2 * Rabs (sin t)) with (sqrt ((2 * Rabs (sin t)) * (2 * Rabs (sin t)))) by (apply sqrt_square; lra).
  assert (EA : Rabs (sin t) * Rabs (sin t) = sin t * sin t) by (rewrite <- Rabs_mult; apply Rabs_pos_eq; nra).
  pose proof (COS_bound (p - q)).
  apply sqrt_le_1; [nra| nra |].
  replace (2 * Rabs (sin t) * (2 * Rabs (sin t))) with (4 * (sin t * sin t)) by (rewrite <- EA; ring).
  nra.
Qed.
Lemma sin_cap_bound t : 0 <= t <= PI -> t <= cap_top \/ PI - cap_bot <= t -> 0 <= sin t <= cap_bot.
Proof.
  intros Ht Hc. pose proof caps_small. split; [apply sin_ge_0; lra|].
  destruct Hc.
  - pose proof (sin_le_x t); lra.
  - rewrite <- Rtrigo_facts.sin_pi_minus. pose proof (sin_le_x (PI - t)); lra.
Qed.
Lemma xyz_tp_residual v : dot v v = 1 -> v <> V3 0 0 (-1) ->
  vnorm (vsub (tp2xyz true (xyz2tp v)) v) <= 2 * cap_bot.
Proof.
  intros H Hv. pose proof caps_small as C. pose proof (acos_bound (vz v)) as Hb.
  destruct (Rle_dec (acos (vz v)) cap_top) as [L|L].
  2: destruct (Rle_dec (PI - cap_bot) (acos (vz v))) as [L'|L'].
  1,2: rewrite xyz_tp_general by auto; set (p := if Rleb _ _ then _ else _);
       pose proof (sph_dist (acos (vz v)) p (arctan2 (vy v) (vx v))) as D; rewrite (unit_sph v H) in D;
       eapply Rle_trans; [exact D|];
       pose proof (sin_cap_bound (acos (vz v)) Hb ltac:(auto));
       rewrite Rabs_pos_eq; lra.
  rewrite xyz_tp_roundtrip by (auto; lra).
  replace (vsub v v) with vzero by (apply vec3_ext; unfold vsub; simpl; ring).
  unfold vnorm, dot, vzero; simpl. replace (0*0+0*0+0*0) with 0 by ring. rewrite sqrt_0; lra.
Qed.

(** ** altitude / azimuth *)
Lemma aa2xyz_unit aa : vnorm (aa2xyz aa) = 1.
Proof. apply tp2xyz_unit. Qed.

Lemma xyz2aa_eq v : xyz2aa v =
  ((PI / 2 - fst (xyz2tp v)) * (180 / PI), (3 * PI / 2 - snd (xyz2tp v)) * (180 / PI)).
Proof. pose proof PI_pos. unfold xyz2aa; simpl. apply pair_eq; field; lra. Qed.

Lemma aa_xyz_roundtrip_gen v : aa2xyz (xyz2aa v) = tp2xyz true (xyz2tp v).
Proof.
  pose proof PI_pos. unfold aa2xyz. rewrite xyz2aa_eq; cbn [fst snd].
  replace (PI / 2 - (PI / 2 - fst (xyz2tp v)) * (180 / PI) * PI / 180) with (fst (xyz2tp v)) by (field; lra).
  replace (PI / 2 - (3 * PI / 2 - snd (xyz2tp v)) * (180 / PI) * PI / 180 + PI) with (snd (xyz2tp v)) by (field; lra).
  rewrite <- surjective_pairing; reflexivity.
Qed.


Lemma aa_roundtrip alt az : -90 + aa_cap_bot < alt < 90 - aa_cap_top -> -90 < az <= 270 ->
  xyz2aa (aa2xyz (alt, az)) = (alt, az).
Proof.
  intros [Ha1 Ha2] Hz. pose proof PI_pos as HP. pose proof caps_small as C.
  assert (K : forall x y, x < y <-> x * (PI / 180) < y * (PI / 180)).
  { intros x y. split; intros; nra. }
  assert (HPI : 0 < PI / 180) by lra.
  unfold aa_cap_top, aa_cap_bot in *.
  apply K in Ha1. apply K in Ha2.
  replace ((-90 + cap_bot * (180 / PI)) * (PI / 180)) with (- (PI / 2) + cap_bot) in Ha1 by (field; lra).
  replace ((90 - cap_top * (180 / PI)) * (PI / 180)) with (PI / 2 - cap_top) in Ha2 by (field; lra).
  rewrite xyz2aa_eq. unfold aa2xyz; cbn [fst snd].
  set (t := PI / 2 - alt * PI / 180). set (p := PI / 2 - az * PI / 180 + PI).
  assert (Ht : cap_top < t /\ t < PI - cap_bot) by (unfold t; lra).
  assert (Hp : 0 <= p < 2 * PI).
  { unfold p. destruct Hz as [Z1 Z2]. assert (az * (PI / 180) <= 270 * (PI / 180)) by nra.
    assert (-90 * (PI / 180) < az * (PI / 180)) by nra. lra. }
  destruct Ht as [Ht1 Ht2].
  rewrite tp_roundtrip by auto. simpl. unfold t, p. apply pair_eq; field; lra.
Qed.
Lemma aa_roundtrip_west alt az : -90 + aa_cap_bot < alt < 90 - aa_cap_top -> -450 < az <= -90 ->
  xyz2aa (aa2xyz (alt, az)) = (alt, az + 360).
Proof.
  intros Ha Hz. rewrite <- (aa_roundtrip alt (az + 360)) by (auto; lra). f_equal.
  unfold aa2xyz; simpl. rewrite !tp2xyz_sph; cbv zeta; cbv iota. f_equal.
  unfold tpnorm; cbn [fst snd]. rewrite !Rmod_shift by (pose proof PI_pos; lra).
  replace (PI / 2 - az * PI / 180 + PI) with (PI / 2 - (az + 360) * PI / 180 + PI + 2 * PI) by field.
  rewrite Rmod_shift by (pose proof PI_pos; lra). reflexivity.
Qed.
Lemma aa2xyz_nadir az : aa2xyz (-90, az) = V3 0 0 1.
Proof.
  unfold aa2xyz; simpl. replace (PI / 2 - -90 * PI / 180) with PI by field. apply tp2xyz_pi.
Qed.

(** ** chords and angles *)
Lemma chord_theta t : 0 <= t <= PI -> chord2theta (theta2chord t) = t.
Proof.
  intros H. unfold chord2theta, theta2chord. replace (2 * sin (t / 2) / 2) with (sin (t / 2)) by field.
  rewrite asin_sin by lra. field.
Qed.
Lemma theta_chord c : -2 <= c <= 2 -> theta2chord (chord2theta c) = c.
Proof.
  intros H. unfold chord2theta, theta2chord. replace (2 * asin (c / 2) / 2) with (asin (c / 2)) by field.
  rewrite sin_asin by lra. field.
Qed.
Lemma ctheta_range a b : -1 <= ctheta a b <= 1.
Proof.
  unfold ctheta, clip. split.
  - apply Rmin_glb; [apply Rmax_r|lra].
  - apply Rmin_r.
Qed.
Lemma ctheta_unit a b : dot a a = 1 -> dot b b = 1 -> ctheta a b = dot a b.
Proof.
  intros Ha Hb. pose proof (dot_unit_bound a b Ha Hb). unfold ctheta, clip.
  rewrite Rmax_left, Rmin_left; lra.
Qed.
Lemma radians_range a b : 0 <= radians a b <= PI.
Proof. apply acos_bound. Qed.
Lemma ctheta_sym a b : ctheta a b = ctheta b a.
Proof. unfold ctheta; rewrite dot_sym; reflexivity. Qed.
Lemma cos_radians a b : cos (radians a b) = ctheta a b.
Proof. unfold radians; apply cos_acos, ctheta_range. Qed.
Lemma radians_zero a b : dot a a = 1 -> dot b b = 1 -> radians a b = 0 <-> a = b.
Proof.
  intros Ha Hb. split.
  - intros E. assert (H : cos (radians a b) = 1) by (rewrite E; apply cos_0).
    rewrite cos_radians, ctheta_unit in H by auto.
    assert (K : dot (vsub a b) (vsub a b) = 0).
    { replace (dot (vsub a b) (vsub a b)) with (dot a a + dot b b - 2 * dot a b) by (unfold dot, vsub; simpl; ring). lra. }
    apply dot_zero in K. destruct a, b; unfold vsub, vzero in K; simpl in K; inversion K. apply vec3_ext; simpl; lra.
  - intros <-. unfold radians. rewrite ctheta_unit, Ha by auto. apply acos_1.
Qed.
Lemma radians_pi a b : dot a a = 1 -> dot b b = 1 -> radians a b = PI <-> a = vopp b.
Proof.
  intros Ha Hb. split.
  - intros E. assert (H : cos (radians a b) = -1) by (rewrite E; apply cos_PI).
    rewrite cos_radians, ctheta_unit in H by auto.
    assert (K : dot (vadd a b) (vadd a b) = 0).
    { replace (dot (vadd a b) (vadd a b)) with (dot a a + dot b b + 2 * dot a b) by (unfold dot, vadd; simpl; ring). lra. }
    apply dot_zero in K. destruct a, b; unfold vadd, vzero in K; simpl in K; inversion K. apply vec3_ext; simpl; lra.
  - intros ->. unfold radians. assert (dot (vopp b) (vopp b) = 1) by (unfold dot, vopp in *; simpl; lra).
    rewrite ctheta_unit by auto.
    replace (dot (vopp b) b) with (-1) by (unfold dot, vopp in *; simpl; lra).
    replace (-1) with (- (1)) by ring. rewrite acos_opp, acos_1; ring.
Qed.
Lemma degrees_range a b : 0 <= degrees a b <= 180.
Proof.
  unfold degrees. pose proof (radians_range a b). pose proof PI_pos.
  assert (radians a b * 180 / PI = radians a b / PI * 180) as -> by (field; lra).
  assert (0 <= radians a b / PI <= 1).
  { split; [apply Rmult_le_pos; [lra|left; apply Rinv_0_lt_compat; lra]|].
    apply Rmult_le_reg_r with PI; [lra|]. field_simplify; lra. }
  lra.
Qed.
Lemma chord_distance a b : dot a a = 1 -> dot b b = 1 -> theta2chord (radians a b) = vnorm (vsub a b).
Proof.
  intros Ha Hb. unfold theta2chord, vnorm. pose proof (radians_range a b).
  symmetry. apply sqrt_lem_1.
  - apply dot_nonneg.
  - assert (0 <= sin (radians a b / 2)) by (apply sin_ge_0; lra). lra.
  - replace (dot (vsub a b) (vsub a b)) with (dot a a + dot b b - 2 * dot a b) by (unfold dot, vsub; simpl; ring).
    rewrite <- (ctheta_unit a b), <- cos_radians by auto. rewrite Ha, Hb.
    replace (radians a b) with (2 * (radians a b / 2)) at 3 by field.
    rewrite cos_2a_sin; ring.
Qed.

(** ** reflection *)
Lemma reflect1_eq ray n : fst (reflect1 ray n) = vsub ray (vscale (2 * dot ray n) n).
Proof. reflexivity. Qed.
Lemma reflect_dot a b n : dot n n = 1 ->
  dot (fst (reflect1 a n)) (fst (reflect1 b n)) = dot a b.
Proof.
  intros H. rewrite !reflect1_eq. unfold vsub, vscale.
  assert (E : forall s t, dot (V3 (vx a - s * vx n) (vy a - s * vy n) (vz a - s * vz n))
        (V3 (vx b - t * vx n) (vy b - t * vy n) (vz b - t * vz n)) = dot a b - t * dot a n - s * dot b n + s * t * dot n n).
  { intros; unfold dot; simpl; ring. }
  simpl. rewrite E, H. ring.
Qed.
Lemma reflect_invol a n : dot n n = 1 -> fst (reflect1 (fst (reflect1 a n)) n) = a.
Proof.
  intros H. rewrite !reflect1_eq.
  assert (E : dot (vsub a (vscale (2 * dot a n) n)) n = - dot a n).
  { replace (dot (vsub a (vscale (2 * dot a n) n)) n) with (dot a n - 2 * dot a n * dot n n) by (unfold dot, vsub, vscale; simpl; ring).
    rewrite H; ring. }
  rewrite E. apply vec3_ext; unfold vsub, vscale; simpl; ring.
Qed.
Lemma reflect_valid a n : dot n n = 1 -> dot a a = 1 -> snd (reflect1 a n) = true.
Proof.
  intros Hn Ha. unfold reflect1; cbn [snd].
  assert (E : vnorm (vsub a (vscale (2 * dot a n) n)) = 1).
  { apply vnorm_1. rewrite <- reflect1_eq, reflect_dot; auto. }
  rewrite E. unfold isclose. replace (1 - 1) with 0 by ring. rewrite Rabs_R0.
  apply Rleb_true. rewrite Rabs_R1. unfold atol_default, rtol_default. lra.
Qed.
Lemma reflect_perp a n : dot a n = 0 -> fst (reflect1 a n) = a.
Proof. intros H. rewrite reflect1_eq, H. apply vec3_ext; unfold vsub, vscale; simpl; ring. Qed.
Lemma reflect_normal n : dot n n = 1 -> fst (reflect1 n n) = vopp n.
Proof. intros H. rewrite reflect1_eq, H. apply vec3_ext; unfold vsub, vscale, vopp; simpl; ring. Qed.

(** ** rotations *)
Definition orthogonal (m : mat3) : Prop :=
  dot (r0 m) (r0 m) = 1 /\ dot (r1 m) (r1 m) = 1 /\ dot (r2 m) (r2 m) = 1 /\
  dot (r0 m) (r1 m) = 0 /\ dot (r0 m) (r2 m) = 0 /\ dot (r1 m) (r2 m) = 0.

Lemma mat3_ext a b : r0 a = r0 b -> r1 a = r1 b -> r2 a = r2 b -> a = b.
Proof. destruct a, b; simpl; intros; subst; reflexivity. Qed.
Ltac vred := repeat (cbn [vx vy vz r0 r1 r2 mmulv mmul mtrans col vget fst snd]; unfold mid, dot, mmulv, mmul, mtrans, col); cbn [vx vy vz r0 r1 r2 vget fst snd].
Ltac vring := apply vec3_ext; vred; ring.
Ltac mat_eq := apply mat3_ext; apply vec3_ext; vred.

Lemma rotation_dot m v w : rotation m -> dot (mmulv m v) (mmulv m w) = dot v w.
Proof.
  intros [H _]. rewrite mtrans_dot, <- mmul_assoc_v, H, mmulv_id. reflexivity.
Qed.
Lemma rotation_inv_l m v : rotation m -> mmulv (mtrans m) (mmulv m v) = v.
Proof. intros [H _]. rewrite <- mmul_assoc_v, H, mmulv_id. reflexivity. Qed.
Lemma rotation_inv_r m v : rotation m -> mmulv m (mmulv (mtrans m) v) = v.
Proof. intros [_ [H _]]. rewrite <- mmul_assoc_v, H, mmulv_id. reflexivity. Qed.
Lemma mtrans_invol m : mtrans (mtrans m) = m.
Proof. destruct m as [[? ? ?] [? ? ?] [? ? ?]]; reflexivity. Qed.
Lemma mdet_trans m : mdet (mtrans m) = mdet m.
Proof. destruct m as [[? ? ?] [? ? ?] [? ? ?]]; unfold mdet, mtrans, col; simpl; ring. Qed.
Lemma rotation_trans m : rotation m -> rotation (mtrans m).
Proof. intros [H1 [H2 H3]]. unfold rotation. rewrite mtrans_invol, mdet_trans. auto. Qed.

Lemma rotation_z c s : s * s + c * c = 1 -> rotation (M3 (V3 c (- s) 0) (V3 s c 0) (V3 0 0 1)).
Proof.
  intros H. split; [|split].
  - mat_eq; lra.
  - mat_eq; lra.
  - unfold mdet; simpl; lra.
Qed.
Lemma rotation_x c s : s * s + c * c = 1 -> rotation (M3 (V3 1 0 0) (V3 0 c (- s)) (V3 0 s c)).
Proof.
  intros H. split; [|split].
  - mat_eq; lra.
  - mat_eq; lra.
  - unfold mdet; simpl; lra.
Qed.
Lemma rotation_y c s : s * s + c * c = 1 -> rotation (M3 (V3 c 0 s) (V3 0 1 0) (V3 (- s) 0 c)).
Proof.
  intros H. split; [|split].
  - mat_eq; lra.
  - mat_eq; lra.
  - unfold mdet; simpl; lra.
Qed.
Lemma rotation_id : rotation mid.
Proof. split; [|split]; [mat_eq; ring|mat_eq; ring|unfold mdet; simpl; ring]. Qed.

Definition rad_of (theta : R) (deg : bool) : R := if deg then theta * PI / 180 else theta.
Lemma rmtx_elem_2 t d : rmtx_elem t 2 d =
  M3 (V3 (cos (rad_of t d)) (- sin (rad_of t d)) 0) (V3 (sin (rad_of t d)) (cos (rad_of t d)) 0) (V3 0 0 1).
Proof. destruct d; reflexivity. Qed.
Lemma rmtx_elem_0 t d : rmtx_elem t 0 d =
  M3 (V3 1 0 0) (V3 0 (cos (rad_of t d)) (- sin (rad_of t d))) (V3 0 (sin (rad_of t d)) (cos (rad_of t d))).
Proof. destruct d; reflexivity. Qed.
Lemma rmtx_elem_1 t d : rmtx_elem t 1 d =
  M3 (V3 (cos (rad_of t d)) 0 (sin (rad_of t d))) (V3 0 1 0) (V3 (- sin (rad_of t d)) 0 (cos (rad_of t d))).
Proof. destruct d; reflexivity. Qed.

Lemma axis_cases axis : (0 <= axis <= 2)%Z -> axis = 0%Z \/ axis = 1%Z \/ axis = 2%Z.
Proof. lia. Qed.

Lemma rmtx_elem_rotation t axis d : (0 <= axis <= 2)%Z -> rotation (rmtx_elem t axis d).
Proof.
  intros H; destruct (axis_cases axis H) as [->|[->| ->]].
  - rewrite rmtx_elem_0; apply rotation_x, sin2cos2.
  - rewrite rmtx_elem_1; apply rotation_y, sin2cos2.
  - rewrite rmtx_elem_2; apply rotation_z, sin2cos2.
Qed.
Lemma rad_of_plus s t d : rad_of (s + t) d = rad_of s d + rad_of t d.
Proof. destruct d; simpl; field. Qed.
Lemma rotate_elem_add v s t axis d : (0 <= axis <= 2)%Z ->
  rotate_elem (rotate_elem v s axis d) t axis d = rotate_elem v (s + t) axis d.
Proof.
  intros H; destruct (axis_cases axis H) as [->|[->| ->]]; unfold rotate_elem;
    repeat (rewrite rmtx_elem_0 || rewrite rmtx_elem_1 || rewrite rmtx_elem_2);
    rewrite rad_of_plus, cos_plus, sin_plus;
    vring.
Qed.
Lemma rotate_elem_zero v axis d : (0 <= axis <= 2)%Z -> rotate_elem v 0 axis d = v.
Proof.
  intros H. assert (E : rad_of 0 d = 0) by (destruct d; simpl; field).
  destruct (axis_cases axis H) as [->|[->| ->]]; unfold rotate_elem;
    rewrite ?rmtx_elem_0, ?rmtx_elem_1, ?rmtx_elem_2, E, cos_0, sin_0;
    vring.
Qed.
Lemma rotate_elem_axis t axis d k : (0 <= axis <= 2)%Z ->
  rotate_elem (vscale k (unit_axis axis)) t axis d = vscale k (unit_axis axis).
Proof.
  intros H; destruct (axis_cases axis H) as [->|[->| ->]]; unfold rotate_elem;
    rewrite ?rmtx_elem_0, ?rmtx_elem_1, ?rmtx_elem_2;
    unfold unit_axis, vscale; cbn [Z.eqb Pos.eqb]; vring.
Qed.

(** ** rmtx_yp *)
Lemma rmtx_yp_rotation v : rotation (fst (rmtx_yp v)) /\ rotation (snd (rmtx_yp v)).
Proof.
  unfold rmtx_yp; cbv zeta; cbn [fst snd]. split.
  - destruct (vclose (norm v) (vopp (V3 0 0 1))).
    + pose proof (rotation_z (-1) 0 ltac:(ring)) as R. rewrite Ropp_0 in R. exact R.
    + destruct (vclose (norm v) (V3 0 0 1)); [apply rotation_id|].
      unfold mtrans, col; simpl. apply rotation_z, sin2cos2.
  - destruct (vclose (norm v) (vopp (V3 0 0 1))).
    + pose proof (rotation_x (-1) 0 ltac:(ring)) as R. rewrite Ropp_0 in R. exact R.
    + destruct (vclose (norm v) (V3 0 0 1)); [apply rotation_id|].
      unfold mtrans, col; simpl. apply rotation_x, sin2cos2.
Qed.

Lemma yp_forward_backward m v : rotation (fst m) -> rotation (snd m) ->
  yp_backward m (yp_forward m v) = v /\ yp_forward m (yp_backward m v) = v.
Proof.
  intros H1 H2. unfold yp_forward, yp_backward. split.
  - rewrite (rotation_inv_l (snd m)) by auto. apply rotation_inv_l; auto.
  - rewrite (rotation_inv_r (fst m)) by auto. apply rotation_inv_r; auto.
Qed.
Lemma yp_forward_dot m v w : rotation (fst m) -> rotation (snd m) ->
  dot (yp_forward m v) (yp_forward m w) = dot v w.
Proof. intros; unfold yp_forward; rewrite !rotation_dot; auto. Qed.

Lemma vclose_false_x a b : atol_default + rtol_default * Rabs (vx b) < Rabs (vx a - vx b) -> vclose a b = false.
Proof. intros H. unfold vclose, isclose. assert (Rleb (Rabs (vx a - vx b)) (atol_default + rtol_default * Rabs (vx b)) = false) as ->. { apply Rleb_false; lra. } reflexivity. Qed.
Lemma vclose_false_y a b : atol_default + rtol_default * Rabs (vy b) < Rabs (vy a - vy b) -> vclose a b = false.
Proof. intros H. unfold vclose, isclose. assert (Rleb (Rabs (vy a - vy b)) (atol_default + rtol_default * Rabs (vy b)) = false) as ->. { apply Rleb_false; lra. } rewrite andb_false_r; reflexivity. Qed.
Lemma vclose_false_xy a z : atol_default < Rmax (Rabs (vx a)) (Rabs (vy a)) -> vclose a (V3 0 0 z) = false.
Proof.
  intros H. destruct (Rle_dec (Rabs (vx a)) (Rabs (vy a))).
  - rewrite Rmax_right in H by lra. apply vclose_false_y; simpl. rewrite Rabs_R0, Rminus_0_r; lra.
  - rewrite Rmax_left in H by lra. apply vclose_false_x; simpl. rewrite Rabs_R0, Rminus_0_r; lra.
Qed.
Lemma vopp_z : vopp (V3 0 0 1) = V3 0 0 (-1).
Proof. unfold vopp; simpl. f_equal; ring. Qed.

(** the matrices away from the special cases, in terms of theta, phi *)
Lemma rmtx_yp_generic v : vclose (norm v) (V3 0 0 1) = false -> vclose (norm v) (V3 0 0 (-1)) = false ->
  let t := fst (xyz2tp (norm v)) in let p := snd (xyz2tp (norm v)) in
  rmtx_yp v = (M3 (V3 (- sin p) (cos p) 0) (V3 (- cos p) (- sin p) 0) (V3 0 0 1),
               M3 (V3 1 0 0) (V3 0 (cos t) (sin t)) (V3 0 (- sin t) (cos t))).
Proof.
  intros H1 H2. unfold rmtx_yp; cbv zeta. rewrite vopp_z, H1, H2.
  set (p := snd (xyz2tp (norm v))). set (t := fst (xyz2tp (norm v))).
  assert (C : cos (3 * PI / 2 - p) = - sin p).
  { replace (3 * PI / 2 - p) with (PI / 2 - p + PI) by field. rewrite neg_cos, cos_shift; reflexivity. }
  assert (S : sin (3 * PI / 2 - p) = - cos p).
  { replace (3 * PI / 2 - p) with (PI / 2 - p + PI) by field. rewrite neg_sin, sin_shift; reflexivity. }
  rewrite C, S, cos_neg, sin_neg. unfold mtrans, col; simpl.
  f_equal; apply mat3_ext; apply vec3_ext; simpl; ring.
Qed.

Lemma yp_generic_image t p w :
  yp_forward (M3 (V3 (- sin p) (cos p) 0) (V3 (- cos p) (- sin p) 0) (V3 0 0 1),
              M3 (V3 1 0 0) (V3 0 (cos t) (sin t)) (V3 0 (- sin t) (cos t))) w =
  V3 (- sin p * vx w + cos p * vy w)
     (cos t * (- cos p * vx w - sin p * vy w) + sin t * vz w)
     (- sin t * (- cos p * vx w - sin p * vy w) + cos t * vz w).
Proof. unfold yp_forward; vring. Qed.

Lemma yp_generic_sph t p q :
  yp_forward (M3 (V3 (- sin p) (cos p) 0) (V3 (- cos p) (- sin p) 0) (V3 0 0 1),
              M3 (V3 1 0 0) (V3 0 (cos t) (sin t)) (V3 0 (- sin t) (cos t))) (sph t q) =
  V3 (sin t * sin (q - p)) (cos t * sin t * (1 - cos (q - p))) (1 - sin t * sin t * (1 - cos (q - p))).
Proof.
  rewrite yp_generic_image. unfold sph; simpl. rewrite sin_minus, cos_minus.
  pose proof (sin2cos2 t) as Et. apply vec3_ext; simpl; [ring|ring|].
  replace (cos t * cos t) with (1 - sin t * sin t) by lra. ring.
Qed.

Lemma xyz2tp_trig v : dot v v = 1 -> v <> V3 0 0 (-1) ->
  let p := if Rleb (acos (vz v)) cap_top then PI
     else if Rleb (PI - cap_bot) (acos (vz v)) then PI else arctan2 (vy v) (vx v) in
  fst (xyz2tp v) = acos (vz v) /\ sin (snd (xyz2tp v)) = sin p /\ cos (snd (xyz2tp v)) = cos p.
Proof.
  intros H Hv p. rewrite xyz2tp_eq by auto. fold p. clearbody p.
  assert (Hz : -1 < vz v).
  { pose proof (unit_z v H). destruct (Req_dec (vz v) (-1)) as [E|]; [|lra].
    exfalso; apply Hv. unfold dot in H. destruct v as [x y z]; simpl in *; subst z.
    assert (x = 0) by nra. assert (y = 0) by nra. subst; reflexivity. }
  pose proof (unit_z v H). pose proof (acos_lt_PI (vz v) ltac:(lra)) as Hl.
  pose proof (acos_bound (vz v)). pose proof PI_pos.
  unfold tpnorm; cbn [fst snd]. rewrite !Rmod_shift by lra. rewrite (Rmod_small (acos (vz v))) by lra.
  destruct (Rmod_exists p (2 * PI)) as [k ->]; [lra|].
  pose proof (sph_period (PI / 2) p k) as E. unfold sph in E. rewrite sin_PI2, !Rmult_1_l in E.
  inversion E. auto.
Qed.

(** exact mapping outside the polar caps *)
Lemma rmtx_yp_exact v : v <> vzero ->
  atol_default < Rmax (Rabs (vx (norm v))) (Rabs (vy (norm v))) ->
  acos (vz (norm v)) < PI - cap_bot ->
  yp_forward (rmtx_yp v) (norm v) = V3 0 0 1 /\
  vx (yp_forward (rmtx_yp v) (V3 0 0 1)) = 0 /\ 0 < vy (yp_forward (rmtx_yp v) (V3 0 0 1)).
Proof.
  intros Hv Hxy Ht. set (w := norm v) in *.
  assert (Hw : dot w w = 1) by (apply norm_dot; auto).
  pose proof (acos_bound (vz w)) as Hb. pose proof caps_small as C.
  assert (Hsin : atol_default < sin (acos (vz w))).
  { rewrite unit_sin_acos by auto. eapply Rlt_le_trans; [exact Hxy|].
    apply Rmax_lub.
    - rewrite <- (sqrt_Rsqr_abs (vx w)). apply sqrt_le_1; unfold Rsqr; nra.
    - rewrite <- (sqrt_Rsqr_abs (vy w)). apply sqrt_le_1; unfold Rsqr; nra. }
  assert (Htop : cap_top < acos (vz w)).
  { pose proof (sin_le_x (acos (vz w)) ltac:(lra)). unfold atol_default, cap_top in *. lra. }
  assert (Hn : w <> V3 0 0 (-1)).
  { intros E; rewrite E in Hxy; simpl in Hxy. rewrite Rabs_R0, Rmax_left in Hxy by lra. unfold atol_default in Hxy; lra. }
  pose proof (xyz2tp_trig w Hw Hn) as [T1 [T2 T3]]. cbv zeta in T2, T3.
  assert (Rleb (acos (vz w)) cap_top = false) as F1 by (apply Rleb_false; lra).
  assert (Rleb (PI - cap_bot) (acos (vz w)) = false) as F2 by (apply Rleb_false; lra).
  rewrite F1, F2 in T2, T3.
  rewrite rmtx_yp_generic by (apply vclose_false_xy; auto). cbv zeta. fold w.
  rewrite T1, T2, T3. split; [|split].
  - pose proof (yp_generic_sph (acos (vz w)) (arctan2 (vy w) (vx w)) (arctan2 (vy w) (vx w))) as G.
    rewrite (unit_sph w Hw) in G. rewrite G.
    rewrite Rminus_eq_0, sin_0, cos_0. apply vec3_ext; simpl; ring.
  - rewrite yp_generic_image; simpl; ring.
  - rewrite yp_generic_image; cbn [vx vy vz].
    assert (Hs0 : 0 < sin (acos (vz w))) by (unfold atol_default in Hsin; lra).
    revert Hs0. generalize (sin (acos (vz w))). intros sn Hs0. rewrite !Rmult_0_r, Rmult_1_r. lra.
Qed.

Lemma vclose_true_bound a z : vclose a (V3 0 0 z) = true -> Rabs (vx a) <= atol_default /\ Rabs (vy a) <= atol_default
   /\ Rabs (vz a - z) <= atol_default + rtol_default * Rabs z.
Proof.
  unfold vclose, isclose; simpl. rewrite Rabs_R0, !Rminus_0_r, Rmult_0_r, Rplus_0_r.
  intros H. apply andb_prop in H; destruct H as [H1 H3]. apply andb_prop in H1; destruct H1 as [H1 H2].
  apply Rleb_true in H1, H2, H3. auto.
Qed.

(** everywhere: the image of v is within a fixed small angle of z *)
Lemma rmtx_yp_everywhere v : v <> vzero ->
  1 - / 10 ^ 7 <= vz (yp_forward (rmtx_yp v) (norm v)).
Proof.
  intros Hv. set (w := norm v) in *.
  assert (Hw : dot w w = 1) by (apply norm_dot; auto).
  assert (small : forall x y z, x * x + y * y + z * z = 1 -> Rabs x <= atol_default -> Rabs y <= atol_default -> 0 <= z -> 1 - / 10 ^ 7 <= z).
  { intros x y z E Hx Hy Hz. unfold atol_default in *.
    assert (x * x <= / 10 ^ 8 * / 10 ^ 8).
    { replace (x * x) with (Rabs x * Rabs x) by (rewrite <- Rabs_mult; apply Rabs_pos_eq; nra). pose proof (Rabs_pos x). nra. }
    assert (y * y <= / 10 ^ 8 * / 10 ^ 8).
    { replace (y * y) with (Rabs y * Rabs y) by (rewrite <- Rabs_mult; apply Rabs_pos_eq; nra). pose proof (Rabs_pos y). nra. }
    assert (z <= 1) by nra. nra. }
  assert (Hw' := Hw). unfold dot in Hw'.
  destruct (vclose w (V3 0 0 (-1))) eqn:Ene.
  { apply vclose_true_bound in Ene. destruct Ene as [B1 [B2 B3]].
    assert (EF : yp_forward (rmtx_yp v) w = V3 (- vx w) (vy w) (- vz w)).
    { unfold rmtx_yp; cbv zeta. rewrite vopp_z. fold w.
      assert (vclose w (V3 0 0 (-1)) = true) as ->.
      { unfold vclose, isclose; simpl. rewrite Rabs_R0, !Rminus_0_r, Rmult_0_r, Rplus_0_r.
        rewrite !(proj2 (Rleb_true _ _)); auto. }
      unfold yp_forward; vring. }
    rewrite EF; cbn [vz]. apply (small (vx w) (vy w)); auto; [etransitivity; [|exact Hw']; ring|].
    apply Rabs_le_inv in B3. rewrite Rabs_left in B3 by lra. unfold atol_default, rtol_default in *. lra. }
  destruct (vclose w (V3 0 0 1)) eqn:Ee.
  { pose proof Ee as Ee'. apply vclose_true_bound in Ee. destruct Ee as [B1 [B2 B3]].
    assert (EF : yp_forward (rmtx_yp v) w = w).
    { unfold rmtx_yp; cbv zeta. rewrite vopp_z. fold w. rewrite Ene, Ee'.
      unfold yp_forward; cbn [fst snd]. rewrite !mmulv_id; reflexivity. }
    rewrite EF. apply (small (vx w) (vy w)); auto.
    apply Rabs_le_inv in B3. rewrite Rabs_R1 in B3. unfold atol_default, rtol_default in *. lra. }
  rewrite rmtx_yp_generic by auto. cbv zeta. fold w.
  assert (Hn : w <> V3 0 0 (-1)).
  { intros E. rewrite E in Ene. unfold vclose, isclose in Ene; simpl in Ene.
    replace (0 - 0) with 0 in Ene by ring. replace (-1 - -1) with 0 in Ene by ring.
    rewrite Rabs_R0 in Ene. unfold atol_default, rtol_default in Ene.
    assert (0 <= Rabs (-1)) by apply Rabs_pos.
    rewrite !(proj2 (Rleb_true _ _)) in Ene; [discriminate|lra..]. }
  pose proof (xyz2tp_trig w Hw Hn) as [T1 [T2 T3]]. cbv zeta in T2, T3.
  pose proof (acos_bound (vz w)) as Hb. pose proof caps_small as C.
  set (p := if Rleb (acos (vz w)) cap_top then PI else if Rleb (PI - cap_bot) (acos (vz w)) then PI else arctan2 (vy w) (vx w)) in *.
  rewrite T1, T2, T3.
  pose proof (yp_generic_sph (acos (vz w)) p (arctan2 (vy w) (vx w))) as G.
  rewrite (unit_sph w Hw) in G. rewrite G; clear G. cbn [vz].
  destruct (Rle_dec (acos (vz w)) cap_top) as [L|L]; [|destruct (Rle_dec (PI - cap_bot) (acos (vz w))) as [L'|L']].
  1,2: pose proof (sin_cap_bound (acos (vz w)) Hb ltac:(auto)) as HS;
    pose proof (COS_bound (arctan2 (vy w) (vx w) - p));
    set (s := sin (acos (vz w))) in *; set (c := cos (arctan2 (vy w) (vx w) - p)) in *;
    (assert (HS2 : s * s <= / 10 ^ 4 * / 10 ^ 4) by nra);
    (assert (cap_bot <= 4 * / 10 ^ 5 + / 10 ^ 10) by (unfold cap_bot; pose proof PI_le_4; lra));
    (assert (s * s <= (5 * / 10 ^ 5) * (5 * / 10 ^ 5)) by nra); nra.
  assert (Ep : p = arctan2 (vy w) (vx w)).
  { unfold p. rcase; [lra|]. rcase; [lra|reflexivity]. }
  rewrite Ep, Rminus_eq_0, cos_0. lra.
Qed.

Lemma rmtx_yp_z k : 0 < k -> rmtx_yp (V3 0 0 k) = (mid, mid).
Proof.
  intros Hk. assert (E : norm (V3 0 0 k) = V3 0 0 1).
  { replace (V3 0 0 k) with (vscale k (V3 0 0 1)) by (apply vec3_ext; simpl; ring).
    rewrite norm_scale; auto; [apply norm_unit_id; unfold dot; simpl; ring|intros E; inversion E; lra]. }
  unfold rmtx_yp; rewrite E, vopp_z; cbv zeta.
  assert (vclose (V3 0 0 1) (V3 0 0 1) = true) as ->.
  { unfold vclose, isclose; simpl. replace (0 - 0) with 0 by ring. replace (1 - 1) with 0 by ring.
    rewrite Rabs_R0, Rabs_R1. unfold atol_default, rtol_default. rewrite !(proj2 (Rleb_true _ _)); auto; lra. }
  assert (vclose (V3 0 0 1) (V3 0 0 (-1)) = false) as ->.
  { unfold vclose, isclose; simpl. replace (1 - -1) with 2 by ring.
    rewrite (Rabs_pos_eq 2) by lra. rewrite (Rabs_left (-1)) by lra. unfold atol_default, rtol_default.
    assert (Rleb 2 (/ 10 ^ 8 + / 10 ^ 5 * - -1) = false) as -> by (apply Rleb_false; lra).
    apply andb_false_r. }
  reflexivity.
Qed.
Lemma rmtx_yp_negz k : 0 < k -> rmtx_yp (V3 0 0 (- k)) =
  (M3 (V3 (-1) 0 0) (V3 0 (-1) 0) (V3 0 0 1), M3 (V3 1 0 0) (V3 0 (-1) 0) (V3 0 0 (-1))).
Proof.
  intros Hk. assert (E : norm (V3 0 0 (- k)) = V3 0 0 (-1)).
  { replace (V3 0 0 (- k)) with (vscale k (V3 0 0 (-1))) by (apply vec3_ext; simpl; ring).
    rewrite norm_scale; auto; [apply norm_unit_id; unfold dot; simpl; ring|intros E; inversion E; lra]. }
  unfold rmtx_yp; rewrite E, vopp_z; cbv zeta.
  assert (vclose (V3 0 0 (-1)) (V3 0 0 (-1)) = true) as ->.
  { unfold vclose, isclose; simpl. replace (0 - 0) with 0 by ring. replace (-1 - -1) with 0 by ring.
    rewrite Rabs_R0. rewrite (Rabs_left (-1)) by lra. unfold atol_default, rtol_default. rewrite !(proj2 (Rleb_true _ _)); auto; lra. }
  reflexivity.
Qed.

(** the exact mapping fails close to -z *)
Definition tilt : R := / 10 ^ 5.
Lemma rmtx_yp_fails_near_nadir :
  let v := V3 (sin tilt) 0 (- cos tilt) in
  dot v v = 1 /\ yp_forward (rmtx_yp v) v <> V3 0 0 1.
Proof.
  intros v. pose proof PI_gt_3 as P3.
  assert (Hv : dot v v = 1) by (unfold dot, v; simpl; pose proof (sin2cos2 tilt); lra).
  split; auto.
  assert (Hs : / 10 ^ 6 < sin tilt).
  { pose proof (sin_ge_cubic tilt) as S. unfold tilt in *. specialize (S ltac:(lra)). lra. }
  assert (Hac : acos (- cos tilt) = PI - tilt).
  { rewrite acos_opp, acos_cos; unfold tilt; lra. }
  assert (Hxy : atol_default < Rmax (Rabs (vx v)) (Rabs (vy v))).
  { simpl. eapply Rlt_le_trans; [|apply Rmax_l]. rewrite Rabs_pos_eq by lra. unfold atol_default; lra. }
  assert (Nv : norm v = v) by (apply norm_unit_id; auto).
  assert (Hn : v <> V3 0 0 (-1)) by (intros E; inversion E; lra).
  rewrite rmtx_yp_generic by (rewrite Nv; apply vclose_false_xy; auto). cbv zeta. rewrite Nv.
  pose proof (xyz2tp_trig v Hv Hn) as [T1 [T2 T3]]. cbv zeta in T2, T3.
  simpl vz in T1, T2, T3. rewrite Hac in T1, T2, T3.
  assert (Ep : (if Rleb (PI - tilt) cap_top then PI else if Rleb (PI - cap_bot) (PI - tilt) then PI else arctan2 (vy v) (vx v)) = PI).
  { rcase; [reflexivity|]. rcase; [reflexivity|]. unfold cap_bot, tilt in *. nra. }
  rewrite Ep in T2, T3. rewrite T1, T2, T3, yp_generic_image, sin_PI, cos_PI.
  intros E. inversion E as [[E1 E2 E3]]. clear E. simpl in E2.
  rewrite Rtrigo_facts.sin_pi_minus, Rtrigo_facts.cos_pi_minus in E2.
  assert (0 < cos tilt) by (apply cos_gt_0; unfold tilt; lra).
  assert (sin tilt * cos tilt > 0) by nra. lra.
Qed.

(** ** angular fisheye xyz2xy *)
Lemma xyz2xy_polar flip v :
  let '(x, y) := xyz2xy xyz_axes flip v in
  let r := arctan2 (sqrt (vx v * vx v + vy v * vy v)) (vz v) / (PI / 2) in
  let h := sqrt (vx v * vx v + vy v * vy v) in
  0 <= r <= 2 /\ sqrt (x * x + y * y) = r /\
  h * x = (if flip then - r else r) * vx v /\ h * y = r * vy v.
Proof.
  unfold xyz2xy, xyz_axes. simpl vget. unfold square.
  set (h := sqrt (vx v * vx v + vy v * vy v)).
  set (phi := arctan2 (vx v) (vy v)). set (t := arctan2 h (vz v)).
  assert (Hh : 0 <= h) by apply sqrt_pos. pose proof PI_pos.
  assert (Ht : 0 <= t <= PI).
  { split; [|apply arctan2_range]. unfold t, arctan2.
    assert (A : 0 <= h / vz v -> 0 <= atan (h / vz v)).
    { intros A. destruct (Req_dec (h / vz v) 0) as [->|]; [rewrite atan_0; lra|]. left; rewrite <- atan_0; apply atan_increasing; lra. }
    destruct (Rlt_dec 0 (vz v)).
    - apply A, Rmult_le_pos; [lra|left; apply Rinv_0_lt_compat; lra].
    - destruct (Rlt_dec (vz v) 0).
      + destruct (Rle_dec 0 h); [|contradiction]. pose proof (atan_bound (h / vz v)); lra.
      + destruct (Rlt_dec 0 h); [lra|]. destruct (Rlt_dec h 0); lra. }
  destruct (arctan2_polar (vx v) (vy v)) as [P1 P2]. fold phi in P1, P2.
  assert (Eh : sqrt (vy v * vy v + vx v * vx v) = h) by (unfold h; f_equal; ring). rewrite Eh in P1, P2.
  assert (Hr : 0 <= t / (PI / 2) <= 2).
  { split; [apply Rmult_le_pos; [lra|left; apply Rinv_0_lt_compat; lra]|].
    apply Rmult_le_reg_r with (PI / 2); [lra|]. field_simplify; lra. }
  set (r := t / (PI / 2)) in *. cbv zeta. repeat split; try apply Hr.
  - replace ((if flip then - (r * sin phi) else r * sin phi) * (if flip then - (r * sin phi) else r * sin phi))
      with ((r * sin phi) * (r * sin phi)) by (destruct flip; ring).
    replace (r * sin phi * (r * sin phi) + r * cos phi * (r * cos phi)) with (r * r * (sin phi * sin phi + cos phi * cos phi)) by ring.
    rewrite sin2cos2, Rmult_1_r. apply sqrt_square; lra.
  - transitivity ((if flip then - r else r) * (h * sin phi)); [destruct flip; ring|rewrite P2; ring].
  - transitivity (r * (h * cos phi)); [ring|rewrite P1; ring].
Qed.

Lemma arctan2_acos v : dot v v = 1 ->
  arctan2 (sqrt (vx v * vx v + vy v * vy v)) (vz v) = acos (vz v).
Proof.
  intros H. rewrite <- unit_sin_acos by auto.
  rewrite <- (cos_acos (vz v)) at 2 by (apply unit_z; auto).
  pose proof (acos_bound (vz v)). pose proof PI_pos.
  replace (sin (acos (vz v))) with (1 * sin (acos (vz v))) by ring.
  replace (cos (acos (vz v))) with (1 * cos (acos (vz v))) by ring.
  apply arctan2_unique; lra.
Qed.

(** ** statements used verbatim by Prop_Translate *)
Lemma norm_vnorm v : v <> vzero -> vnorm (norm v) = 1.
Proof. intros; apply vnorm_1, norm_dot; auto. Qed.
Lemma norm_direction v : v <> vzero -> 0 < vnorm v /\ v = vscale (vnorm v) (norm v).
Proof. intros; split; [apply vnorm_pos; auto|apply norm_scale_eq; auto]. Qed.
Lemma norm_idem v : v <> vzero -> norm (norm v) = norm v.
Proof. intros; apply norm_unit_id, norm_dot; auto. Qed.
Lemma xyz2uv_normalize axes flipu w :
  w <> vzero -> xyz2uv true axes flipu w = xyz2uv false axes flipu (norm w) /\ vnorm (norm w) = 1.
Proof. intros; split; [reflexivity|apply norm_vnorm; auto]. Qed.
Lemma xyz_tp_nadir_opposite : exists v, vnorm v = 1 /\ tp2xyz true (xyz2tp v) = vopp v.
Proof.
  exists (V3 0 0 (-1)). split; [apply vnorm_1; unfold dot; simpl; ring|].
  rewrite xyz_tp_nadir. unfold vopp; apply vec3_ext; simpl; ring.
Qed.
Lemma xyz_aa_roundtrip v : dot v v = 1 -> cap_top < acos (vz v) < PI - cap_bot -> aa2xyz (xyz2aa v) = v.
Proof. intros; rewrite aa_xyz_roundtrip_gen; apply xyz_tp_roundtrip; auto. Qed.
Lemma aa_caps_small : aa_cap_top < 1 /\ aa_cap_bot < 1.
Proof.
  pose proof caps_small as C. pose proof PI_gt_3. unfold aa_cap_top, aa_cap_bot.
  assert (180 / PI < 60). { apply Rmult_lt_reg_r with PI; [lra|]. field_simplify; lra. }
  assert (0 < 180 / PI) by (apply Rdiv_lt_0_compat; lra). split; nra.
Qed.
Lemma aa_cap_example : -90 + aa_cap_bot < 45 < 90 - aa_cap_top.
Proof. pose proof aa_caps_small; lra. Qed.
Lemma aa_roundtrip_doc_refuted : exists alt az,
  -90 < alt < 90 /\ -180 < az < 180 /\ xyz2aa (aa2xyz (alt, az)) = (alt, az + 360).
Proof.
  exists 45, (-135). pose proof aa_cap_example. repeat split; try lra. apply aa_roundtrip_west; lra.
Qed.
Lemma radians_sym a b : radians a b = radians b a.
Proof. unfold radians; rewrite ctheta_sym; reflexivity. Qed.
Lemma cos_radians_unit a b : dot a a = 1 -> dot b b = 1 -> cos (radians a b) = dot a b.
Proof. intros; rewrite cos_radians, ctheta_unit; auto. Qed.
Lemma degrees_spec a b : 0 <= degrees a b <= 180 /\ degrees a b = radians a b * (180 / PI).
Proof. split; [apply degrees_range|]. unfold degrees. pose proof PI_pos. field; lra. Qed.
Lemma rmtx_yp_reversible v w :
  yp_backward (rmtx_yp v) (yp_forward (rmtx_yp v) w) = w /\
  yp_forward (rmtx_yp v) (yp_backward (rmtx_yp v) w) = w.
Proof. apply yp_forward_backward; apply rmtx_yp_rotation. Qed.
Lemma rmtx_yp_negz_image k : 0 < k ->
  forall w, yp_forward (rmtx_yp (V3 0 0 (- k))) w = V3 (- vx w) (vy w) (- vz w).
Proof. intros Hk w; rewrite rmtx_yp_negz by auto. unfold yp_forward; vring. Qed.
Lemma rmtx_yp_nadir_refuted : exists v, dot v v = 1 /\ yp_forward (rmtx_yp v) v <> V3 0 0 1.
Proof. eexists; exact rmtx_yp_fails_near_nadir. Qed.
Lemma rmtx_yp_example : V3 1 0 0 <> vzero /\
  atol_default < Rmax (Rabs (vx (norm (V3 1 0 0)))) (Rabs (vy (norm (V3 1 0 0)))) /\
  acos (vz (norm (V3 1 0 0))) < PI - cap_bot.
Proof.
  assert (E : norm (V3 1 0 0) = V3 1 0 0) by (apply norm_unit_id; unfold dot; simpl; ring).
  rewrite E. cbn [vx vy vz]. split; [intros K; inversion K; lra|split].
  - rewrite Rabs_R0, Rabs_R1, Rmax_left by lra. unfold atol_default; lra.
  - rewrite acos_0. pose proof caps_small. pose proof PI_gt_3. lra.
Qed.
Lemma rotate_elem_dot v w t axis d : (0 <= axis <= 2)%Z ->
  dot (rotate_elem v t axis d) (rotate_elem w t axis d) = dot v w.
Proof. intros; apply rotation_dot, rmtx_elem_rotation; auto. Qed.
Lemma rotate_elem_inverse v t axis d : (0 <= axis <= 2)%Z ->
  rotate_elem (rotate_elem v t axis d) (- t) axis d = v.
Proof. intros; rewrite rotate_elem_add, Rplus_opp_r by auto. apply rotate_elem_zero; auto. Qed.
Lemma rotate_elem_degrees v t axis : rotate_elem v t axis true = rotate_elem v (t * PI / 180) axis false.
Proof. reflexivity. Qed.
Lemma rotate_elem_orientation axis : (0 <= axis <= 2)%Z ->
  rotate_elem (unit_axis ((axis + 1) mod 3)) 90 axis true = unit_axis ((axis + 2) mod 3).
Proof.
  intros H. assert (E : rad_of 90 true = PI / 2) by (unfold rad_of; field).
  destruct (axis_cases axis H) as [->|[->| ->]]; unfold rotate_elem;
    rewrite ?rmtx_elem_0, ?rmtx_elem_1, ?rmtx_elem_2, E, cos_PI2, sin_PI2;
    [change ((0 + 1) mod 3)%Z with 1%Z; change ((0 + 2) mod 3)%Z with 2%Z
    |change ((1 + 1) mod 3)%Z with 2%Z; change ((1 + 2) mod 3)%Z with 0%Z
    |change ((2 + 1) mod 3)%Z with 0%Z; change ((2 + 2) mod 3)%Z with 1%Z];
    unfold unit_axis; cbn [Z.eqb Pos.eqb]; vring.
Qed.
Lemma reflect_nth rays normals i j ray normal :
  nth_error rays i = Some ray -> nth_error normals j = Some normal ->
  exists row, nth_error (reflect rays normals) i = Some row /\ nth_error row j = Some (reflect1 ray normal).
Proof.
  intros H1 H2. unfold reflect. eexists; split; [apply map_nth_error; exact H1|].
  apply (map_nth_error (fun n => reflect1 ray n)); exact H2.
Qed.
Lemma reflect_masked_all rays normals :
  (forall r, In r rays -> dot r r = 1) -> (forall n, In n normals -> dot n n = 1) ->
  reflect_masked rays normals = map fst (concat (reflect rays normals)).
Proof.
  intros Hr Hn. unfold reflect_masked. f_equal.
  assert (A : forall l, (forall p : vec3 * bool, In p l -> snd p = true) -> filter snd l = l).
  { induction l as [|p l IH]; intros H; [reflexivity|]. simpl. rewrite (H p) by (left; auto).
    f_equal; apply IH; intros; apply H; right; auto. }
  apply A. intros p Hp. apply in_concat in Hp. destruct Hp as [row [H1 H2]].
  unfold reflect in H1. apply in_map_iff in H1. destruct H1 as [r [<- Hri]].
  apply in_map_iff in H2. destruct H2 as [n [<- Hni]]. apply reflect_valid; auto.
Qed.
Lemma xyz2xy_flip axes v : xyz2xy axes true v = (- fst (xyz2xy axes false v), snd (xyz2xy axes false v)).
Proof. unfold xyz2xy. destruct axes as [[i j] k]. reflexivity. Qed.
Lemma xyz2xy_radius v x y : dot v v = 1 -> xyz2xy xyz_axes false v = (x, y) ->
  sqrt (x * x + y * y) = radians v (V3 0 0 1) / (PI / 2).
Proof.
  intros Hv E. pose proof (xyz2xy_polar false v) as P. rewrite E in P. destruct P as [_ [P _]].
  rewrite P, arctan2_acos by auto. unfold radians. rewrite ctheta_unit by (auto; unfold dot; simpl; ring).
  replace (dot v (V3 0 0 1)) with (vz v) by (unfold dot; simpl; ring). reflexivity.
Qed.
Lemma xyz2xy_azimuth v x y : xyz2xy xyz_axes false v = (x, y) ->
  let h := sqrt (vx v * vx v + vy v * vy v) in
  let r := sqrt (x * x + y * y) in
  h * x = r * vx v /\ h * y = r * vy v.
Proof.
  intros E. pose proof (xyz2xy_polar false v) as P. rewrite E in P. cbv zeta in *. destruct P as [_ [P1 [P2 P3]]].
  rewrite P1. auto.
Qed.
