(** Lemmas for Prop_Io.v: the solid angle of a pixel on the horizontal axis *)
From Coq Require Import Lia Lra.
From Verif Require Import Base L_Base M_Translate M_Mapper S_Translate S_Mapper L_Mapper M_Io S_Io L_Io.
Local Open Scope R_scope.

Lemma ang2dir_axis p : -1 < p < 1 -> ang2dir (p, 0) = V3 (sin (PI * p)) 0 (cos (PI * p)).
Proof.
  intros H.
  assert (D : pd (p, 0) = Rabs p).
  { unfold pd, square. cbn [fst snd]. replace (p * p + 0 * 0) with (p * p) by ring. apply sqrt_Rsqr_abs. }
  destruct (Req_dec p 0) as [-> | N].
  - rewrite ang2dir_0 by (rewrite D; apply Rabs_R0). rewrite Rmult_0_r, sin_0, cos_0. reflexivity.
  - rewrite ang2dir_eq.
    2:{ rewrite D. pose proof (Rabs_pos_lt p N). split; auto. apply Rabs_def1; lra. }
    rewrite D. cbn [fst snd]. unfold Rabs. destruct (Rcase_abs p) as [L | G].
    + replace (PI * - p) with (- (PI * p)) by ring. rewrite sin_neg, cos_neg.
      apply vec3_ext; cbn [vx vy vz]; [field; auto | ring | reflexivity].
    + apply vec3_ext; cbn [vx vy vz]; [field; auto | ring | reflexivity].
Qed.

Lemma pd_flip p q : pd (p, - q) = pd (p, q).
Proof. unfold pd, square. cbn [fst snd]. f_equal. ring. Qed.

(** the chords of a pixel at angle PI*p with half width PI*q *)
Lemma om_axis p q : 0 < q -> -1 < p - q -> p + q < 1 -> pd (p, q) < 1 ->
  om (ang2dir (p - q, 0)) (ang2dir (p + q, 0)) (ang2dir (p, - q)) (ang2dir (p, q)) =
  4 * Rabs (sin (PI * q)) * (q / pd (p, q)) * sin (PI * pd (p, q)).
Proof.
  intros Q L H D. rewrite !ang2dir_axis by lra.
  assert (Z : 0 < pd (p, q)).
  { pose proof (pd_nonneg (p, q)). destruct (Req_dec (pd (p, q)) 0) as [E | N]; [|lra].
    destruct (pd_zero _ E) as [_ E2]. cbn [snd] in E2. lra. }
  rewrite !ang2dir_eq by (rewrite ?pd_flip; lra). rewrite !pd_flip. cbn [fst snd].
  set (r := pd (p, q)) in *. clearbody r.
  assert (S : 0 <= sin (PI * r)) by (pose proof PI_pos; apply sin_ge_0; nra).
  set (k := sin (PI * r) / r).
  assert (K : 0 <= k) by (unfold k; apply Rmult_le_pos; auto; left; apply Rinv_0_lt_compat; lra).
  replace (4 * Rabs (sin (PI * q)) * (q / r) * sin (PI * r)) with (Rabs (sin (PI * q)) * (4 * q * k)) by (unfold k; field; lra).
  replace (PI * (p - q)) with (PI * p - PI * q) by ring. replace (PI * (p + q)) with (PI * p + PI * q) by ring.
  rewrite sin_minus, sin_plus, cos_minus, cos_plus.
  assert (T : sin (PI * p) * sin (PI * p) + cos (PI * p) * cos (PI * p) = 1)
    by (pose proof (sin2_cos2 (PI * p)); unfold Rsqr in *; lra).
  set (a := sin (PI * p)) in *. set (b := cos (PI * p)) in *. set (s := sin (PI * q)). set (c := cos (PI * q)).
  clearbody a b s c k.
  unfold om, vnorm. rewrite cross_sqr.
  match goal with |- sqrt ?X = _ => replace X with ((a * a + b * b) * ((s * (4 * q * k)) * (s * (4 * q * k))))
    by (unfold dot, vsub; cbn [vx vy vz]; ring) end.
  rewrite T, Rmult_1_l. change (sqrt (Rsqr (s * (4 * q * k))) = Rabs s * (4 * q * k)).
  rewrite sqrt_Rsqr_abs, Rabs_mult. f_equal. apply Rabs_right. apply Rle_ge. repeat apply Rmult_le_pos; lra.
Qed.

Lemma omega_axis d va res x : hemi_angle va -> (0 < res)%Z -> 1 / 2 <= x <= IZR res - 1 / 2 ->
  let s := vm_chordfactor (mk_view d va) * va / 180 in
  let h := PI * s / (2 * IZR res) in
  let theta := PI * s * (x / IZR res - 1 / 2) in
  let rho := sqrt (theta * theta + h * h) in
  pixel2omega (mk_view d va) res (x, IZR res / 2) = 4 * sin h * sin rho * (h / rho).
Proof.
  intros V R X s h theta rho. rewrite omega_eq. cbn [fst snd].
  assert (Es : s = vscl d va) by (unfold s, vscl; rewrite mk_view_hemi_va by auto; field).
  pose proof (vscl_range d va V) as B. rewrite <- Es in B |- *.
  assert (N : 1 <= IZR res) by (change 1 with (IZR 1); apply IZR_le; lia).
  set (n := IZR res) in *.
  set (p := (x / n - 1 / 2) * (-1 * s)). set (q := s / (2 * n)).
  assert (Q : 0 < q) by (unfold q; apply Rdiv_lt_0_compat; lra).
  assert (Xn : 1 / (2 * n) <= x / n <= 1 - 1 / (2 * n)).
  { split.
    - replace (1 / (2 * n)) with ((1 / 2) / n) by (field; lra). apply Rmult_le_compat_r; [left; apply Rinv_0_lt_compat; lra | lra].
    - replace (1 - 1 / (2 * n)) with ((n - 1 / 2) / n) by (field; lra). apply Rmult_le_compat_r; [left; apply Rinv_0_lt_compat; lra | lra]. }
  assert (Eq : q = s * (1 / (2 * n))) by (unfold q; field; lra).
  assert (P1 : - (s / 2) <= p - q) by (unfold p; rewrite Eq; nra).
  assert (P2 : p + q <= s / 2) by (unfold p; rewrite Eq; nra).
  assert (Q2 : q <= s / 2) by (rewrite Eq; nra).
  assert (D : pd (p, q) < 1).
  { pose proof (pd_sqr (p, q)) as E. cbn [fst snd] in E. pose proof (pd_nonneg (p, q)). nra. }
  unfold view_at. fold n.
  replace ((x - 1 / 2) / n - 1 / 2) with ((x / n - 1 / 2) - 1 / (2 * n)) by (field; lra).
  replace ((x + 1 / 2) / n - 1 / 2) with ((x / n - 1 / 2) + 1 / (2 * n)) by (field; lra).
  replace (((x / n - 1 / 2) - 1 / (2 * n)) * (-1 * s)) with (p + q) by (unfold p; rewrite Eq; ring).
  replace (((x / n - 1 / 2) + 1 / (2 * n)) * (-1 * s)) with (p - q) by (unfold p; rewrite Eq; ring).
  replace ((n / 2 / n - 1 / 2) * (1 * s)) with 0 by (field; lra).
  replace (((n / 2 - 1 / 2) / n - 1 / 2) * (1 * s)) with (- q) by (unfold q; field; lra).
  replace (((n / 2 + 1 / 2) / n - 1 / 2) * (1 * s)) with q by (unfold q; field; lra).
  fold p. rewrite om_rev, om_axis by (auto; lra).
  pose proof PI_pos as PP.
  assert (Eh : h = PI * q) by (unfold h, q; field; lra).
  assert (Er : rho = PI * pd (p, q)).
  { unfold rho, pd, square. cbn [fst snd].
    replace (theta * theta + h * h) with ((PI * PI) * (p * p + q * q)) by (rewrite Eh; unfold theta, p; ring).
    rewrite sqrt_mult by nra. rewrite sqrt_square by lra. reflexivity. }
  assert (Z : 0 < pd (p, q)).
  { pose proof (pd_nonneg (p, q)). destruct (Req_dec (pd (p, q)) 0) as [E | M]; [|lra].
    destruct (pd_zero _ E) as [_ E2]. cbn [snd] in E2. lra. }
  rewrite Er, Eh. rewrite Rabs_right by (apply Rle_ge, sin_ge_0; nra). field. lra.
Qed.

Lemma omega_axis_centre d va res : hemi_angle va -> (0 < res)%Z ->
  pixel2omega (mk_view d va) res (IZR res / 2, IZR res / 2) =
  4 * square (sin (PI * (vm_chordfactor (mk_view d va) * va / 180) / (2 * IZR res))).
Proof.
  intros V R. assert (N : 1 <= IZR res) by (change 1 with (IZR 1); apply IZR_le; lia).
  rewrite omega_axis by (auto; lra). 
  set (s := vm_chordfactor (mk_view d va) * va / 180).
  assert (Es : s = vscl d va) by (unfold s, vscl; rewrite mk_view_hemi_va by auto; field).
  pose proof (vscl_range d va V) as B. rewrite <- Es in B. clearbody s.
  set (h := PI * s / (2 * IZR res)). pose proof PI_pos.
  assert (Hh : 0 < h) by (unfold h; apply Rdiv_lt_0_compat; nra).
  replace (PI * s * (IZR res / 2 / IZR res - 1 / 2)) with 0 by (field; lra).
  replace (0 * 0 + h * h) with (h * h) by ring. rewrite sqrt_square by lra. unfold square. field. lra.
Qed.
