(** Proofs about the concentric (Shirley-Chiu) maps: uv2xy, uv2xyz, xyz2uv *)
From Coq Require Import Lra Lia.
From Verif Require Import Base L_Base M_Translate S_Translate.
Local Open Scope R_scope.

Definition rr (a b : R) : R :=
  if Rgtb (a * a) (b * b) then a else if Reqb b 0 then 0 else b.
Definition ph (a b : R) : R :=
  (if Rgtb (a * a) (b * b) then b / (2 * a) else if Reqb b 0 then 0 else 1 - a / (2 * b)) * PI / 2.
Definition dX a b := cos (ph a b) * rr a b.
Definition dY a b := sin (ph a b) * rr a b.
Definition sgn_u (u : R) : R := if Rgtb u 1 then -1 else 1.
Definition red_u (u : R) : R := if Rgtb u 1 then u - 1 else u.

Lemma concentric_eq u v :
  concentric u v = (sgn_u u, rr (2 * red_u u - 1) (2 * v - 1), ph (2 * red_u u - 1) (2 * v - 1)).
Proof. reflexivity. Qed.

Lemma sqr_gt_abs a b : a * a > b * b <-> Rabs b < Rabs a.
Proof.
  split; intros H.
  - apply Rsqr_lt_abs_0; unfold Rsqr; lra.
  - apply Rsqr_lt_abs_1 in H; unfold Rsqr in H; lra.
Qed.

Lemma rr_abs a b : Rabs (rr a b) = Rmax (Rabs a) (Rabs b).
Proof.
  unfold rr, Rgtb. case_Rltb (b * b) (a * a).
  - apply sqr_gt_abs in E. rewrite Rmax_left; lra.
  - assert (Rabs a <= Rabs b). { apply Rsqr_le_abs_0; unfold Rsqr; lra. }
    case_Reqb b 0; [subst; rewrite Rabs_R0 in *|]; rewrite Rmax_right; auto; lra.
Qed.

Lemma rr_sqr_disk a b : dX a b * dX a b + dY a b * dY a b = rr a b * rr a b.
Proof.
  unfold dX, dY. pose proof (sin2_cos2 (ph a b)) as E; unfold Rsqr in E.
  replace (_ + _) with ((sin (ph a b) * sin (ph a b) + cos (ph a b) * cos (ph a b)) * (rr a b * rr a b)) by ring.
  rewrite E; ring.
Qed.

Lemma rr_le1 a b : -1 <= a <= 1 -> -1 <= b <= 1 -> -1 <= rr a b <= 1.
Proof.
  intros Ha Hb. assert (Rabs (rr a b) <= 1).
  { rewrite rr_abs. apply Rmax_lub; apply Rabs_le; lra. }
  apply Rabs_le_inv in H; lra.
Qed.

Lemma rr_lt1 a b : -1 < a < 1 -> -1 < b < 1 -> -1 < rr a b < 1.
Proof.
  intros Ha Hb. assert (Rabs (rr a b) < 1).
  { rewrite rr_abs. apply Rmax_lub_lt; apply Rabs_def1; lra. }
  apply Rabs_def2 in H; lra.
Qed.

(** the disk -> square half of xyz2uv *)
Definition upolar (r phi : R) : R * R :=
  let pi4 := PI / 4 in
  if Rltb phi pi4 then (r, phi * r / pi4)
  else if Rltb phi (3 * pi4) then (- (phi - PI / 2) * r / pi4, r)
  else if Rltb phi (5 * pi4) then (- r, - (phi - PI) * r / pi4)
  else ((phi - 3 * PI / 2) * r / pi4, - r).
Definition wrap (phi : R) : R := phi + (if Rltb phi (- (PI / 4)) then 2 * PI else 0).
Definition undisk (x y : R) : R * R := upolar (sqrt (square x + square y)) (wrap (arctan2 y x)).

Lemma wrap_range phi : - PI < phi <= PI -> - (PI / 4) <= wrap phi < 7 * (PI / 4).
Proof. intros H. pose proof PI_pos. unfold wrap. rcase; lra. Qed.
Lemma wrap_cos phi : cos (wrap phi) = cos phi.
Proof. unfold wrap; rcase; [rewrite cos_plus, cos_2PI, sin_2PI; ring|f_equal; ring]. Qed.
Lemma wrap_sin phi : sin (wrap phi) = sin phi.
Proof. unfold wrap; rcase; [rewrite sin_plus, cos_2PI, sin_2PI; ring|f_equal; ring]. Qed.

(** polar angle in [-pi/4, 7pi/4) is unique *)
Lemma wrap_unique r phi :
  0 < r -> - (PI / 4) <= phi < 7 * (PI / 4) -> wrap (arctan2 (r * sin phi) (r * cos phi)) = phi.
Proof.
  intros Hr Hphi. pose proof PI_pos.
  destruct (Rle_dec phi PI).
  - rewrite arctan2_unique by lra. unfold wrap; rcase; lra.
  - replace (sin phi) with (sin (phi - 2 * PI)).
    2:{ rewrite sin_minus, cos_2PI, sin_2PI; ring. }
    replace (cos phi) with (cos (phi - 2 * PI)).
    2:{ rewrite cos_minus, cos_2PI, sin_2PI; ring. }
    rewrite arctan2_unique by lra. unfold wrap; rcase; lra.
Qed.

Lemma undisk_polar r phi :
  0 < r -> - (PI / 4) <= phi < 7 * (PI / 4) -> undisk (r * cos phi) (r * sin phi) = upolar r phi.
Proof.
  intros Hr Hphi. unfold undisk. rewrite wrap_unique by auto.
  f_equal. unfold square. pose proof (sin2_cos2 phi) as E; unfold Rsqr in E.
  replace (_ + _) with (r * r * (sin phi * sin phi + cos phi * cos phi)) by ring.
  rewrite E, Rmult_1_r. apply sqrt_square; lra.
Qed.

Lemma undisk_0 : undisk 0 0 = (0, 0).
Proof.
  unfold undisk. pose proof PI_pos.
  replace (square 0 + square 0) with 0 by (unfold square; ring). rewrite sqrt_0.
  unfold upolar. repeat rcase; f_equal; field; lra.
Qed.

Lemma pair_eq (a b c d : R) : a = c -> b = d -> (a, b) = (c, d).
Proof. intros; subst; reflexivity. Qed.

Lemma ratio_bound a b : Rabs b < Rabs a -> -1 < b / a < 1.
Proof.
  intros H. assert (0 < Rabs a) by (pose proof (Rabs_pos b); lra).
  assert (a <> 0) by (intros ->; rewrite Rabs_R0 in *; lra).
  enough (K : Rabs (b / a) < 1) by (apply Rabs_def2 in K; lra). unfold Rdiv; rewrite Rabs_mult, Rabs_inv.
  apply Rmult_lt_reg_r with (Rabs a); auto. field_simplify; lra.
Qed.
Lemma ratio_bound_le a b : a <> 0 -> Rabs b <= Rabs a -> -1 <= b / a <= 1.
Proof.
  intros Ha H. assert (0 < Rabs a) by (apply Rabs_pos_lt; auto).
  apply Rabs_le_inv. unfold Rdiv; rewrite Rabs_mult, Rabs_inv.
  apply Rmult_le_reg_r with (Rabs a); auto. field_simplify; lra.
Qed.

Lemma undisk_disk a b : undisk (dX a b) (dY a b) = (a, b).
Proof.
  pose proof PI_pos. unfold dX, dY, rr, ph, Rgtb.
  case_Rltb (b * b) (a * a).
  - apply sqr_gt_abs in E. pose proof (ratio_bound a b E) as Hq.
    assert (Ha : a <> 0) by (intros ->; rewrite Rabs_R0 in E; pose proof (Rabs_pos b); lra).
    set (q := b / a) in *.
    replace (b / (2 * a) * PI / 2) with (q * (PI / 4)) by (unfold q; field; auto).
    assert (Eb : b = q * a) by (unfold q; field; auto).
    assert (Hph : - (PI / 4) < q * (PI / 4) < PI / 4) by nra.
    set (p := q * (PI / 4)) in *.
    destruct (Rlt_dec 0 a) as [P|P].
    + rewrite (Rmult_comm (cos p)), (Rmult_comm (sin p)), undisk_polar by lra.
      unfold upolar. rcase; [|lra]. apply pair_eq; [reflexivity|]. unfold p. rewrite Eb; field; lra.
    + replace (cos p * a) with ((- a) * cos (p + PI)) by (rewrite neg_cos; ring).
      replace (sin p * a) with ((- a) * sin (p + PI)) by (rewrite neg_sin; ring).
      rewrite undisk_polar by lra.
      unfold upolar. repeat (rcase; try lra). apply pair_eq; [ring|]. unfold p; rewrite Eb; field; lra.
  - case_Reqb b 0.
    + subst b. assert (a = 0) as -> by nra. rewrite !Rmult_0_r. apply undisk_0.
    + assert (Hab : Rabs a <= Rabs b). { apply Rsqr_le_abs_0; unfold Rsqr; lra. }
      pose proof (ratio_bound_le b a E0 Hab) as Hq.
      set (q := a / b) in *.
      replace ((1 - a / (2 * b)) * PI / 2) with (PI / 2 - q * (PI / 4)) by (unfold q; field; auto).
      assert (Ea : a = q * b) by (unfold q; field; auto).
      assert (Hph : - (PI / 4) <= q * (PI / 4) <= PI / 4) by nra.
      destruct (Rlt_dec 0 b) as [P|P].
      * rewrite (Rmult_comm (cos _)), (Rmult_comm (sin _)), undisk_polar by lra.
        unfold upolar. rcase; [lra|]. rcase.
        -- apply pair_eq; [|reflexivity]. rewrite Ea; field; lra.
        -- assert (q = -1) by nra. rcase; [|lra].
           apply pair_eq; [rewrite Ea; nra|]. rewrite H0; field; lra.
      * set (p := PI / 2 - q * (PI / 4)) in *.
        replace (cos p * b) with ((- b) * cos (p + PI)) by (rewrite neg_cos; ring).
        replace (sin p * b) with ((- b) * sin (p + PI)) by (rewrite neg_sin; ring).
        destruct (Req_dec q (-1)) as [Q|Q].
        -- replace (p + PI) with (- (PI / 4) + 2 * PI) by (unfold p; rewrite Q; field).
           rewrite (cos_plus _ (2 * PI)), (sin_plus _ (2 * PI)), cos_2PI, sin_2PI, !Rmult_1_r, !Rmult_0_r, Rminus_0_r, Rplus_0_r.
           rewrite undisk_polar by lra. unfold upolar. rcase; [|lra].
           apply pair_eq; [nra|]. field; lra.
        -- assert (-1 < q) by lra. assert (- (PI / 4) < q * (PI / 4)) by nra.
           rewrite undisk_polar by (unfold p; lra).
           unfold upolar. repeat (rcase; [unfold p in *; lra|]).
           apply pair_eq; [|ring]. unfold p; rewrite Ea; field; lra.
Qed.

Lemma disk_0 : dX 0 0 = 0 /\ dY 0 0 = 0.
Proof.
  unfold dX, dY, rr, Rgtb. rewrite Rmult_0_l.
  rcase; [lra|]. rcase; lra.
Qed.

(** values of the forward map on each sector of the square *)
Lemma disk_sector_h r t : -1 < t < 1 -> r <> 0 ->
  dX r (t * r) = r * cos (t * (PI / 4)) /\ dY r (t * r) = r * sin (t * (PI / 4)).
Proof.
  intros Ht Hr. unfold dX, dY, rr, ph, Rgtb.
  assert (0 < r * r) by nra.
  assert (t * t < 1) by nra. assert (t * r * (t * r) < r * r) by nra.
  rcase; [|lra].
  replace (t * r / (2 * r) * PI / 2) with (t * (PI / 4)) by (field; auto). split; ring.
Qed.
Lemma disk_sector_v r t : -1 <= t <= 1 -> r <> 0 ->
  dX (t * r) r = r * sin (t * (PI / 4)) /\ dY (t * r) r = r * cos (t * (PI / 4)).
Proof.
  intros Ht Hr. unfold dX, dY, rr, ph, Rgtb.
  assert (0 < r * r) by nra.
  assert (t * t <= 1) by nra. assert (t * r * (t * r) <= r * r) by nra.
  rcase; [lra|]. rcase; [contradiction|].
  replace ((1 - t * r / (2 * r)) * PI / 2) with (PI / 2 - t * (PI / 4)) by (field; auto).
  rewrite cos_shift, sin_shift. split; ring.
Qed.

Lemma disk_upolar r phi : 0 <= r -> - (PI / 4) <= phi < 7 * (PI / 4) ->
  dX (fst (upolar r phi)) (snd (upolar r phi)) = r * cos phi /\
  dY (fst (upolar r phi)) (snd (upolar r phi)) = r * sin phi.
Proof.
  intros Hr Hphi. pose proof PI_pos.
  destruct (Req_dec r 0) as [R0|R0].
  { assert (E : upolar r phi = (0, 0)).
    { subst r. unfold upolar. repeat rcase; f_equal; field; lra. }
    rewrite E; subst r; simpl. pose proof disk_0; lra. }
  unfold upolar. rcase; [|rcase; [|rcase]]; simpl.
  - destruct (Req_dec phi (- (PI / 4))) as [P|P].
    + (* on the seam phi = -pi/4: b = -r, a = r *)
      replace (phi * r / (PI / 4)) with (- r) by (rewrite P; field; lra).
      pose proof (disk_sector_v (- r) (-1)) as [D1 D2]; [lra|lra|].
      replace (-1 * - r) with r in * by ring. rewrite D1, D2, P.
      replace (-1 * (PI / 4)) with (- (PI / 4)) by ring.
      rewrite !sin_neg, !cos_neg, !sin_cos_PI4. split; ring.
    + set (t := phi / (PI / 4)).
      assert (Hphi' : phi = t * (PI / 4)) by (unfold t; field; lra).
      assert (-1 < t < 1) by (rewrite Hphi' in *; nra).
      replace (phi * r / (PI / 4)) with (t * r) by (unfold t; field; lra).
      pose proof (disk_sector_h r t) as [D1 D2]; auto.
      rewrite D1, D2, Hphi'. auto.
  - set (t := - (phi - PI / 2) / (PI / 4)).
    assert (Hphi' : phi = PI / 2 - t * (PI / 4)) by (unfold t; field; lra).
    assert (-1 <= t <= 1) by (rewrite Hphi' in *; nra).
    replace (- (phi - PI / 2) * r / (PI / 4)) with (t * r) by (unfold t; field; lra).
    pose proof (disk_sector_v r t) as [D1 D2]; auto.
    rewrite D1, D2, Hphi', cos_shift, sin_shift. auto.
  - set (t := (phi - PI) / (PI / 4)).
    assert (Hphi' : phi = t * (PI / 4) + PI) by (unfold t; field; lra).
    assert (-1 <= t < 1) by (rewrite Hphi' in *; nra).
    replace (- (phi - PI) * r / (PI / 4)) with (t * - r) by (unfold t; field; lra).
    destruct (Req_dec t (-1)) as [T|T].
    + replace (t * - r) with r by (rewrite T; ring).
      pose proof (disk_sector_v r (-1)) as [D1 D2]; [lra|lra|].
      replace (-1 * r) with (- r) in * by ring.
      rewrite D1, D2, Hphi', T, neg_cos, neg_sin.
      replace (-1 * (PI / 4)) with (- (PI / 4)) by ring.
      rewrite !sin_neg, !cos_neg, !sin_cos_PI4. split; ring.
    + pose proof (disk_sector_h (- r) t) as [D1 D2]; [lra|lra|].
      rewrite D1, D2, Hphi', neg_cos, neg_sin. split; ring.
  - set (t := - (phi - 3 * PI / 2) / (PI / 4)).
    assert (Hphi' : phi = (PI / 2 - t * (PI / 4)) + PI) by (unfold t; field; lra).
    assert (-1 <= t <= 1) by (rewrite Hphi' in *; nra).
    replace ((phi - 3 * PI / 2) * r / (PI / 4)) with (t * - r) by (unfold t; field; lra).
    pose proof (disk_sector_v (- r) t) as [D1 D2]; [lra|lra|].
    rewrite D1, D2, Hphi', neg_cos, neg_sin, cos_shift, sin_shift. split; ring.
Qed.

Lemma disk_undisk x y :
  dX (fst (undisk x y)) (snd (undisk x y)) = x /\ dY (fst (undisk x y)) (snd (undisk x y)) = y.
Proof.
  unfold undisk. pose proof (arctan2_range y x) as Hr.
  pose proof (disk_upolar (sqrt (square x + square y)) (wrap (arctan2 y x)) (sqrt_pos _) (wrap_range _ Hr)) as [D1 D2].
  rewrite D1, D2, wrap_cos, wrap_sin. apply arctan2_polar.
Qed.

Lemma upolar_bound r phi : 0 <= r -> - (PI / 4) <= phi < 7 * (PI / 4) ->
  Rabs (fst (upolar r phi)) <= r /\ Rabs (snd (upolar r phi)) <= r.
Proof.
  intros Hr Hphi. pose proof PI_pos.
  assert (K : forall t, -1 <= t <= 1 -> Rabs (t * r) <= r).
  { intros t Ht. rewrite Rabs_mult, (Rabs_pos_eq r) by lra.
    assert (Rabs t <= 1) by (apply Rabs_le; lra). nra. }
  assert (Q : forall p, - (PI / 4) <= p <= PI / 4 -> -1 <= p / (PI / 4) <= 1).
  { intros p Hp. split; apply Rmult_le_reg_r with (PI / 4); try lra; field_simplify; lra. }
  unfold upolar; rcase; [|rcase; [|rcase]]; simpl; split;
    try (rewrite ?Rabs_Ropp, Rabs_pos_eq; lra).
  - replace (phi * r / (PI / 4)) with (phi / (PI / 4) * r) by (field; lra). apply K, Q; lra.
  - replace (- (phi - PI / 2) * r / (PI / 4)) with (- (phi - PI / 2) / (PI / 4) * r) by (field; lra). apply K, Q; lra.
  - replace (- (phi - PI) * r / (PI / 4)) with (- (phi - PI) / (PI / 4) * r) by (field; lra). apply K, Q; lra.
  - replace ((phi - 3 * PI / 2) * r / (PI / 4)) with ((phi - 3 * PI / 2) / (PI / 4) * r) by (field; lra). apply K, Q; lra.
Qed.

Lemma undisk_bound x y :
  Rabs (fst (undisk x y)) <= sqrt (x * x + y * y) /\ Rabs (snd (undisk x y)) <= sqrt (x * x + y * y).
Proof.
  apply upolar_bound; [apply sqrt_pos|apply wrap_range, arctan2_range].
Qed.

(** mirror symmetry *)
Lemma disk_mirror a b : dX (- a) b = - dX a b /\ dY (- a) b = dY a b.
Proof.
  unfold dX, dY, rr, ph, Rgtb.
  replace (- a * - a) with (a * a) by ring.
  rcase.
  - assert (a <> 0) by nra.
    replace (b / (2 * - a) * PI / 2) with (- (b / (2 * a) * PI / 2)) by (field; auto).
    rewrite cos_neg, sin_neg. split; ring.
  - rcase; [split; ring|].
    replace ((1 - - a / (2 * b)) * PI / 2) with (PI / 2 - - (a / (2 * b) * PI / 2)) by (field; auto).
    replace ((1 - a / (2 * b)) * PI / 2) with (PI / 2 - (a / (2 * b) * PI / 2)) by (field; auto).
    rewrite !cos_shift, !sin_shift, cos_neg, sin_neg. split; ring.
Qed.
Lemma undisk_mirror x y : undisk (- x) y = (- fst (undisk x y), snd (undisk x y)).
Proof.
  destruct (disk_undisk x y) as [D1 D2].
  set (a := fst (undisk x y)) in *. set (b := snd (undisk x y)) in *.
  destruct (disk_mirror a b) as [M1 M2].
  rewrite <- (undisk_disk (- a) b). rewrite M1, M2, D1, D2. reflexivity.
Qed.

(** ** unit sphere *)
Lemma sph_cancel r : -1 <= r <= 1 -> 0 < sqrt (2 - r * r).
Proof. intros; apply sqrt_lt_R0; nra. Qed.

Lemma uv2xyz_eq xsign u v :
  uv2xyz xyz_axes xsign (u, v) =
  let a := 2 * red_u u - 1 in let b := 2 * v - 1 in
  let s := sqrt (2 - rr a b * rr a b) in
  V3 (xsign * sgn_u u * dX a b * s) (dY a b * s) (sgn_u u * (1 - rr a b * rr a b)).
Proof.
  unfold uv2xyz, xyz_axes. simpl fst; simpl snd. rewrite concentric_eq. simpl.
  unfold dX, dY. apply vec3_ext; simpl; ring.
Qed.

Lemma axes_cases axes : axes_ok axes ->
  axes = (0,1,2)%nat \/ axes = (0,2,1)%nat \/ axes = (1,0,2)%nat \/
  axes = (1,2,0)%nat \/ axes = (2,0,1)%nat \/ axes = (2,1,0)%nat.
Proof.
  destruct axes as [[i j] k]; intros [[Hi [Hj Hk]] [H1 [H2 H3]]].
  assert (i = 0 \/ i = 1 \/ i = 2)%nat as [->|[->| ->]] by lia;
  assert (j = 0 \/ j = 1 \/ j = 2)%nat as [->|[->| ->]] by lia;
  assert (k = 0 \/ k = 1 \/ k = 2)%nat as [->|[->| ->]] by lia; try lia; intuition.
Qed.

(** the components of v read along axes *)
Definition permuted (axes : nat * nat * nat) (v : vec3) : vec3 :=
  let '(i, j, k) := axes in V3 (vget v i) (vget v j) (vget v k).

Lemma permuted_dot axes v : axes_ok axes -> dot (permuted axes v) (permuted axes v) = dot v v.
Proof.
  intros H; apply axes_cases in H. destruct v; unfold dot.
  repeat destruct H as [->|H]; [..|subst]; simpl; ring.
Qed.

Lemma uv2xyz_permuted axes xsign uv : axes_ok axes ->
  permuted axes (uv2xyz axes xsign uv) = uv2xyz xyz_axes xsign uv.
Proof.
  intros H; apply axes_cases in H. unfold uv2xyz. destruct (concentric _ _) as [[n r] phi].
  repeat destruct H as [->|H]; [..|subst]; reflexivity.
Qed.

Lemma xyz2uv_permuted axes flipu v : axes_ok axes ->
  xyz2uv false axes flipu v = xyz2uv false xyz_axes flipu (permuted axes v).
Proof. intros _. destruct axes as [[i j] k]. reflexivity. Qed.

Lemma permuted_inj axes v w : axes_ok axes -> permuted axes v = permuted axes w -> v = w.
Proof.
  intros H; apply axes_cases in H. destruct v, w.
  repeat destruct H as [->|H]; [..|subst]; simpl; intros E; inversion E; reflexivity.
Qed.

Lemma sgn_u_sqr u : sgn_u u * sgn_u u = 1.
Proof. unfold sgn_u; rcase; rcase; lra. Qed.
Lemma red_u_range u : 0 <= u <= 2 -> 0 <= red_u u <= 1.
Proof. intros; unfold red_u; rcase; rcase; lra. Qed.

Lemma uv2xyz_unit0 xsign uv : xsign * xsign = 1 -> in_dsquare uv ->
  dot (uv2xyz xyz_axes xsign uv) (uv2xyz xyz_axes xsign uv) = 1.
Proof.
  intros Hx [Hu Hv]. destruct uv as [u v]; simpl in Hu, Hv. rewrite uv2xyz_eq; cbv zeta.
  pose proof (red_u_range u Hu) as Hr.
  set (a := 2 * red_u u - 1). set (b := 2 * v - 1).
  assert (-1 <= rr a b <= 1) as Hrr by (apply rr_le1; unfold a, b; lra).
  pose proof (rr_sqr_disk a b) as E. pose proof (sgn_u_sqr u) as En.
  pose proof (sqrt_sqrt (2 - rr a b * rr a b)) as Es.
  unfold dot; simpl. set (s := sqrt (2 - rr a b * rr a b)) in *.
  assert (Es' : s * s = 2 - rr a b * rr a b) by (apply Es; nra).
  set (r := rr a b) in *. set (X := dX a b) in *. set (Y := dY a b) in *. set (n := sgn_u u) in *.
  replace (xsign * n * X * s * (xsign * n * X * s) + Y * s * (Y * s) + n * (1 - r * r) * (n * (1 - r * r)))
    with ((xsign * xsign) * (n * n) * (X * X) * (s * s) + (Y * Y) * (s * s) + (n * n) * ((1 - r * r) * (1 - r * r))) by ring.
  rewrite Hx, En, Es'. replace (1 * 1 * (X * X) * (2 - r * r) + Y * Y * (2 - r * r)) with ((X * X + Y * Y) * (2 - r * r)) by ring.
  rewrite E; ring.
Qed.

Lemma uv2xyz_unit axes xsign uv :
  axes_ok axes -> xsign = 1 \/ xsign = -1 -> in_dsquare uv -> vnorm (uv2xyz axes xsign uv) = 1.
Proof.
  intros Ha Hx Hd. apply vnorm_1.
  rewrite <- (permuted_dot axes) by auto. rewrite uv2xyz_permuted by auto.
  apply uv2xyz_unit0; auto. destruct Hx; subst; ring.
Qed.

Lemma uv2xyz_hemisphere axes xsign uv :
  axes_ok axes -> in_dsquare uv ->
  (fst uv <= 1 -> 0 <= vget (uv2xyz axes xsign uv) (snd axes)) /\
  (1 < fst uv -> vget (uv2xyz axes xsign uv) (snd axes) <= 0).
Proof.
  intros Ha [Hu Hv].
  assert (Ep : vget (uv2xyz axes xsign uv) (snd axes) = vz (uv2xyz xyz_axes xsign uv)).
  { rewrite <- (uv2xyz_permuted axes xsign uv Ha). destruct axes as [[i j] k]; reflexivity. }
  rewrite Ep; clear Ep. destruct uv as [u v]; cbn [fst snd] in *. rewrite uv2xyz_eq; cbv zeta; simpl vz.
  pose proof (red_u_range u Hu) as Hr.
  set (a := 2 * red_u u - 1). set (b := 2 * v - 1).
  assert (-1 <= rr a b <= 1) as Hrr by (apply rr_le1; unfold a, b; lra).
  assert (0 <= 1 - rr a b * rr a b) by nra.
  unfold sgn_u, Rgtb; split; intros; rcase; nra.
Qed.

(** characterisation of xyz2uv through undisk *)
Definition sgn_z (z : R) : R := if Rltb z 0 then -1 else 1.
Lemma sgn_z_cases z : (z < 0 /\ sgn_z z = -1) \/ (0 <= z /\ sgn_z z = 1).
Proof. unfold sgn_z; rcase; lra. Qed.

Lemma xyz2uv_eq flipu v :
  xyz2uv false xyz_axes flipu v =
  let n := sgn_z (vz v) in
  let s := sqrt (2 - (1 - n * vz v)) in
  let a := undisk (vx v / s) (vy v / s) in
  (if flipu then ((if Rltb n 0 then 3 else 1) - fst a * n) / 2 else (fst a + 2 - n) / 2,
   (snd a + 1) / 2).
Proof. reflexivity. Qed.

Lemma xyz2uv_flip n :
  n = 1 \/ n = -1 -> (if Rltb n 0 then 3 else 1) = 2 - n.
Proof. intros [->| ->]; rcase; lra. Qed.

(** forward then back *)
Section ForwardBack.
  Variables (u v xsign : R).
  Let a := 2 * red_u u - 1.
  Let b := 2 * v - 1.
  Hypothesis Hok : (0 <= u <= 1 /\ 0 <= v <= 1) \/ (1 < u < 2 /\ 0 < v < 1).

  Lemma fb_rr : -1 <= rr a b <= 1.
  Proof.
    apply rr_le1; unfold a, b, red_u, Rgtb.
    - rcase; lra.
    - lra.
  Qed.
  Lemma fb_sgn : sgn_z (vz (uv2xyz xyz_axes xsign (u, v))) = sgn_u u.
  Proof.
    rewrite uv2xyz_eq; cbv zeta; simpl vz. fold a b.
    pose proof fb_rr as Hrr. unfold sgn_u, sgn_z, Rgtb in *.
    destruct Hok as [[Hu Hv]|[Hu Hv]].
    - case_Rltb 1 u; [lra|]. rcase; [nra|reflexivity].
    - case_Rltb 1 u; [|lra].
      assert (-1 < rr a b < 1).
      { apply rr_lt1; unfold a, b, red_u, Rgtb; [rcase; lra|lra]. }
      rcase; [reflexivity|nra].
  Qed.
  Lemma fb_undisk flipu :
    xsign = 1 \/ xsign = -1 ->
    xyz2uv false xyz_axes flipu (uv2xyz xyz_axes xsign (u, v)) =
    (let n := sgn_u u in
     if flipu then (2 - n - (xsign * n * a) * n) / 2 else (xsign * n * a + 2 - n) / 2,
     (b + 1) / 2).
  Proof.
    intros Hx. rewrite xyz2uv_eq; cbv zeta. rewrite fb_sgn.
    pose proof (uv2xyz_eq xsign u v) as E; cbv zeta in E; fold a b in E. rewrite E; clear E; simpl vx; simpl vy; simpl vz.
    pose proof fb_rr as Hrr. pose proof (sgn_u_sqr u) as En.
    set (n := sgn_u u) in *. set (r := rr a b) in *.
    assert (Es : 2 - (1 - n * (n * (1 - r * r))) = 2 - r * r).
    { rewrite <- Rmult_assoc, En; ring. }
    rewrite Es. set (s := sqrt (2 - r * r)) in *.
    assert (0 < s) by (apply sph_cancel; auto).
    replace (xsign * n * dX a b * s / s) with (xsign * n * dX a b) by (field; lra).
    replace (dY a b * s / s) with (dY a b) by (field; lra).
    assert (Hn : n = 1 \/ n = -1) by (unfold n, sgn_u, Rgtb; rcase; auto).
    rewrite xyz2uv_flip by auto.
    assert (Hu : undisk (xsign * n * dX a b) (dY a b) = (xsign * n * a, b)).
    { destruct Hx as [->| ->]; destruct Hn as [-> | ->].
      - rewrite !Rmult_1_l; apply undisk_disk.
      - replace (1 * -1 * dX a b) with (- dX a b) by ring.
        rewrite undisk_mirror, undisk_disk; simpl; f_equal; ring.
      - replace (-1 * 1 * dX a b) with (- dX a b) by ring.
        rewrite undisk_mirror, undisk_disk; simpl; f_equal; ring.
      - replace (-1 * -1 * dX a b) with (dX a b) by ring.
        rewrite undisk_disk; f_equal; ring. }
    rewrite Hu; simpl. destruct flipu; reflexivity.
  Qed.
End ForwardBack.

Lemma uv_roundtrip_flip u v :
  (0 <= u <= 1 /\ 0 <= v <= 1) \/ (1 < u < 2 /\ 0 < v < 1) ->
  xyz2uv false xyz_axes true (uv2xyz xyz_axes (-1) (u, v)) = (u, v).
Proof.
  intros H. rewrite fb_undisk by (auto; lra). unfold sgn_u, red_u, Rgtb.
  apply pair_eq; [|lra]. rcase; lra.
Qed.
Lemma uv_roundtrip_upper u v :
  0 <= u <= 1 -> 0 <= v <= 1 ->
  xyz2uv false xyz_axes false (uv2xyz xyz_axes 1 (u, v)) = (u, v).
Proof.
  intros Hu Hv. rewrite fb_undisk by (auto; lra). unfold sgn_u, red_u, Rgtb.
  apply pair_eq; [|lra]. rcase; lra.
Qed.
Lemma uv_roundtrip_lower_mirrored u v :
  1 < u < 2 -> 0 < v < 1 ->
  xyz2uv false xyz_axes false (uv2xyz xyz_axes 1 (u, v)) = (3 - u, v).
Proof.
  intros Hu Hv. rewrite fb_undisk by (auto; lra). unfold sgn_u, red_u, Rgtb.
  apply pair_eq; [|lra]. rcase; lra.
Qed.

(** back then forward *)
Section BackForward.
  Variable w : vec3.
  Hypothesis Hw : dot w w = 1.
  Let n := sgn_z (vz w).
  Let s := sqrt (2 - (1 - n * vz w)).
  Let A := undisk (vx w / s) (vy w / s).

  Lemma bf_n : n = 1 \/ n = -1.
  Proof. unfold n; destruct (sgn_z_cases (vz w)) as [[_ ->]|[_ ->]]; auto. Qed.
  Lemma bf_abs : 0 <= n * vz w <= 1.
  Proof.
    assert (vz w * vz w <= 1) by (unfold dot in Hw; nra).
    unfold n; destruct (sgn_z_cases (vz w)) as [[Hz ->]|[Hz ->]]; nra.
  Qed.
  Lemma bf_s : 0 < s /\ s * s = 1 + n * vz w.
  Proof.
    pose proof bf_abs. split.
    - apply sqrt_lt_R0; lra.
    - unfold s; rewrite sqrt_sqrt by lra; ring.
  Qed.
  Lemma bf_rho : (vx w / s) * (vx w / s) + (vy w / s) * (vy w / s) = 1 - n * vz w.
  Proof.
    destruct bf_s as [Hs Es]. pose proof bf_abs. pose proof bf_n as Hn.
    apply Rmult_eq_reg_r with (s * s); [|nra].
    replace (((vx w / s) * (vx w / s) + (vy w / s) * (vy w / s)) * (s * s)) with (vx w * vx w + vy w * vy w) by (field; lra).
    rewrite Es. replace ((1 - n * vz w) * (1 + n * vz w)) with (1 - (n * n) * (vz w * vz w)) by ring.
    unfold dot in Hw. destruct Hn as [->| ->]; lra.
  Qed.
  Lemma bf_bound : -1 <= fst A <= 1 /\ -1 <= snd A <= 1 /\ (vz w < 0 -> -1 < fst A < 1).
  Proof.
    pose proof (undisk_bound (vx w / s) (vy w / s)) as [B1 B2]. fold A in B1, B2.
    rewrite bf_rho in B1, B2. pose proof bf_abs.
    assert (sqrt (1 - n * vz w) <= 1) by (apply sqrt_le_one; lra).
    repeat split; try (apply Rabs_le_inv in B1; apply Rabs_le_inv in B2; lra);
    assert (n * vz w > 0) by (unfold n; destruct (sgn_z_cases (vz w)) as [[_ ->]|[? _]]; lra);
    (assert (sqrt (1 - n * vz w) < 1) by (apply sqrt_lt_one; lra));
    apply Rabs_le_inv in B1; lra.
  Qed.
  Lemma bf_uv flipu :
    xyz2uv false xyz_axes flipu w =
      (if flipu then (2 - n - fst A * n) / 2 else (fst A + 2 - n) / 2, (snd A + 1) / 2).
  Proof.
    rewrite xyz2uv_eq; cbv zeta. fold n; fold s; fold A. rewrite xyz2uv_flip by apply bf_n.
    reflexivity.
  Qed.
  Lemma bf_range flipu :
    let uv := xyz2uv false xyz_axes flipu w in
    (0 <= vz w -> 0 <= fst uv <= 1) /\ (vz w < 0 -> 1 < fst uv < 2) /\ 0 <= snd uv <= 1.
  Proof.
    cbv zeta; rewrite bf_uv; simpl. pose proof bf_bound as [B1 [B2 B3]].
    split; [|split]; [| |lra]; intros Hz; unfold n; destruct (sgn_z_cases (vz w)) as [[? ->]|[? ->]]; try lra.
    - destruct flipu; lra.
    - specialize (B3 Hz). destruct flipu; lra.
  Qed.
  (** general reconstruction: for flipu, xsign the x component picks up a sign *)
  Lemma bf_back flipu xsign :
    xsign = 1 \/ xsign = -1 ->
    uv2xyz xyz_axes xsign (xyz2uv false xyz_axes flipu w) =
      V3 ((if flipu then - xsign else xsign * n) * vx w) (vy w) (vz w).
  Proof.
    intros Hx. pose proof (bf_range flipu) as HR. cbv zeta in HR.
    rewrite bf_uv in *. simpl fst in HR; simpl snd in HR.
    pose proof bf_bound as [B1 [B2 B3]].
    destruct bf_s as [Hs Es]. pose proof bf_rho as Erho.
    destruct (disk_undisk (vx w / s) (vy w / s)) as [D1 D2]. fold A in D1, D2.
    set (u := if flipu then (2 - n - fst A * n) / 2 else (fst A + 2 - n) / 2) in *.
    rewrite uv2xyz_eq; cbv zeta.
    assert (Esu : sgn_u u = n).
    { unfold sgn_u, Rgtb. destruct (sgn_z_cases (vz w)) as [[Hz Hn]|[Hz Hn]]; fold n in Hn; rewrite Hn.
      - rcase; [reflexivity|]. destruct HR as [_ [HR _]]; specialize (HR Hz); lra.
      - rcase; [|reflexivity]. destruct HR as [HR _]; specialize (HR Hz); lra. }
    assert (Ea : exists k, (k = 1 \/ k = -1) /\ 2 * red_u u - 1 = k * fst A /\ (k = if flipu then - n else 1)).
    { exists (if flipu then - n else 1). pose proof bf_n as Hn. split; [|split]; auto.
      - destruct flipu; [destruct Hn as [->| ->]|]; [right|left|left]; ring.
      - assert (Er : red_u u = u - (1 - n) / 2).
        { unfold red_u, Rgtb. unfold sgn_u, Rgtb in Esu. case_Rltb 1 u; lra. }
        rewrite Er. unfold u. destruct flipu; destruct Hn as [->| ->]; lra. }
    destruct Ea as [k [Hk [Ea Ek]]].
    rewrite Ea. replace (2 * ((snd A + 1) / 2) - 1) with (snd A) by field.
    assert (Edx : dX (k * fst A) (snd A) = k * (vx w / s) /\ dY (k * fst A) (snd A) = vy w / s).
    { destruct (disk_mirror (fst A) (snd A)) as [M1 M2].
      destruct Hk as [->| ->].
      - rewrite !Rmult_1_l; auto.
      - replace (-1 * fst A) with (- fst A) by ring. rewrite M1, M2, D1, D2; split; ring. }
    destruct Edx as [EX EY].
    assert (Err : rr (k * fst A) (snd A) * rr (k * fst A) (snd A) = 1 - n * vz w).
    { rewrite <- rr_sqr_disk, EX, EY, <- Erho. destruct Hk as [->| ->]; ring. }
    rewrite EX, EY, Err, Esu. fold s.
    pose proof bf_n as Hn.
    apply vec3_ext; simpl.
    - rewrite Ek. destruct flipu; destruct Hn as [->| ->]; field; lra.
    - field; lra.
    - destruct Hn as [->| ->]; ring.
  Qed.
End BackForward.

Lemma xyz_roundtrip_flip w : vnorm w = 1 ->
  uv2xyz xyz_axes (-1) (xyz2uv false xyz_axes true w) = w.
Proof.
  intros H; apply vnorm_1 in H. rewrite bf_back by auto. apply vec3_ext; simpl; ring.
Qed.
Lemma xyz_roundtrip_upper w : vnorm w = 1 -> 0 <= vz w ->
  uv2xyz xyz_axes 1 (xyz2uv false xyz_axes false w) = w.
Proof.
  intros H Hz; apply vnorm_1 in H. rewrite bf_back by auto.
  destruct (sgn_z_cases (vz w)) as [[? ->]|[? ->]]; [lra|]. apply vec3_ext; simpl; ring.
Qed.
Lemma xyz_roundtrip_lower_mirrored w : vnorm w = 1 -> vz w < 0 ->
  uv2xyz xyz_axes 1 (xyz2uv false xyz_axes false w) = V3 (- vx w) (vy w) (vz w).
Proof.
  intros H Hz; apply vnorm_1 in H. rewrite bf_back by auto.
  destruct (sgn_z_cases (vz w)) as [[? ->]|[? ->]]; [|lra]. apply vec3_ext; simpl; ring.
Qed.

Lemma xyz2uv_range0 flipu w : vnorm w = 1 ->
  let uv := xyz2uv false xyz_axes flipu w in
  (0 <= vz w -> 0 <= fst uv <= 1) /\ (vz w < 0 -> 1 < fst uv < 2) /\ 0 <= snd uv <= 1.
Proof. intros H; apply vnorm_1 in H. apply bf_range; auto. Qed.

(** uv2xy *)
Lemma uv2xy_eq u v : uv2xy (u, v) =
  (sgn_u u * dX (2 * red_u u - 1) (2 * v - 1), dY (2 * red_u u - 1) (2 * v - 1)).
Proof.
  unfold uv2xy; simpl fst; simpl snd. rewrite concentric_eq. unfold dX, dY.
  apply pair_eq; ring.
Qed.
Lemma uv2xy_radius u v : u <= 1 ->
  let '(x, y) := uv2xy (u, v) in sqrt (x * x + y * y) = Rmax (Rabs (2 * u - 1)) (Rabs (2 * v - 1)).
Proof.
  intros Hu. rewrite uv2xy_eq.
  assert (sgn_u u = 1 /\ red_u u = u) as [-> ->] by (unfold sgn_u, red_u, Rgtb; rcase; [lra|auto]).
  rewrite Rmult_1_l. rewrite rr_sqr_disk, <- rr_abs.
  replace (rr (2 * u - 1) (2 * v - 1) * rr (2 * u - 1) (2 * v - 1)) with (Rsqr (rr (2 * u - 1) (2 * v - 1))) by reflexivity.
  apply sqrt_Rsqr_abs.
Qed.
Lemma uv2xy_uv2xyz u v :
  let '(x, y) := uv2xy (u, v) in
  let r2 := x * x + y * y in
  let n := if Rgtb u 1 then -1 else 1 in
  uv2xyz xyz_axes 1 (u, v) = V3 (x * sqrt (2 - r2)) (y * sqrt (2 - r2)) (n * (1 - r2)).
Proof.
  rewrite uv2xy_eq. rewrite uv2xyz_eq. cbv zeta.
  set (a := 2 * red_u u - 1). set (b := 2 * v - 1).
  assert (E : sgn_u u * dX a b * (sgn_u u * dX a b) + dY a b * dY a b = rr a b * rr a b).
  { rewrite <- rr_sqr_disk. replace (sgn_u u * dX a b * (sgn_u u * dX a b)) with ((sgn_u u * sgn_u u) * (dX a b * dX a b)) by ring.
    rewrite sgn_u_sqr; ring. }
  rewrite E. apply vec3_ext; simpl; try reflexivity; ring.
Qed.

Lemma xyz_roundtrip_axes axes flipu xsign w :
  axes_ok axes -> vnorm w = 1 ->
  (xsign = -1 /\ flipu = true) \/ (xsign = 1 /\ flipu = false /\ 0 <= vget w (snd axes)) ->
  uv2xyz axes xsign (xyz2uv false axes flipu w) = w.
Proof.
  intros Ha Hw H. apply (permuted_inj axes); auto.
  rewrite uv2xyz_permuted by auto. rewrite (xyz2uv_permuted axes) by auto.
  assert (Hp : vnorm (permuted axes w) = 1) by (apply vnorm_1; rewrite permuted_dot by auto; apply vnorm_1; auto).
  destruct H as [[-> ->]|[-> [-> Hz]]].
  - apply xyz_roundtrip_flip; auto.
  - apply xyz_roundtrip_upper; auto. destruct axes as [[i j] k]; exact Hz.
Qed.
