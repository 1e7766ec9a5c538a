(** Proofs about SolidViewMapper / PerspectiveViewMapper and reprojection *)
From Coq Require Import Lra Lia Psatz.
From Verif Require Import Base L_Base L_Trig M_Translate S_Translate L_Concentric L_Bins L_Angles M_Mapper S_Mapper L_Mapper.
Local Open Scope R_scope.

Lemma eps9_pos : 0 < eps9 < / 10 ^ 8.
Proof. unfold eps9. lra. Qed.
Lemma hyp_pd p : hyp p = pd p. Proof. reflexivity. Qed.

Section S.
  Variables (d : vec3) (va : R).
  Hypothesis H : hemi_angle va.
  Let vm := mk_view d va.
  Let vs := va * PI / 180.

  Lemma vs_eq : vs = 2 * half va. Proof. unfold vs, half; field. Qed.
  Lemma vs_pos : 0 < vs <= PI.
  Proof. rewrite vs_eq. pose proof (half_range va H). lra. Qed.
  Lemma vm_va : vm_viewangle vm = va. Proof. apply mk_view_hemi_va; auto. Qed.

  (** radius factor of the solid -> angular map *)
  Definition sfac (r : R) : R := sin (r / 2) * PI / sqrt 2 / (r + eps9).

  Lemma solid_as_angular xy :
    solid_vxy2xyz vm xy =
    vxy2xyz vm (1 / 2 + (fst xy - 1 / 2) * sfac (vs * pdist xy center),
                1 / 2 + (snd xy - 1 / 2) * sfac (vs * pdist xy center)).
  Proof.
    unfold solid_vxy2xyz. rewrite vm_va. fold vs. pose proof vs_pos as P. pose proof eps9_pos as E. pose proof sqrt2_pos as S2.
    assert (Hr : hyp ((fst xy - 1 / 2) * vs, (snd xy - 1 / 2) * vs) = vs * pdist xy center).
    { rewrite hyp_pd, pdist_center. rewrite <- (Rabs_right vs) at 3 by lra. rewrite <- pd_scale. unfold pd, square; cbn [fst snd]. f_equal; ring. }
    rewrite Hr. set (r := vs * pdist xy center). assert (R0 : 0 <= r).
    { unfold r. apply Rmult_le_pos; [lra|apply sqrt_pos]. }
    unfold vm. rewrite vxy2xyz_eq. fold vm. cbn [fst snd]. f_equal. f_equal. unfold vscl, sfac. fold vm. rewrite vm_va.
    apply pair_eq; field; repeat split; lra.
  Qed.

  Lemma angular_radius xy k : 0 <= k -> pdist (1 / 2 + (fst xy - 1 / 2) * k, 1 / 2 + (snd xy - 1 / 2) * k) center = k * pdist xy center.
  Proof.
    intros K. rewrite !pdist_center. cbn [fst snd]. rewrite <- (Rabs_right k) at 3 by lra. rewrite <- pd_scale.
    unfold pd, square; cbn [fst snd]. f_equal; ring.
  Qed.
  Lemma sfac_nonneg r : 0 <= r <= PI -> 0 <= sfac r.
  Proof.
    intros R0. unfold sfac. pose proof eps9_pos. pose proof PI_pos. pose proof sqrt2_pos.
    assert (0 <= sin (r / 2)) by (apply sin_ge_0; lra).
    assert (0 < / sqrt 2) by (apply Rinv_0_lt_compat; lra). assert (0 < / (r + eps9)) by (apply Rinv_0_lt_compat; lra).
    change (0 <= sin (r / 2) * PI * / sqrt 2 * / (r + eps9)).
    apply Rmult_le_pos; [apply Rmult_le_pos; [apply Rmult_le_pos|]|]; lra.
  Qed.
  Lemma sfac_mul r : 0 <= r <= PI / 2 -> sfac r * r <= sin (r / 2) * PI / sqrt 2 <= PI / 2.
  Proof.
    intros R0. pose proof eps9_pos. pose proof PI_pos. pose proof sqrt2_pos. pose proof sqrt2_sqr.
    assert (S0 : 0 <= sin (r / 2)) by (apply sin_ge_0; lra).
    assert (S1 : sin (r / 2) <= sqrt 2 / 2). { rewrite <- sin_PI4'. destruct (Req_EM_T (r / 2) (PI / 4)) as [-> |]; [lra|]. left; apply sin_increasing_1; lra. }
    assert (I : 0 < / sqrt 2) by (apply Rinv_0_lt_compat; lra).
    set (c := sin (r / 2) * PI / sqrt 2). assert (0 <= c) by (unfold c, Rdiv; apply Rmult_le_pos; [apply Rmult_le_pos|]; lra).
    split.
    - unfold sfac. fold c. replace (c / (r + eps9) * r) with (c * (r / (r + eps9))) by (field; lra).
      rewrite <- (Rmult_1_r c) at 2. apply Rmult_le_compat_l; auto.
      apply Rmult_le_reg_r with (r + eps9); [lra|]. unfold Rdiv. rewrite Rmult_assoc, Rinv_l by lra. lra.
    - unfold c. apply Rmult_le_reg_r with (sqrt 2); [lra|]. unfold Rdiv. rewrite Rmult_assoc, Rinv_l by lra.
      apply Rle_trans with (sqrt 2 / 2 * PI * 1); [|lra]. rewrite !Rmult_1_r. apply Rmult_le_compat_r; lra.
  Qed.

  (** what an image point of the solid view is in the angular image of the same view *)
  Lemma solid_to_angular xy : pdist xy center <= 1 / 2 ->
    xyz2vxy vm (solid_vxy2xyz vm xy) =
    (1 / 2 + (fst xy - 1 / 2) * sfac (vs * pdist xy center), 1 / 2 + (snd xy - 1 / 2) * sfac (vs * pdist xy center)).
  Proof.
    intros L. rewrite solid_as_angular. pose proof vs_pos as P. pose proof PI_pos.
    set (rho := pdist xy center) in *. assert (R0 : 0 <= rho) by apply sqrt_pos.
    assert (B : 0 <= vs * rho <= PI / 2) by (pose proof (half_range va H); pose proof vs_eq; nra).
    apply xyz2vxy_of; auto. pose proof (sfac_nonneg (vs * rho) ltac:(lra)) as K.
    rewrite angular_radius by auto. fold rho. pose proof (sfac_mul _ B) as [M1 M2].
    unfold vscl. fold vm. rewrite vm_va. pose proof (chordfactor_bounds d va H) as [_ C]. fold vm in C.
    assert (M : sfac (vs * rho) * rho * vs <= PI / 2) by nra.
    assert (Q : sfac (vs * rho) * rho * (va * vm_chordfactor vm / 180) = sfac (vs * rho) * rho * vs * (vm_chordfactor vm / PI)).
    { unfold vs; field. lra. }
    rewrite Q. assert (0 <= sfac (vs * rho) * rho * vs) by (apply Rmult_le_pos; [apply Rmult_le_pos|]; lra).
    apply Rle_lt_trans with (PI / 2 * (1 / PI)).
    - apply Rmult_le_compat; auto.
      + apply Rmult_le_pos; [|left; apply Rinv_0_lt_compat; lra]. 
        pose proof sqrt2_pos. assert (0 < sqrt 2 * 2 / PI) by (apply Rdiv_lt_0_compat; lra). lra.
      + apply Rmult_le_compat_r; [left; apply Rinv_0_lt_compat; lra|lra].
    - replace (PI / 2 * (1 / PI)) with (1 / 2) by (field; lra). lra.
  Qed.

  (** radius factor of the angular -> solid map *)
  Definition afac (ra : R) : R := 2 * asin (ra * sqrt 2 / PI) / (ra + eps9).
  Lemma solid_xyz2vxy_eq v :
    let p := xyz2vxy vm v in
    solid_xyz2vxy vm v = (1 / 2 + (fst p - 1 / 2) * afac (vs * pdist p center), 1 / 2 + (snd p - 1 / 2) * afac (vs * pdist p center)).
  Proof.
    intros p. unfold solid_xyz2vxy. fold p. rewrite vm_va. fold vs. pose proof vs_pos as P. pose proof eps9_pos as E.
    assert (Hr : hyp ((fst p - 1 / 2) * vs, (snd p - 1 / 2) * vs) = vs * pdist p center).
    { rewrite hyp_pd, pdist_center. rewrite <- (Rabs_right vs) at 3 by lra. rewrite <- pd_scale. unfold pd, square; cbn [fst snd]. f_equal; ring. }
    rewrite Hr. set (r := vs * pdist p center). assert (R0 : 0 <= r).
    { unfold r. apply Rmult_le_pos; [lra|apply sqrt_pos]. }
    cbn [fst snd]. unfold afac. apply pair_eq; field; repeat split; lra.
  Qed.

  (** scalar core of the round trip *)
  Lemma solid_scalar r : 0 < r <= PI / 2 ->
    let q := sfac r * r in
    - (2 * sqrt 2 * eps9) <= sfac r * afac q * r - r <= 0.
  Proof.
    intros R0 q. pose proof eps9_pos as E. pose proof PI_pos as PP. pose proof sqrt2_bound as S2. pose proof sqrt2_sqr as S22.
    set (y := sin (r / 2) * (r / (r + eps9))).
    assert (Sn : 0 < sin (r / 2)) by (apply sin_gt_0; lra).
    assert (Sm : sin (r / 2) <= sqrt 2 / 2). { rewrite <- sin_PI4'. destruct (Req_EM_T (r / 2) (PI / 4)) as [-> |]; [lra|]. left; apply sin_increasing_1; lra. }
    assert (F : 0 < r / (r + eps9) < 1).
    { split; [apply Rdiv_lt_0_compat; lra|]. apply Rmult_lt_reg_r with (r + eps9); [lra|]. unfold Rdiv. rewrite Rmult_assoc, Rinv_l by lra. lra. }
    assert (Y : 0 < y < sin (r / 2)) by (unfold y; split; nra).
    assert (Q : q * sqrt 2 / PI = y).
    { unfold q, sfac, y. replace (sin (r / 2) * PI / sqrt 2 / (r + eps9) * r * sqrt 2 / PI) with (sin (r / 2) * (r / (r + eps9))) by (field; lra). reflexivity. }
    assert (Qe : q = y * PI / sqrt 2) by (rewrite <- Q; field; lra).
    assert (Qp : 0 < q). { rewrite Qe. apply Rdiv_lt_0_compat; nra. }
    set (r' := 2 * asin y).
    assert (A1 : r' <= r).
    { unfold r'. assert (asin y <= asin (sin (r / 2))) by (apply asin_mono; lra). rewrite asin_sin' in H0 by lra. lra. }
    assert (A0 : 0 < r'). { unfold r'. pose proof (asin_ge y ltac:(lra)). lra. }
    assert (A2 : r - r' <= sqrt 2 * eps9).
    { unfold r'. pose proof (asin_slope y (sin (r / 2)) ltac:(lra) ltac:(lra) Sm) as D. rewrite asin_sin' in D by lra.
      assert (D2 : sin (r / 2) - y <= eps9 / 2).
      { unfold y. replace (sin (r / 2) - sin (r / 2) * (r / (r + eps9))) with (sin (r / 2) * (eps9 / (r + eps9))) by (field; lra).
        assert (sin (r / 2) <= r / 2) by (apply sin_le_x; lra).
        assert (0 < eps9 / (r + eps9)) by (apply Rdiv_lt_0_compat; lra).
        apply Rle_trans with (r / 2 * (eps9 / (r + eps9))); [apply Rmult_le_compat_r; lra|].
        replace (r / 2 * (eps9 / (r + eps9))) with (eps9 / 2 * (r / (r + eps9))) by (field; lra). nra. }
      nra. }
    assert (A3 : r' <= sqrt 2 * q).
    { unfold r'. pose proof (asin_le_lin y ltac:(lra)). rewrite Qe. replace (sqrt 2 * (y * PI / sqrt 2)) with (2 * (PI / 2 * y)) by (field; lra). lra. }
    assert (Fin : sfac r * afac q * r = r' * (q / (q + eps9))).
    { replace (sfac r * afac q * r) with (q * afac q) by (unfold q; ring). unfold afac. rewrite Q. fold r'. field. lra. }
    rewrite Fin. set (g := q / (q + eps9)).
    assert (G : g = 1 - eps9 / (q + eps9)) by (unfold g; field; lra).
    assert (G1 : 0 < eps9 / (q + eps9)) by (apply Rdiv_lt_0_compat; lra).
    assert (G2 : r' * (eps9 / (q + eps9)) <= sqrt 2 * eps9).
    { apply Rle_trans with (sqrt 2 * q * (eps9 / (q + eps9))); [apply Rmult_le_compat_r; lra|].
      replace (sqrt 2 * q * (eps9 / (q + eps9))) with (sqrt 2 * eps9 * (q / (q + eps9))) by (field; lra). fold g.
      assert (g <= 1) by lra. nra. }
    assert (G3 : 0 <= r' * (eps9 / (q + eps9))) by nra.
    rewrite G. split; lra.
  Qed.

  Lemma solid_roundtrip xy : pdist xy center <= 1 / 2 ->
    pdist (solid_xyz2vxy vm (solid_vxy2xyz vm xy)) xy <= 2 * sqrt 2 * eps9 / vs.
  Proof.
    intros L. rewrite solid_xyz2vxy_eq. rewrite solid_to_angular by auto. pose proof vs_pos as P. pose proof PI_pos.
    pose proof eps9_pos as E. pose proof sqrt2_pos as S2.
    set (rho := pdist xy center) in *. assert (R0 : 0 <= rho) by apply sqrt_pos.
    assert (B : 0 <= vs * rho <= PI / 2) by (pose proof (half_range va H); pose proof vs_eq; nra).
    pose proof (sfac_nonneg (vs * rho) ltac:(lra)) as K.
    rewrite angular_radius by auto. fold rho. cbn [fst snd].
    replace (vs * (sfac (vs * rho) * rho)) with (sfac (vs * rho) * (vs * rho)) by ring.
    set (r := vs * rho) in *. set (k := sfac r * afac (sfac r * r)).
    assert (Ed : forall x, 1 / 2 + (1 / 2 + (x - 1 / 2) * sfac r - 1 / 2) * afac (sfac r * r) - x = (k - 1) * (x - 1 / 2)).
    { intros x. unfold k. ring. }
    rewrite pdist_pd. cbn [fst snd]. rewrite !Ed. pose proof (pd_scale (k - 1) (fst xy - 1 / 2, snd xy - 1 / 2)) as PS. cbn [fst snd] in PS. rewrite PS.
    change (pd (fst xy - 1 / 2, snd xy - 1 / 2)) with rho.
    apply Rmult_le_reg_r with vs; [lra|]. replace (2 * sqrt 2 * eps9 / vs * vs) with (2 * sqrt 2 * eps9) by (field; lra).
    replace (Rabs (k - 1) * rho * vs) with (Rabs (k - 1) * r) by (unfold r; ring).
    destruct (Req_EM_T r 0) as [Z|Z]; [rewrite Z; nra|].
    rewrite <- (Rabs_right r) by lra. rewrite <- Rabs_mult. apply Rabs_le.
    pose proof (solid_scalar r ltac:(lra)) as Sc. cbv zeta in Sc. fold k in Sc. nra.
  Qed.

  (** image radius of a ray at angle t *)
  Lemma solid_radius v : regular_dir d -> dot v v = 1 ->
    let t := angle (norm d) v in
    pdist (solid_xyz2vxy vm v) center =
      afac (t / vm_chordfactor vm) * (t / vm_chordfactor vm) / vs.
  Proof.
    intros G V t. rewrite solid_xyz2vxy_eq. pose proof vs_pos as P. pose proof eps9_pos.
    assert (R : pdist (xyz2vxy vm v) center = t / (vm_chordfactor vm * vs)).
    { unfold xyz2vxy. unfold vm at 1. rewrite mk_view_hemi_aspect by auto. cbn [Z.eqb Pos.eqb]. unfold vm. rewrite pdist_radius by auto.
      fold vm t. rewrite vs_eq. f_equal; ring. }
    pose proof (cf_half_pos d va H) as C. fold vm in C. pose proof (half_range va H) as HH.
    assert (C0 : 0 < vm_chordfactor vm) by nra.
    set (cf := vm_chordfactor vm) in *.
    assert (T0 : 0 <= t) by apply acos_bound.
    assert (TC : 0 <= t / cf) by (apply Rmult_le_pos; [lra|left; apply Rinv_0_lt_compat; lra]).
    assert (E : vs * pdist (xyz2vxy vm v) center = t / cf) by (rewrite R; field; lra).
    rewrite E. rewrite (angular_radius (xyz2vxy vm v)).
    - rewrite R. field. lra.
    - unfold afac. apply Rmult_le_pos; [|left; apply Rinv_0_lt_compat; lra].
      apply Rmult_le_pos; [lra|].
      assert (0 <= t / cf * sqrt 2 / PI).
      { pose proof PI_pos. pose proof sqrt2_pos. apply Rmult_le_pos; [apply Rmult_le_pos; lra|]. left; apply Rinv_0_lt_compat; lra. }
      destruct (Rle_lt_dec (t / cf * sqrt 2 / PI) 1) as [Q|Q].
      + apply asin_nonneg; lra.
      + unfold asin. destruct (Rle_dec (t / cf * sqrt 2 / PI) (-1)); [lra|]. destruct (Rle_dec 1 (t / cf * sqrt 2 / PI)); [pose proof PI_pos; lra|lra].
  Qed.
End S.

(** * reprojection between the angular and the equisolid image *)
Lemma afac_mul u : 0 <= u -> afac u * u = 2 * asin (u * sqrt 2 / PI) * (u / (u + eps9)).
Proof. intros U. unfold afac. pose proof eps9_pos. field. lra. Qed.
Lemma efrac u : 0 <= u -> 0 <= u / (u + eps9) <= 1.
Proof.
  intros U. pose proof eps9_pos. split.
  - apply Rmult_le_pos; [lra|left; apply Rinv_0_lt_compat; lra].
  - apply Rmult_le_reg_r with (u + eps9); [lra|]. unfold Rdiv. rewrite Rmult_assoc, Rinv_l by lra. lra.
Qed.

(** an angular image pixel of a 180 degree view reads the equisolid image at the
    same azimuth and at the equisolid radius of its angle *)
Lemma solid2ang_radius d xy : pdist xy center <= 1 / 2 ->
  let q := xyz2vxy (mk_view d 180) (solid_vxy2xyz (mk_view d 180) xy) in
  exists k, 0 <= k /\ q = (1 / 2 + (fst xy - 1 / 2) * k, 1 / 2 + (snd xy - 1 / 2) * k) /\
  - eps9 <= pdist q center - equisolid_radius (PI / 2) (PI * pdist xy center) <= 0.
Proof.
  intros L q. pose proof PI_pos as PP. pose proof eps9_pos as E. pose proof sqrt2_bound as S2. pose proof sqrt2_sqr as S22.
  pose proof PI_lo as PL.
  set (rho := pdist xy center) in *. assert (R0 : 0 <= rho) by apply sqrt_pos.
  assert (V : 180 * PI / 180 = PI) by field.
  exists (sfac (PI * rho)).
  assert (B : 0 <= PI * rho <= PI / 2) by nra.
  pose proof (sfac_nonneg (PI * rho) ltac:(lra)) as K. split; [auto|].
  assert (Q : q = (1 / 2 + (fst xy - 1 / 2) * sfac (PI * rho), 1 / 2 + (snd xy - 1 / 2) * sfac (PI * rho))).
  { unfold q. rewrite solid_to_angular by (auto; apply hemi_180). rewrite V. reflexivity. }
  split; [exact Q|]. rewrite Q. rewrite angular_radius by auto. fold rho.
  unfold equisolid_radius. replace (PI / 2 / 2) with (PI / 4) by field. rewrite sin_PI4'.
  set (s := sin (PI * rho / 2)). assert (S0 : 0 <= s) by (apply sin_ge_0; lra).
  assert (S1 : s <= PI * rho / 2).
  { unfold s. destruct (Req_EM_T rho 0) as [Z|Z]; [rewrite Z; replace (PI * 0 / 2) with 0 by field; rewrite sin_0; lra|]. apply sin_le_x. nra. }
  assert (F : sfac (PI * rho) * rho = s / sqrt 2 * (PI * rho / (PI * rho + eps9))).
  { unfold sfac. fold s. field. split; lra. }
  rewrite F. replace (s / (2 * (sqrt 2 / 2))) with (s / sqrt 2) by (field; lra).
  replace (s / sqrt 2 * (PI * rho / (PI * rho + eps9)) - s / sqrt 2) with (- (s / sqrt 2 * (eps9 / (PI * rho + eps9)))) by (field; lra).
  assert (I : 0 < / sqrt 2 < 1). { split; [apply Rinv_0_lt_compat; lra|]. rewrite <- Rinv_1. apply Rinv_lt_contravar; lra. }
  assert (G : 0 < eps9 / (PI * rho + eps9)) by (apply Rdiv_lt_0_compat; lra).
  assert (X : s * (eps9 / (PI * rho + eps9)) <= eps9).
  { apply Rle_trans with (PI * rho / 2 * (eps9 / (PI * rho + eps9))); [apply Rmult_le_compat_r; lra|].
    replace (PI * rho / 2 * (eps9 / (PI * rho + eps9))) with (eps9 / 2 * (PI * rho / (PI * rho + eps9))) by (field; lra).
    pose proof (efrac (PI * rho) ltac:(lra)). nra. }
  assert (X0 : 0 <= s * (eps9 / (PI * rho + eps9))) by nra.
  replace (s / sqrt 2 * (eps9 / (PI * rho + eps9))) with (s * (eps9 / (PI * rho + eps9)) * / sqrt 2) by (field; lra).
  split; nra.
Qed.

(** the reverse conversion: an output pixel of an equisolid image at radius
    rho <= 1/2 reads the angular image where the angle of that radius lies *)
Lemma ang2solid_radius d xy : pdist xy center <= 1 / 2 ->
  let q := solid_xyz2vxy (mk_view d 180) (vxy2xyz (mk_view d 180) xy) in
  exists k, 0 <= k /\ q = (1 / 2 + (fst xy - 1 / 2) * k, 1 / 2 + (snd xy - 1 / 2) * k) /\
  exists t, 0 <= t <= PI / 2 /\ equisolid_radius (PI / 2) t = pdist xy center /\
            - eps9 <= pdist q center - t / PI <= 0.
Proof.
  intros L q. pose proof PI_pos as PP. pose proof eps9_pos as E. pose proof sqrt2_bound as S2. pose proof sqrt2_sqr as S22.
  pose proof PI_lo as PL.
  set (rho := pdist xy center) in *. assert (R0 : 0 <= rho) by apply sqrt_pos.
  assert (V : 180 * PI / 180 = PI) by field.
  assert (Q : q = (1 / 2 + (fst xy - 1 / 2) * afac (PI * rho), 1 / 2 + (snd xy - 1 / 2) * afac (PI * rho))).
  { unfold q. rewrite solid_xyz2vxy_eq by apply hemi_180. cbv zeta.
    rewrite xyz2vxy_of by (try apply hemi_180; unfold vscl; rewrite mk_view_hemi_va by apply hemi_180;
      pose proof (chordfactor_bounds d 180 hemi_180) as [_ C]; fold rho; nra).
    rewrite V. reflexivity. }
  assert (Y : PI * rho * sqrt 2 / PI = rho * sqrt 2) by (field; lra).
  set (y := rho * sqrt 2) in *. assert (Yb : 0 <= y <= sqrt 2 / 2) by (unfold y; nra).
  assert (A0 : 0 <= asin y) by (apply asin_nonneg; lra).
  assert (A1 : asin y <= PI / 4).
  { assert (asin y <= asin (sqrt 2 / 2)) by (apply asin_mono; lra).
    rewrite <- sin_PI4', asin_sin' in H by lra. exact H. }
  assert (K : 0 <= afac (PI * rho)).
  { unfold afac. rewrite Y. apply Rmult_le_pos; [lra|left; apply Rinv_0_lt_compat; nra]. }
  exists (afac (PI * rho)). split; [auto|]. split; [exact Q|].
  exists (2 * asin y). split; [lra|]. split.
  { unfold equisolid_radius. replace (2 * asin y / 2) with (asin y) by field. rewrite sin_asin by lra.
    replace (PI / 2 / 2) with (PI / 4) by field. rewrite sin_PI4'. unfold y. field; lra. }
  rewrite Q, angular_radius by auto. fold rho.
  assert (F : afac (PI * rho) * rho = 2 * asin y / PI * (PI * rho / (PI * rho + eps9))).
  { unfold afac. rewrite Y. field. split; nra. }
  rewrite F. 
  replace (2 * asin y / PI * (PI * rho / (PI * rho + eps9)) - 2 * asin y / PI) with (- (2 * asin y * (eps9 / (PI * (PI * rho + eps9))))) by (field; split; nra).
  pose proof (asin_le_lin y ltac:(lra)) as AL.
  assert (G : 0 < eps9 / (PI * (PI * rho + eps9))) by (apply Rdiv_lt_0_compat; nra).
  assert (X : 2 * asin y * (eps9 / (PI * (PI * rho + eps9))) <= eps9).
  { apply Rle_trans with (PI * y * (eps9 / (PI * (PI * rho + eps9)))); [apply Rmult_le_compat_r; lra|].
    replace (PI * y * (eps9 / (PI * (PI * rho + eps9)))) with (sqrt 2 / PI * eps9 * (PI * rho / (PI * rho + eps9))) by (unfold y; field; split; nra).
    pose proof (efrac (PI * rho) ltac:(nra)). assert (0 < sqrt 2 / PI < 1). { split; [apply Rdiv_lt_0_compat; lra|].
      apply Rmult_lt_reg_r with PI; [lra|]. unfold Rdiv. rewrite Rmult_assoc, Rinv_l by lra. lra. }
    assert (0 < sqrt 2 / PI * eps9 <= eps9) by nra. nra. }
  assert (X0 : 0 <= 2 * asin y * (eps9 / (PI * (PI * rho + eps9)))) by (apply Rmult_le_pos; lra).
  split; lra.
Qed.

(** SolidViewMapper's own image radius is not proportional to sin(t/2) *)
Lemma solid_not_equisolid d : regular_dir d ->
  exists v1 v2, dot v1 v1 = 1 /\ dot v2 v2 = 1 /\
    angle (norm d) v1 = PI / 6 /\ angle (norm d) v2 = PI / 3 /\
    pdist (solid_xyz2vxy (mk_view d 180) v1) center * sin (PI / 3 / 2) <
    pdist (solid_xyz2vxy (mk_view d 180) v2) center * sin (PI / 6 / 2).
Proof.
  intros G. pose proof PI_pos as PP. pose proof eps9_pos as E. pose proof sqrt2_bound as S2. pose proof sqrt2_sqr as S22.
  pose proof (regular_nonzero d G) as N.
  destruct (direction_at (norm d) (PI / 6) (norm_dot d N) ltac:(lra)) as [v1 [V1 A1]].
  destruct (direction_at (norm d) (PI / 3) (norm_dot d N) ltac:(lra)) as [v2 [V2 A2]].
  exists v1, v2. do 4 (split; [assumption|]).
  rewrite !solid_radius by (auto; apply hemi_180). rewrite A1, A2. rewrite chordfactor_180.
  replace (PI / 6 / 1) with (PI / 6) by field. replace (PI / 3 / 1) with (PI / 3) by field.
  replace (180 * PI / 180) with PI by field.
  replace (PI / 3 / 2) with (PI / 6) by field. replace (PI / 6 / 2) with (PI / 12) by field. rewrite sin_PI6.
  rewrite !afac_mul by lra.
  replace (PI / 6 * sqrt 2 / PI) with (sqrt 2 / 6) by (field; lra).
  replace (PI / 3 * sqrt 2 / PI) with (sqrt 2 / 3) by (field; lra).
  assert (S : 1 / 4 < sin (PI / 12)).
  { pose proof (sin_2a (PI / 12)) as D. replace (2 * (PI / 12)) with (PI / 6) in D by field. rewrite sin_PI6 in D.
    assert (cos (PI / 12) < 1). { rewrite <- cos_0. apply cos_decreasing_1; lra. }
    assert (0 < sin (PI / 12)) by (apply sin_gt_0; lra). nra. }
  pose proof (asin_ratio (sqrt 2 / 6) (sqrt 2 / 3) ltac:(lra) ltac:(lra) ltac:(lra)) as AR.
  set (a := asin (sqrt 2 / 6)) in *. set (b := asin (sqrt 2 / 3)) in *.
  assert (Ab : 2 * a <= b) by nra. assert (B0 : 0 < b). { pose proof (asin_ge (sqrt 2 / 3) ltac:(lra)). fold b in H. lra. }
  assert (A0 : 0 < a). { pose proof (asin_ge (sqrt 2 / 6) ltac:(lra)). fold a in H. lra. }
  set (e1 := PI / 6 / (PI / 6 + eps9)). set (e2 := PI / 3 / (PI / 3 + eps9)).
  assert (E1 : 0 < e1) by (apply Rdiv_lt_0_compat; lra).
  assert (E12 : e1 <= e2).
  { unfold e1, e2. apply Rmult_le_reg_r with ((PI / 6 + eps9) * (PI / 3 + eps9)); [nra|].
    replace (PI / 6 / (PI / 6 + eps9) * ((PI / 6 + eps9) * (PI / 3 + eps9))) with (PI / 6 * (PI / 3 + eps9)) by (field; lra).
    replace (PI / 3 / (PI / 3 + eps9) * ((PI / 6 + eps9) * (PI / 3 + eps9))) with (PI / 3 * (PI / 6 + eps9)) by (field; lra). nra. }
  apply Rmult_lt_reg_r with PI; [lra|].
  replace (2 * a * e1 / PI * (1 / 2) * PI) with (a * e1) by (field; lra).
  replace (2 * b * e2 / PI * sin (PI / 12) * PI) with (2 * b * e2 * sin (PI / 12)) by (field; lra).
  apply Rle_lt_trans with (b / 2 * e2).
  - apply Rmult_le_compat; lra.
  - assert (0 < b * e2) by nra. nra.
Qed.

(** PerspectiveViewMapper's image radius is not proportional to tan t *)
Lemma perspective_not_tan d : regular_dir d ->
  exists v1 v2, dot v1 v1 = 1 /\ dot v2 v2 = 1 /\
    angle (norm d) v1 = PI / 6 /\ angle (norm d) v2 = PI / 4 /\
    in_view (mk_view d 120) 0 v1 = true /\ in_view (mk_view d 120) 0 v2 = true /\
    pdist (solid_xyz2vxy (mk_view d 120) v2) center * tan (PI / 6) <
    pdist (solid_xyz2vxy (mk_view d 120) v1) center * tan (PI / 4).
Proof.
  intros G. pose proof PI_pos as PP. pose proof eps9_pos as E. pose proof sqrt2_bound as S2. pose proof sqrt2_sqr as S22.
  pose proof PI_hi as PH. pose proof PI_lo as PL.
  pose proof (regular_nonzero d G) as N. assert (H : hemi_angle 120) by (unfold hemi_angle; lra).
  destruct (direction_at (norm d) (PI / 6) (norm_dot d N) ltac:(lra)) as [v1 [V1 A1]].
  destruct (direction_at (norm d) (PI / 4) (norm_dot d N) ltac:(lra)) as [v2 [V2 A2]].
  exists v1, v2. do 4 (split; [assumption|]).
  pose proof (chordfactor_bounds d 120 H) as [C0 [C1 C2]]. 
  rewrite !in_view_angle, mk_view_hemi_va by auto. rewrite A1, A2.
  rewrite !solid_radius by auto. rewrite A1, A2. 
  set (cf := vm_chordfactor (mk_view d 120)) in *. assert (C : 89 / 100 <= cf <= 1) by lra.
  split; [nra|]. split; [nra|].
  set (u1 := PI / 6 / cf). set (u2 := PI / 4 / cf).
  assert (I : 1 <= / cf <= 100 / 89).
  { split. - rewrite <- Rinv_1. apply Rinv_le_contravar; lra. - replace (100 / 89) with (/ (89 / 100)) by field. apply Rinv_le_contravar; lra. }
  assert (U1 : 1 / 2 <= u1) by (unfold u1, Rdiv in *; nra).
  assert (U2 : u2 = 3 / 2 * u1) by (unfold u1, u2; field; lra).
  assert (U2b : u2 <= 9 / 10) by (unfold u2, Rdiv in *; nra).
  rewrite !afac_mul by lra. set (c := sqrt 2 / PI).
  assert (Cc : 2 / 5 < c < / 2).
  { unfold c. split; apply Rmult_lt_reg_r with PI; try lra; replace (sqrt 2 / PI * PI) with (sqrt 2) by (field; lra); lra. }
  replace (u1 * sqrt 2 / PI) with (c * u1) by (unfold c; field; lra).
  replace (u2 * sqrt 2 / PI) with (c * u2) by (unfold c; field; lra).
  pose proof (asin_ge (c * u1) ltac:(nra)) as L1.
  pose proof (asin_ratio (c * u2) (1 / 2) ltac:(nra) ltac:(nra) ltac:(lra)) as L2.
  assert (A6 : asin (1 / 2) = PI / 6) by (rewrite <- sin_PI6, asin_sin' by lra; reflexivity).
  rewrite A6 in L2. rewrite tan_PI4.
  assert (T : 0 < tan (PI / 6) < 58 / 100).
  { rewrite tan_PI6. assert (S3 : 0 < sqrt 3) by (apply sqrt_lt_R0; lra). pose proof (sqrt_sqrt 3 ltac:(lra)) as S33.
    split; [apply Rdiv_lt_0_compat; lra|]. apply Rmult_lt_reg_r with (sqrt 3); [lra|]. replace (1 / sqrt 3 * sqrt 3) with 1 by (field; lra). nra. }
  set (a1 := asin (c * u1)) in *. set (a2 := asin (c * u2)) in *.
  pose proof (efrac u1 ltac:(lra)) as E1. pose proof (efrac u2 ltac:(lra)) as E2.
  assert (E1' : 99 / 100 <= u1 / (u1 + eps9)).
  { apply Rmult_le_reg_r with (u1 + eps9); [lra|]. replace (u1 / (u1 + eps9) * (u1 + eps9)) with u1 by (field; lra). lra. }
  set (e1 := u1 / (u1 + eps9)) in *. set (e2 := u2 / (u2 + eps9)) in *.
  replace (120 * PI / 180) with (2 * (PI / 3)) by field.
  apply Rmult_lt_reg_r with (PI / 3); [lra|].
  replace (2 * a2 * e2 / (2 * (PI / 3)) * tan (PI / 6) * (PI / 3)) with (a2 * e2 * tan (PI / 6)) by (field; lra).
  replace (2 * a1 * e1 / (2 * (PI / 3)) * 1 * (PI / 3)) with (a1 * e1) by (field; lra).
  assert (P0 : 0 < c * u1) by nra.
  assert (P2 : a2 <= 105 / 100 * (3 / 2 * (c * u1))).
  { apply Rle_trans with (2 * (c * u2 * (PI / 6))); [lra|]. rewrite U2. nra. }
  assert (P2' : 0 <= a2). { apply asin_nonneg. nra. }
  apply Rle_lt_trans with (105 / 100 * (3 / 2 * (c * u1)) * 1 * (58 / 100)).
  - apply Rmult_le_compat; try lra; [apply Rmult_le_pos; lra|]. apply Rmult_le_compat; lra.
  - apply Rlt_le_trans with (c * u1 * (99 / 100)); [lra|]. apply Rmult_le_compat; lra.
Qed.

Lemma perspective_ignores_small d vv vh : vv <= vh -> mk_perspective d vv vh = mk_perspective d vh vh.
Proof. intros L. unfold mk_perspective. rewrite !Rmax_left by lra. reflexivity. Qed.
Lemma perspective_limit d vv vh : 180 <= Rmax vh vv -> mk_perspective d vv vh = Raise ValueError.
Proof. intros L. unfold mk_perspective, Rgeb. destruct (Rleb 180 (Rmax vh vv)) eqn:E; auto. apply Rleb_false in E. lra. Qed.

(** * transform_to: direction of the conversion *)
Lemma xyz_vxy d va v : regular_dir d -> hemi_angle va -> dot v v = 1 -> in_view (mk_view d va) 0 v = true ->
  vxy2xyz (mk_view d va) (xyz2vxy (mk_view d va) v) = v.
Proof.
  intros G H V I.
  apply xyz_vxy_roundtrip; auto. intros E.
  pose proof (regular_nonzero d G) as N. apply in_view_sound in I; auto. unfold angle in I.
  rewrite <- (mk_view_dxyz d va), <- w2v_z, E in I by auto. cbn [vz] in I. replace (-1) with (- (1)) in I by ring. rewrite acos_opp, acos_1 in I.
  pose proof (half_range va H). pose proof PI_pos. unfold half in *. lra.
Qed.
Lemma pixel_ray_unit vm d va n p : vm = mk_view d va -> dot (pixel2ray vm n p) (pixel2ray vm n p) = 1.
Proof. intros ->. apply vnorm_1, vxy2xyz_unit. Qed.

Lemma transform_reads {A} (zero : A) d1 va1 d2 va2 interp (im : image A) i j :
  regular_dir d2 -> hemi_angle va2 -> (0 < im_ny im)%Z ->
  let self := mk_view d1 va1 in let other := mk_view d2 va2 in let res := im_ny im in
  let v := pixel2ray self res (IZR i + 1 / 2, IZR j + 1 / 2) in
  (in_view other 0 v = true ->
   exists q, pixel2ray other res q = v /\
     transform_to zero (pixel2ray self res) other (ray2pixelf other res) interp im i j = interp (im_px im) q) /\
  (in_view other 0 v = false ->
     transform_to zero (pixel2ray self res) other (ray2pixelf other res) interp im i j = zero).
Proof.
  intros G H R self other res v. unfold transform_to. fold v. split; intros I; rewrite I; [|reflexivity].
  exists (ray2pixelf other res v). split; [|reflexivity].
  unfold pixel2ray at 1, ray2pixelf. cbn [fst snd]. assert (0 < IZR res) by (apply IZR_lt in R; exact R).
  assert (X : forall x, x * IZR res / IZR res = x) by (intros; field; lra). rewrite !X, <- surjective_pairing.
  apply xyz_vxy; auto. unfold v. eapply pixel_ray_unit. reflexivity.
Qed.

Lemma vxy_rescale d va1 va2 xy : hemi_angle va1 -> hemi_angle va2 -> let k := vscl d va1 / vscl d va2 in
  vxy2xyz (mk_view d va1) xy = vxy2xyz (mk_view d va2) (1 / 2 + (fst xy - 1 / 2) * k, 1 / 2 + (snd xy - 1 / 2) * k).
Proof.
  intros H1 H2 k. rewrite !vxy2xyz_eq. cbn [fst snd].
  assert (V : forall w, view2world (mk_view d va1) w = view2world (mk_view d va2) w) by reflexivity. rewrite V. f_equal. f_equal.
  pose proof (vscl_range d va2 H2). unfold k. apply pair_eq; field; lra.
Qed.
Lemma xyz2vxy_rescale d va1 va2 xy : hemi_angle va1 -> hemi_angle va2 -> let k := vscl d va1 / vscl d va2 in
  pdist xy center * vscl d va1 < 1 ->
  xyz2vxy (mk_view d va2) (vxy2xyz (mk_view d va1) xy) = (1 / 2 + (fst xy - 1 / 2) * k, 1 / 2 + (snd xy - 1 / 2) * k).
Proof.
  intros H1 H2 k B. rewrite (vxy_rescale d va1 va2) by auto. fold k. apply xyz2vxy_of; auto.
  pose proof (vscl_range d va1 H1). pose proof (vscl_range d va2 H2).
  rewrite angular_radius. - replace (k * pdist xy center * vscl d va2) with (pdist xy center * vscl d va1) by (unfold k; field; lra). exact B.
  - unfold k. apply Rmult_le_pos; [lra|]. left; apply Rinv_0_lt_compat; lra.
Qed.

(** the documented direction (self is the projection of the input) fails *)
Lemma transform_is_reversed interp d : linear_interp interp -> regular_dir d ->
  let self := mk_view d 180 in let other := mk_view d 90 in
  let im := Img 4 4 (fun i _ => IZR i) in
  exists i j, (0 <= i < 4)%Z /\ (0 <= j < 4)%Z /\
    in_view self 0 (pixel2ray other 4 (IZR i + 1 / 2, IZR j + 1 / 2)) = true /\
    in_view other 0 (pixel2ray self 4 (IZR i + 1 / 2, IZR j + 1 / 2)) = true /\
    transform_to 0 (pixel2ray self 4) other (ray2pixelf other 4) interp im i j <>
    interp (im_px im) (ray2pixelf self 4 (pixel2ray other 4 (IZR i + 1 / 2, IZR j + 1 / 2))).
Proof.
  intros L G self other im. exists 2%Z, 2%Z. do 2 (split; [lia|]).
  assert (H1 : hemi_angle 180) by apply hemi_180. assert (H2 : hemi_angle 90) by (unfold hemi_angle; lra).
  pose proof (chordfactor_bounds d 90 H2) as [C0 [C1 C2]].
  assert (S1 : vscl d 180 = 1). { unfold vscl. rewrite mk_view_hemi_va, chordfactor_180 by auto. field. }
  assert (S2 : 44 / 100 <= vscl d 90 <= 1 / 2). { unfold vscl. rewrite mk_view_hemi_va by auto. lra. }
  set (s := vscl d 90) in *.
  assert (PD : pdist (5 / 2 / 4, 5 / 2 / 4) center < 18 / 100).
  { unfold pdist, center; cbn [fst snd]. assert (E : (5 / 2 / 4 - 1 / 2) * (5 / 2 / 4 - 1 / 2) + (5 / 2 / 4 - 1 / 2) * (5 / 2 / 4 - 1 / 2) = 1 / 32) by field.
    rewrite E. rewrite <- (sqrt_square (18 / 100)) by lra. apply sqrt_lt_1; lra. }
  assert (P0 : 0 <= pdist (5 / 2 / 4, 5 / 2 / 4) center) by apply sqrt_pos.
  replace (2 + 1 / 2) with (5 / 2) by field.
  assert (Is : 2 <= / s <= 100 / 44).
  { split; [replace 2 with (/ (1 / 2)) by field|replace (100 / 44) with (/ (44 / 100)) by field]; apply Rinv_le_contravar; lra. }
  assert (E1 : xyz2vxy other (pixel2ray self 4 (5 / 2, 5 / 2)) = (1 / 2 + 1 / 8 * (1 / s), 1 / 2 + 1 / 8 * (1 / s))).
  { unfold pixel2ray; cbn [fst snd]. unfold self, other. rewrite xyz2vxy_rescale by (auto; rewrite S1; lra).
    fold s. rewrite S1. cbn [fst snd]. apply pair_eq; field; lra. }
  assert (E2 : xyz2vxy self (pixel2ray other 4 (5 / 2, 5 / 2)) = (1 / 2 + 1 / 8 * s, 1 / 2 + 1 / 8 * s)).
  { unfold pixel2ray; cbn [fst snd]. unfold self, other. rewrite xyz2vxy_rescale by (auto; fold s; nra).
    fold s. rewrite S1. cbn [fst snd]. apply pair_eq; field; lra. }
  assert (Ivs : in_view self 0 (pixel2ray other 4 (5 / 2, 5 / 2)) = true).
  { apply in_view_circle; auto; [eapply pixel_ray_unit; reflexivity|]. fold self. rewrite E2.
    unfold pdist, center; cbn [fst snd]. apply Rlt_le_trans with (sqrt (1 / 2 * (1 / 2))); [apply sqrt_lt_1; nra|rewrite sqrt_square; lra]. }
  assert (Ivo : in_view other 0 (pixel2ray self 4 (5 / 2, 5 / 2)) = true).
  { apply in_view_circle; auto; [eapply pixel_ray_unit; reflexivity|]. fold other. rewrite E1.
    replace (1 / 2 + 1 / 8 * (1 / s)) with (1 / 2 + 1 / 8 * / s) by (field; lra).
    unfold pdist, center; cbn [fst snd]. apply Rlt_le_trans with (sqrt (1 / 2 * (1 / 2))); [apply sqrt_lt_1; nra|rewrite sqrt_square; lra]. }
  split; [exact Ivs|]. split; [exact Ivo|]. unfold transform_to.
  replace (2 + 1 / 2) with (5 / 2) by field. rewrite Ivo.
  rewrite !(L (im_px im) 1 0 (- (1 / 2))) by (intros; cbn [im_px im]; field).
  unfold ray2pixelf. rewrite E1, E2. cbn [fst snd]. replace (1 / s) with (/ s) by (field; lra). nra.
Qed.
Lemma linear_interp_exists : exists interp, linear_interp interp.
Proof.
  exists (fun im p => (im 1%Z 0%Z - im 0%Z 0%Z) * (fst p - 1 / 2) + (im 0%Z 1%Z - im 0%Z 0%Z) * (snd p - 1 / 2) + im 0%Z 0%Z).
  intros im a b c E p. rewrite !E. simpl. field.
Qed.

Lemma solid_view_angle : forall d viewangle, 180 < viewangle -> mk_solid d viewangle = Raise ValueError.
Proof. intros d va H. unfold mk_solid, Rgtb. destruct (Rltb 180 va) eqn:E; [reflexivity|apply Rltb_false in E; lra]. Qed.
