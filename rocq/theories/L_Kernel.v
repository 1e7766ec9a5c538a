(** Directions on the image plane are no further apart than their images; the middle of the point spread kernel is its peak. *)
From Coq Require Import Lra Lia Psatz.
From Verif Require Import Base L_Base L_Trig M_Translate S_Translate L_Angles M_Mapper M_Io S_Mapper L_Mapper L_Io L_Initimg L_Draw M_Gss S_Gss L_Gss L_Gss8 L_Gss9 L_Gss11.
Local Open Scope R_scope.

(** * sin x / x decreases *)
Lemma deriv_sin_xcos u : derivable_pt_lim (fun u => sin u - u * cos u) u (u * sin u).
Proof.
  replace (u * sin u) with (cos u - (1 * cos u + u * - sin u)) by ring.
  apply (derivable_pt_lim_minus sin (fun u => u * cos u)); [apply derivable_pt_lim_sin|].
  apply (derivable_pt_lim_mult (fun u => u) cos); [apply derivable_pt_lim_id|apply derivable_pt_lim_cos].
Qed.
Lemma xcos_le_PI u : 0 < u <= PI -> u * cos u <= sin u.
Proof.
  intros [U0 U1]. destruct (MVT_cor2 (fun u => sin u - u * cos u) (fun u => u * sin u) 0 u U0) as (c & E & C0 & C1); [intros c _; apply deriv_sin_xcos|].
  rewrite sin_0, Rmult_0_l in E. assert (0 <= sin c) by (apply sin_ge_0; lra). assert (0 <= c * sin c * (u - 0)) by (repeat apply Rmult_le_pos; lra). lra.
Qed.
Lemma cos_ge_quadratic x : 0 <= x -> 1 - x * x / 2 <= cos x.
Proof.
  intros X. replace x with (2 * (x / 2)) at 3 by field. rewrite cos_2a_sin. assert (Rabs (sin (x / 2)) <= x / 2) as S.
  { destruct (Req_dec x 0) as [->|N]; [replace (0 / 2) with 0 by field; rewrite sin_0, Rabs_R0; lra|]. apply Rabs_le. assert (sin (x / 2) < x / 2) by (apply sin_lt_x; lra). split; [|lra].
    destruct (Rle_dec (x / 2) PI) as [L|L]; [assert (0 <= sin (x / 2)) by (apply sin_ge_0; lra); lra|]. pose proof (SIN_bound (x / 2)). pose proof PI_lo. lra. }
  assert (sin (x / 2) * sin (x / 2) <= x / 2 * (x / 2)). { apply (Rsqr_le_abs_1 (sin (x / 2)) (x / 2)). now rewrite (Rabs_right (x / 2)) by lra. } lra.
Qed.
Lemma xcos_le u : 0 < u <= PI + 1.31 -> u * cos u <= sin u.
Proof.
  intros [U0 U1]. pose proof PI_lo as Pl. pose proof PI_hi as Ph. destruct (Rle_lt_dec u PI) as [L|L]; [apply xcos_le_PI; lra|].
  set (v := u - PI). replace u with (v + PI) by (unfold v; ring). rewrite neg_sin, neg_cos. assert (0 < v <= 1.31) as V by (unfold v; lra). clearbody v.
  destruct (Rle_lt_dec v 1) as [W|W].
  - assert (sin v < v) by (apply sin_lt_x; lra). assert (1 / 2 <= cos v). { rewrite <- cos_PI3. apply cos_decr_1; lra. } nra.
  - assert (0.25 <= cos v) as C.
    { rewrite <- sin_shift. apply Rle_trans with (sin 0.26); [|apply sin_incr_1; lra]. pose proof (xcos_le_PI 0.26 ltac:(lra)) as X. pose proof (cos_ge_quadratic 0.26 ltac:(lra)). lra. }
    pose proof (SIN_bound v). nra.
Qed.
Lemma sinc_decr x y : 0 < x < y -> y <= PI + 1.31 -> sin y / y <= sin x / x.
Proof.
  intros [X Y] P. destruct (MVT_cor2 (fun u => sin u / u) (fun u => (cos u * u - 1 * sin u) / (u * u)) x y Y) as (c & E & C).
  - intros c C. apply (derivable_pt_lim_div sin (fun u => u)); [apply derivable_pt_lim_sin|apply derivable_pt_lim_id|lra].
  - pose proof (xcos_le c ltac:(lra)) as K. assert ((cos c * c - 1 * sin c) / (c * c) <= 0) as D.
    { assert (0 < / (c * c)) by (apply Rinv_0_lt_compat; nra). unfold Rdiv. nra. }
    assert ((cos c * c - 1 * sin c) / (c * c) * (y - x) <= 0) by nra. lra.
Qed.
(** a chord of cos over the squares *)
Lemma cos_slope a b : 0 <= a < b -> exists c, a < c < b /\ cos b - cos a = - (sin c / c) / 2 * (b * b - a * a).
Proof.
  intros [A B]. destruct (MVT_cor2 (fun x => (cos b - cos a) * (x * x) + - (b * b - a * a) * cos x) (fun x => (cos b - cos a) * (1 * x + x * 1) + - (b * b - a * a) * - sin x) a b B) as (c & E & C).
  - intros c _. apply (derivable_pt_lim_plus (fun x => (cos b - cos a) * (x * x)) (fun x => - (b * b - a * a) * cos x)).
    + apply (derivable_pt_lim_scal (fun x => x * x)). apply (derivable_pt_lim_mult (fun x => x) (fun x => x)); apply derivable_pt_lim_id.
    + apply (derivable_pt_lim_scal cos). apply derivable_pt_lim_cos.
  - exists c. split; [exact C|]. assert (((cos b - cos a) * (1 * c + c * 1) + - (b * b - a * a) * - sin c) * (b - a) = 0) as Z by (rewrite <- E; ring).
    apply Rmult_integral in Z as [Z|Z]; [|lra]. apply (Rmult_eq_reg_r (2 * c)); [|lra]. replace (- (sin c / c) / 2 * (b * b - a * a) * (2 * c)) with (- sin c * (b * b - a * a)) by (field; lra). lra.
Qed.
Lemma cos_sqrt_convex a b x l : 0 <= a -> a <= b -> b <= PI + 1.31 -> 0 <= x -> 0 <= l <= 1 -> x * x = l * (a * a) + (1 - l) * (b * b) -> cos x <= l * cos a + (1 - l) * cos b.
Proof.
  intros A AB B X L E. destruct (Rle_lt_or_eq_dec a b AB) as [AB'|<-].
  2:{ assert (x = a) as -> by (apply Rsqr_inj; [assumption|assumption|]; unfold Rsqr; lra). lra. }
  assert (a * a < b * b) as SQ by nra.
  assert (a <= x) as AX by (apply Rsqr_incr_0; [|assumption|assumption]; unfold Rsqr; nra). assert (x <= b) as XB by (apply Rsqr_incr_0; [|assumption|lra]; unfold Rsqr; nra).
  destruct (Rle_lt_or_eq_dec a x AX) as [AX'|EE]; [|subst x].
  2:{ assert (l = 1) as -> by nra. lra. }
  destruct (Rle_lt_or_eq_dec x b XB) as [XB'|EE]; [|subst x].
  2:{ assert (l = 0) as -> by nra. lra. }
  destruct (cos_slope a x ltac:(lra)) as (c & C & E1). destruct (cos_slope x b ltac:(lra)) as (d & D & E2).
  pose proof (sinc_decr c d ltac:(lra) ltac:(lra)) as S. set (u := sin c / c) in *. set (v := sin d / d) in *. clearbody u v.
  assert (cos x = cos a + - u / 2 * (x * x - a * a)) as F1 by lra. assert (cos b = cos x + - v / 2 * (b * b - x * x)) as F2 by lra.
  rewrite E in F1, F2. set (q := b * b - a * a) in *.
  assert (0 < q) as Q by (unfold q; nra).
  replace (l * (a * a) + (1 - l) * (b * b) - a * a) with ((1 - l) * q) in F1 by (unfold q; ring).
  replace (b * b - (l * (a * a) + (1 - l) * (b * b))) with (l * q) in F2 by (unfold q; ring).
  assert (0 <= l * (1 - l) * q * (u - v)) as P. { repeat apply Rmult_le_pos; lra. }
  clear E E1 E2. nra.
Qed.

(** * two directions are no further apart than their images *)
Lemma ang2dir_close p q : PI * (pd p + pd q) <= PI + 1.31 -> pd p < 1 -> pd q < 1 -> cos (PI * pd (fst p - fst q, snd p - snd q)) <= dot (ang2dir p) (ang2dir q).
Proof.
  intros H P1 Q1. pose proof PI_RGT_0 as Pp. pose proof (pd_nonneg p) as P0. pose proof (pd_nonneg q) as Q0.
  destruct (Req_EM_T (pd p) 0) as [E|E].
  { destruct (pd_zero p E) as [Ex Ey]. rewrite (ang2dir_0 p E). unfold dot. cbn [vx vy vz]. rewrite ang2dir_z, Ex, Ey. right. rewrite !Rmult_0_l, !Rplus_0_l, Rmult_1_l. do 2 f_equal. unfold pd. cbn [fst snd]. f_equal. unfold square. ring. }
  destruct (Req_EM_T (pd q) 0) as [F|F].
  { destruct (pd_zero q F) as [Ex Ey]. rewrite (ang2dir_0 q F). unfold dot. cbn [vx vy vz]. rewrite ang2dir_z, Ex, Ey. right. rewrite !Rmult_0_r, !Rplus_0_l, Rmult_1_r. do 2 f_equal. unfold pd. cbn [fst snd]. f_equal. unfold square. ring. }
  rewrite (ang2dir_eq p), (ang2dir_eq q) by lra. unfold dot. cbn [vx vy vz].
  pose proof (pd_sqr p) as Sp. pose proof (pd_sqr q) as Sq. pose proof (pd_sqr (fst p - fst q, snd p - snd q)) as Sd. pose proof (pd_nonneg (fst p - fst q, snd p - snd q)) as D0.
  cbn [fst snd] in Sd. set (a := pd p) in *. set (b := pd q) in *. set (d := pd (_, _)) in *. clearbody a b d. destruct p as [x y], q as [x' y']. cbn [fst snd] in *.
  set (c := (x * x' + y * y') / (a * b)). assert (x * x' + y * y' = c * (a * b)) as C by (unfold c; field; lra).
  assert (Hc : -1 <= c <= 1).
  { assert ((c * (a * b)) * (c * (a * b)) <= (a * b) * (a * b)) as S. { rewrite <- C. replace (a * b * (a * b)) with ((a * a) * (b * b)) by ring. rewrite Sp, Sq. pose proof (Rle_0_sqr (x * y' - y * x')). unfold Rsqr in *. nra. }
    assert (0 < a * b) as AB by nra. assert (c * c <= 1) by (apply Rmult_le_reg_r with (a * b * (a * b)); nra). nra. }
  clearbody c.
  replace (x * (sin (PI * a) / a) * (x' * (sin (PI * b) / b)) + y * (sin (PI * a) / a) * (y' * (sin (PI * b) / b)) + cos (PI * a) * cos (PI * b))
    with ((x * x' + y * y') * (sin (PI * a) * sin (PI * b) / (a * b)) + cos (PI * a) * cos (PI * b)) by (field; lra).
  rewrite C. replace (c * (a * b) * (sin (PI * a) * sin (PI * b) / (a * b)) + cos (PI * a) * cos (PI * b)) with
    ((1 + c) / 2 * cos (PI * a - PI * b) + (1 - (1 + c) / 2) * cos (PI * a + PI * b)) by (rewrite cos_minus, cos_plus; field; lra).
  assert (Ed : d * d = a * a + b * b - 2 * (c * (a * b))) by (rewrite <- C; nra). clear C Sp Sq Sd.
  replace (cos (PI * a - PI * b)) with (cos (Rabs (PI * a - PI * b))) by (unfold Rabs; destruct (Rcase_abs _); [apply cos_neg|reflexivity]).
  apply cos_sqrt_convex; try lra; [apply Rabs_pos| | |].
  - apply Rabs_le. split; nra.
  - nra.
  - replace (Rabs (PI * a - PI * b) * Rabs (PI * a - PI * b)) with ((PI * a - PI * b) * (PI * a - PI * b)) by (unfold Rabs; destruct (Rcase_abs _); ring).
    replace (PI * d * (PI * d)) with (PI * PI * (d * d)) by ring. rewrite Ed. field.
Qed.

(** * no pixel in view is larger than the middle of the view *)
Definition step2 (s : R) (r : Z) : R := 2 - 2 * cos (PI * (s / IZR r)).
Lemma pd_in_square s x y r : 0 < s <= 1 -> 0 < r -> 0 <= x <= r -> 0 <= y <= r -> pd ((x / r - 1 / 2) * (-1 * s), (y / r - 1 / 2) * (1 * s)) <= 0.7072.
Proof.
  intros S R X Y. assert (U : forall t, 0 <= t <= r -> 0 <= t / r <= 1).
  { intros t T. split; [apply Rmult_le_pos; [lra|left; apply Rinv_0_lt_compat; lra]|]. apply (Rmult_le_reg_r r); [lra|]. unfold Rdiv. rewrite Rmult_assoc, Rinv_l by lra. lra. }
  apply U in X, Y. set (a := x / r) in *. set (b := y / r) in *. clearbody a b. rewrite pd_neg_scale by lra. pose proof (pd_sqr (a - 1 / 2, b - 1 / 2)) as Q. pose proof (pd_nonneg (a - 1 / 2, b - 1 / 2)) as P. cbn [fst snd] in Q.
  set (t := pd _) in *. clearbody t. assert ((a - 1 / 2) * (a - 1 / 2) <= 1 / 4) by nra. assert ((b - 1 / 2) * (b - 1 / 2) <= 1 / 4) by nra.
  assert (t <= 0.7072) by (apply Rnot_lt_le; intros C; assert (0.7072 * 0.7072 < t * t) by (apply Rmult_le_0_lt_compat; lra); lra).
  assert (s * t <= 1 * t) by (apply Rmult_le_compat_r; lra). lra.
Qed.
Lemma chord_le s r x y x' y' : 0 < s <= 1 -> (0 < r)%Z -> 0 <= x <= IZR r -> 0 <= y <= IZR r -> 0 <= x' <= IZR r -> 0 <= y' <= IZR r ->
  (x - x') * (x - x') + (y - y') * (y - y') = 1 ->
  let D := vsub (view_at s r x y) (view_at s r x' y') in dot D D <= step2 s r.
Proof.
  intros Hs Hr Hx Hy Hx' Hy' E1 D. assert (0 < IZR r) as R0 by (apply (IZR_lt 0); lia). unfold D, view_at. 
  set (p := ((x / IZR r - 1 / 2) * (-1 * s), (y / IZR r - 1 / 2) * (1 * s))). set (q := ((x' / IZR r - 1 / 2) * (-1 * s), (y' / IZR r - 1 / 2) * (1 * s))).
  set (h := s / IZR r). assert (0 < h) as Hh by (unfold h; apply Rdiv_lt_0_compat; lra).
  assert (Dp : pd (fst p - fst q, snd p - snd q) = h).
  { unfold pd, p, q. cbn [fst snd]. rewrite <- (sqrt_square h) by lra. f_equal. unfold h, square. transitivity ((s / IZR r) * (s / IZR r) * ((x - x') * (x - x') + (y - y') * (y - y'))); [field; lra|]. rewrite E1. ring. }
  pose proof (pd_in_square s x y (IZR r) Hs R0 Hx Hy) as P1. pose proof (pd_in_square s x' y' (IZR r) Hs R0 Hx' Hy') as Q1. fold p in P1. fold q in Q1.
  pose proof (ang2dir_close p q) as K. pose proof PI_lo as Pl. pose proof PI_hi as Ph.
  specialize (K ltac:(nra) ltac:(lra) ltac:(lra)). rewrite Dp in K. fold p q.
  rewrite dot_vsub, !ang2dir_unit_all. rewrite (dot_sym (ang2dir q) (ang2dir p)). unfold step2. fold h. lra.
Qed.
(** C138: rays are no further apart than their places in the image *)
Lemma rays_close d va p q : hemi_angle va -> in_unit_square p -> in_unit_square q ->
  let s := vm_viewangle (mk_view d va) * vm_chordfactor (mk_view d va) / 180 in
  angle (vxy2xyz (mk_view d va) p) (vxy2xyz (mk_view d va) q) <= PI * s * pdist p q.
Proof.
  intros H [P1 P2] [Q1 Q2] s. pose proof (vscl_range d va H) as S. fold s in S. change (vscl d va) with s in S. unfold angle. rewrite !vxy2xyz_eq, v2w_dot. change (vscl d va) with s. clearbody s.
  set (u := ((fst p - 1 / 2) * (-1 * s), (snd p - 1 / 2) * (1 * s))). set (v := ((fst q - 1 / 2) * (-1 * s), (snd q - 1 / 2) * (1 * s))).
  assert (Dp : pd (fst u - fst v, snd u - snd v) = s * pdist p q).
  { rewrite pdist_pd, <- pd_neg_scale by lra. unfold u, v. cbn [fst snd]. f_equal. f_equal; ring. }
  pose proof (pd_in_square s (fst p) (snd p) 1 S ltac:(lra) P1 P2) as K1. pose proof (pd_in_square s (fst q) (snd q) 1 S ltac:(lra) Q1 Q2) as K2. replace (fst p / 1) with (fst p) in K1 by field. replace (snd p / 1) with (snd p) in K1 by field. replace (fst q / 1) with (fst q) in K2 by field. replace (snd q / 1) with (snd q) in K2 by field. fold u in K1. fold v in K2.
  pose proof PI_lo as Pl. pose proof PI_hi as Ph. pose proof (ang2dir_close u v ltac:(nra) ltac:(lra) ltac:(lra)) as K. rewrite Dp in K.
  replace (PI * s * pdist p q) with (PI * (s * pdist p q)) by ring. set (t := PI * (s * pdist p q)) in *. assert (0 <= t) as T by (unfold t; assert (0 <= pdist p q) by apply sqrt_pos; apply Rmult_le_pos; [lra|]; apply Rmult_le_pos; lra). clearbody t.
  pose proof (acos_bound (dot (ang2dir u) (ang2dir v))) as B. destruct (Rle_lt_dec PI t) as [L|L]; [lra|].
  assert (C1 : dot (ang2dir u) (ang2dir v) <= 1).
  { assert (0 <= dot (vsub (ang2dir u) (ang2dir v)) (vsub (ang2dir u) (ang2dir v))) as N by (unfold dot; nra). rewrite dot_vsub, !ang2dir_unit_all, (dot_sym (ang2dir v)) in N. lra. }
  rewrite <- (acos_cos t) by lra. pose proof (COS_bound t). destruct K as [K|K]; [left; apply acos_decr; lra|right; now f_equal].
Qed.
