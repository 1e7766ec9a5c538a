(** The triangle inequality of angles. *)
From Coq Require Import Lra Lia.
From Verif Require Import Base L_Base M_Translate L_Angles S_Triangle S_Isometry L_Isometry S_Turn.
Import ListNotations.
Local Open Scope R_scope.

Lemma gram a b c : dot a a = 1 -> dot b b = 1 -> dot c c = 1 -> (dot a c - dot a b * dot b c)² <= (1 - (dot a b)²) * (1 - (dot b c)²).
Proof.
  intros A B C. 
  set (d := vx a * (vy b * vz c - vz b * vy c) - vy a * (vx b * vz c - vz b * vx c) + vz a * (vx b * vy c - vy b * vx c)).
  assert (G : d * d = dot a a * dot b b * dot c c + 2 * dot a b * dot b c * dot a c - dot a a * (dot b c * dot b c) - dot b b * (dot a c * dot a c) - dot c c * (dot a b * dot a b)) by (unfold d, dot; ring).
  rewrite A, B, C in G. pose proof (Rle_0_sqr d) as D. unfold Rsqr in *. nra.
Qed.
Lemma radians_triangle a b c : dot a a = 1 -> dot b b = 1 -> dot c c = 1 -> radians a c <= radians a b + radians b c.
Proof.
  intros A B C. pose proof (radians_range a b) as R1. pose proof (radians_range b c) as R2. pose proof (radians_range a c) as R3.
  destruct (Rle_dec PI (radians a b + radians b c)) as [L|L]; [lra|]. apply Rnot_lt_le. intros H.
  assert (K : cos (radians a c) < cos (radians a b + radians b c)) by (apply cos_decreasing_1; lra).
  rewrite cos_plus, !cos_radians_unit in K by assumption. pose proof (gram a b c A B C) as G.
  pose proof (sin_ge_0 (radians a b) (proj1 R1) (proj2 R1)) as S1. pose proof (sin_ge_0 (radians b c) (proj1 R2) (proj2 R2)) as S2.
  pose proof (sin2_cos2 (radians a b)) as E1. pose proof (sin2_cos2 (radians b c)) as E2. rewrite cos_radians_unit in E1, E2 by assumption.
  set (s1 := sin (radians a b)) in *. set (s2 := sin (radians b c)) in *. set (x := dot a b) in *. set (y := dot b c) in *. set (z := dot a c) in *. clearbody s1 s2 x y z.
  replace (1 - x²) with (s1²) in G by lra. replace (1 - y²) with (s2²) in G by lra. assert (P : 0 <= s1 * s2) by nra. assert (Q : s1 * s2 < x * y - z) by lra.
  unfold Rsqr in G. assert (T : (s1 * s2) * (s1 * s2) < (x * y - z) * (x * y - z)) by nra. nra.
Qed.
Lemma last_default l (d d' : vec3) : l <> [] -> last l d = last l d'.
Proof. induction l as [|x [|y l] IH]; intros N; [contradiction|reflexivity|]. cbn [last] in *. apply IH. discriminate. Qed.
Lemma path_triangle l : forall a, units (a :: l) -> radians a (last l a) <= path_angle a l.
Proof.
  induction l as [|b l IH]; intros a U; inversion U as [|? ? A U']; subst.
  - cbn [last path_angle]. rewrite (proj2 (radians_zero a a A A) eq_refl). lra.
  - inversion U' as [|? ? B U'']; subst. specialize (IH b U'). cbn [path_angle].
    assert (L : last (b :: l) a = last l b) by (destruct l; [reflexivity|]; change (last (b :: v :: l) a) with (last (v :: l) a); apply last_default; discriminate).
    rewrite L. assert (E : dot (last l b) (last l b) = 1).
    { clear - B U''. unfold units in *. revert b B. induction U'' as [|x l X U IH]; intros b B; [exact B|]. cbn [last]. destruct l; [exact X|]. now apply IH. }
    pose proof (radians_triangle a b (last l b) A B E). lra.
Qed.
Lemma degrees_triangle a b c : dot a a = 1 -> dot b b = 1 -> dot c c = 1 -> degrees a c <= degrees a b + degrees b c.
Proof.
  intros A B C. pose proof (radians_triangle a b c A B C). rewrite !(proj2 (degrees_spec _ _)). pose proof PI_RGT_0. assert (0 < 180 / PI) by (apply Rdiv_lt_0_compat; lra). nra.
Qed.
Lemma cones_apart a b v r1 r2 : dot a a = 1 -> dot b b = 1 -> dot v v = 1 -> r1 + r2 < degrees a b -> degrees a v <= r1 -> r2 < degrees b v.
Proof. intros A B V H1 H2. pose proof (degrees_triangle a v b A V B) as T. unfold degrees in *. rewrite (radians_sym b v). lra. Qed.
Lemma radians_moved t a b : isometry t -> radians (t a) (t b) = radians a b.
Proof. intros (_ & _ & I). unfold radians, ctheta. now rewrite I. Qed.
Lemma quarter_path : units [V3 1 0 0; V3 0 1 0; V3 0 0 1] /\ path_angle (V3 1 0 0) [V3 0 1 0; V3 0 0 1] = PI /\ radians (V3 1 0 0) (V3 0 0 1) = PI / 2.
Proof.
  assert (Z : forall a b, dot a b = 0 -> radians a b = PI / 2).
  { intros a b E. unfold radians, ctheta. rewrite E. replace (clip 0 (-1) 1) with 0; [apply acos_0|]. unfold clip, Rmin, Rmax. repeat destruct (Rle_dec _ _); lra. }
  split; [repeat apply Forall_cons; try apply Forall_nil; unfold dot; cbn; ring|]. cbn [path_angle]. rewrite !Z by (unfold dot; cbn; ring). lra.
Qed.
Lemma chord_search a b t : dot a a = 1 -> dot b b = 1 -> 0 <= t <= PI -> (vnorm (vsub a b) <= theta2chord t <-> radians a b <= t).
Proof.
  intros A B T. rewrite <- (chord_distance a b A B). pose proof (radians_range a b) as R. pose proof PI_RGT_0. unfold theta2chord. split; intros H0.
  - apply Rnot_lt_le. intros L. assert (sin (t / 2) < sin (radians a b / 2)) by (apply sin_increasing_1; lra). lra.
  - destruct (Req_dec (radians a b) t) as [->|N]; [lra|]. assert (sin (radians a b / 2) < sin (t / 2)) by (apply sin_increasing_1; lra). lra.
Qed.
