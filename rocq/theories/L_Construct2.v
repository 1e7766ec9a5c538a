From Coq Require Import Lra Lia Psatz String.
From Verif Require Import Base BaseX L_Base M_Translate S_Translate M_Mapper S_Mapper M_Io M_Metric M_Cache S_Metric L_Angles L_Mapper L_Metric L_Metric2 L_Metric4 L_Construct.
Import ListNotations.
Local Open Scope R_scope.

(** ** the overlap formula *)
Section Lens.
  Variables a b d : R.
  Hypothesis Ha : 0 < a.
  Hypothesis Hb : 0 < b.
  Hypothesis Hd : 0 < d.
  Hypothesis H1 : a - b < d.
  Hypothesis H2 : b - a < d.
  Hypothesis H3 : d < a + b.
  Let x := (a * a - b * b + d * d) / (2 * d).
  Lemma lens_x : (d - x) * (d - x) = b * b - a * a + x * x.
  Proof. unfold x. field. lra. Qed.
  Lemma lens_x_lt : - a < x < a.
  Proof.
    unfold x. split; apply Rmult_lt_reg_r with (2 * d); try lra; unfold Rdiv; rewrite Rmult_assoc, Rinv_l by lra; nra.
  Qed.
  Lemma lens_dx_lt : - b < d - x < b.
  Proof. pose proof lens_x as E. pose proof lens_x_lt. split; nra. Qed.
  Lemma lens_y_pos : 0 < a * a - x * x. Proof. pose proof lens_x_lt. nra. Qed.
  Lemma lens_code_unfold : lens_code a (b * b) d =
    a * a * asin (sqrt (a * a - x * x) / a) + b * b * asin (sqrt (a * a - x * x) / b) - sqrt (a * a - x * x) * (x + Rabs (d - x)).
  Proof.
    unfold lens_code, square. fold x. rewrite (sqrt_square b) by lra.
    rewrite <- lens_x. replace ((d - x) * (d - x)) with (Rsqr (d - x)) by reflexivity. rewrite sqrt_Rsqr_abs. reflexivity.
  Qed.
  Lemma asin_of_chord r z : 0 < r -> 0 <= z < r -> asin (sqrt (r * r - z * z) / r) = acos (z / r).
  Proof.
    intros Hr Hz. assert (B : 0 <= z / r < 1).
    { split; [apply Rmult_le_pos; [lra|left; apply Rinv_0_lt_compat; lra]|]. apply Rmult_lt_reg_r with r; [lra|]. unfold Rdiv. rewrite Rmult_assoc, Rinv_l by lra. lra. }
    assert (E : sqrt (r * r - z * z) / r = sin (acos (z / r))).
    { rewrite sin_acos by lra. replace (1 - (z / r)²) with ((r * r - z * z) / (r * r)) by (unfold Rsqr; field; lra).
      rewrite sqrt_div_alt by nra. rewrite sqrt_square by lra. auto. }
    rewrite E. apply asin_sin. pose proof (acos_bound (z / r)). split; [pose proof PI_pos; lra|].
    destruct (Req_dec (z / r) 0) as [->|N]; [rewrite acos_0; lra|]. left. rewrite <- acos_0. apply acos_decr; lra.
  Qed.
  Lemma lens_code_area : a * a <= d * d + b * b -> b * b <= a * a + d * d -> lens_code a (b * b) d = lens_area a b d.
  Proof.
    intros G1 G2. rewrite lens_code_unfold. unfold lens_area.
    assert (Hx : 0 <= x) by (unfold x; apply Rmult_le_pos; [lra|left; apply Rinv_0_lt_compat; lra]).
    assert (Hdx : 0 <= d - x).
    { replace (d - x) with ((d * d + b * b - a * a) / (2 * d)) by (unfold x; field; lra). apply Rmult_le_pos; [lra|left; apply Rinv_0_lt_compat; lra]. }
    pose proof lens_x_lt as X. pose proof lens_dx_lt as DX. rewrite Rabs_right by lra.
    rewrite asin_of_chord by lra. replace (a * a - x * x) with (b * b - (d - x) * (d - x)) at 1 by (rewrite lens_x; ring).
    rewrite asin_of_chord by lra.
    replace (x / a) with ((d * d + a * a - b * b) / (2 * d * a)) by (unfold x; field; lra).
    replace ((d - x) / b) with ((d * d + b * b - a * a) / (2 * d * b)) by (unfold x; field; lra).
    assert (T : sqrt ((- d + a + b) * (d + a - b) * (d - a + b) * (d + a + b)) = 2 * d * sqrt (a * a - x * x)).
    { replace ((- d + a + b) * (d + a - b) * (d - a + b) * (d + a + b)) with ((2 * d) * (2 * d) * (a * a - x * x)) by (unfold x; field; lra).
      rewrite sqrt_mult by (try nra; left; apply lens_y_pos). rewrite sqrt_square by lra. reflexivity. }
    rewrite T. replace (b * b - (d - x) * (d - x)) with (a * a - x * x) by (rewrite lens_x; ring). field.
  Qed.
  Lemma asin_chord_ge r z : 0 < r -> 0 <= z <= r -> sqrt (r * r - z * z) * z <= r * r * asin (sqrt (r * r - z * z) / r).
  Proof.
    intros Hr Hz. set (y := sqrt (r * r - z * z)).
    assert (Hy0 : 0 <= y) by apply sqrt_pos. assert (Hyy : y * y = r * r - z * z) by (apply sqrt_sqrt; nra).
    assert (Hy : y <= r) by nra. assert (Q : 0 <= y / r <= 1).
    { split; [apply Rmult_le_pos; [auto|left; apply Rinv_0_lt_compat; auto]|]. apply Rmult_le_reg_r with r; auto. unfold Rdiv. rewrite Rmult_assoc, Rinv_l by lra. lra. }
    assert (A : y / r <= asin (y / r)).
    { destruct (proj1 Q) as [P|P]; [|rewrite <- P, asin_0; lra]. left.
      rewrite <- (sin_asin (y / r)) at 1 by lra. apply sin_lt_x. 
      pose proof (asin_bound (y / r)). destruct (Rle_lt_dec (asin (y / r)) 0) as [L|L]; auto. exfalso.
      assert (sin (asin (y / r)) <= 0). { apply Ropp_le_cancel. rewrite Ropp_0, <- sin_neg. pose proof PI_pos. apply sin_ge_0; lra. }
      rewrite sin_asin in H0 by lra. lra. }
    apply Rle_trans with (r * r * (y / r)); [|apply Rmult_le_compat_l; [nra|auto]].
    replace (r * r * (y / r)) with (y * r) by (field; lra). apply Rmult_le_compat_l; lra.
  Qed.
  Lemma lens_code_nonneg : 0 <= lens_code a (b * b) d.
  Proof.
    rewrite lens_code_unfold. pose proof lens_x_lt as X. pose proof lens_dx_lt as DX. pose proof lens_y_pos as Y.
    set (y := sqrt (a * a - x * x)). assert (Hy : 0 <= y) by apply sqrt_pos.
    assert (A : y * x <= a * a * asin (y / a)).
    { pose proof (asin_chord_ge a (Rabs x) Ha) as P. assert (R : Rabs x * Rabs x = x * x) by (rewrite <- Rabs_mult; apply Rabs_right; nra).
      rewrite R in P. fold y in P. assert (0 <= Rabs x <= a) by (split; [apply Rabs_pos|apply Rabs_le; lra]). specialize (P H).
      pose proof (Rle_abs x). nra. }
    assert (B : y * Rabs (d - x) <= b * b * asin (y / b)).
    { pose proof (asin_chord_ge b (Rabs (d - x)) Hb) as P. assert (R : Rabs (d - x) * Rabs (d - x) = (d - x) * (d - x)) by (rewrite <- Rabs_mult; apply Rabs_right; apply Rle_ge, Rle_0_sqr).
      rewrite R in P. replace (b * b - (d - x) * (d - x)) with (a * a - x * x) in P by (rewrite lens_x; ring). fold y in P.
      apply P. split; [apply Rabs_pos|apply Rabs_le; lra]. }
    lra.
  Qed.
End Lens.

(** ** moving a ray to the edge *)
Lemma mdet_image m a b c : mdet (M3 (mmulv m a) (mmulv m b) (mmulv m c)) = mdet m * mdet (M3 a b c).
Proof. destruct m as [[? ? ?] [? ? ?] [? ? ?]], a, b, c. unfold mdet, mmulv, dot. cbn. ring. Qed.
Lemma cross_norm2 a b : dot a a = 1 -> dot b b = 1 -> dot (cross a b) (cross a b) = 1 - dot a b * dot a b.
Proof.
  intros A B. transitivity (dot a a * dot b b - dot a b * dot a b); [|rewrite A, B; ring].
  destruct a as [a1 a2 a3], b as [b1 b2 b3]. unfold dot, cross. cbn [vx vy vz]. ring.
Qed.
Lemma cross_orth a b : dot a (cross a b) = 0 /\ dot b (cross a b) = 0.
Proof. destruct a as [a1 a2 a3], b as [b1 b2 b3]. unfold dot, cross. cbn [vx vy vz]. split; ring. Qed.
Lemma mdet_cross a b c : mdet (M3 a b c) = dot (cross a b) c.
Proof. destruct a as [a1 a2 a3], b as [b1 b2 b3], c as [c1 c2 c3]. unfold mdet, dot, cross. cbn. ring. Qed.
Lemma dot_norm_r a c : c <> vzero -> dot a (norm c) = dot a c / vnorm c.
Proof. intros H. pose proof (vnorm_pos c H). destruct a as [a1 a2 a3], c as [c1 c2 c3]. unfold norm, dot. cbn [vx vy vz]. field. lra. Qed.
Lemma dot_z v : dot v (V3 0 0 1) = vz v. Proof. destruct v as [v1 v2 v3]. unfold dot. cbn. ring. Qed.
Lemma rotate_toward m v D t : rotation (fst m) -> rotation (snd m) -> dot v v = 1 -> dot D D = 1 -> cross v D <> vzero ->
  yp_forward m (norm (cross v D)) = V3 0 0 1 ->
  let w := yp_backward m (rotate_elem (yp_forward m v) t 2 false) in
  dot w w = 1 /\ dot D w = cos (acos (dot D v) - t).
Proof.
  intros R1 R2 Hv HD Hc E w. set (F := yp_forward m). set (u := norm (cross v D)) in *.
  assert (Fdot : forall p q, dot (F p) (F q) = dot p q) by (intros; apply yp_forward_dot; auto).
  destruct (cross_orth v D) as [O1 O2].
  assert (Zv : vz (F v) = 0). { rewrite <- dot_z, <- E. fold F. rewrite Fdot. unfold u. rewrite dot_norm_r by auto. rewrite O1. unfold Rdiv. ring. }
  assert (ZD : vz (F D) = 0). { rewrite <- dot_z, <- E. fold F. rewrite Fdot. unfold u. rewrite dot_norm_r by auto. rewrite O2. unfold Rdiv. ring. }
  pose proof (cross_norm2 v D Hv HD) as C2. pose proof (vnorm_pos _ Hc) as Pc.
  pose proof (dot_unit_bound D v HD Hv) as B.
  assert (Dt : mdet (M3 (F v) (F D) (F u)) = sin (acos (dot D v))).
  { unfold F, yp_forward. rewrite !mdet_image. destruct R1 as [_ [_ ->]]. destruct R2 as [_ [_ ->]]. rewrite mdet_cross.
    unfold u. rewrite dot_norm_r by auto. rewrite sin_acos by auto. unfold vnorm in *.
    rewrite C2 in *. rewrite (dot_sym v D) in *. replace (1 - (dot D v)²) with (1 - dot D v * dot D v) by reflexivity.
    set (q := 1 - dot D v * dot D v) in *. assert (0 <= q) by (unfold q; nra).
    rewrite <- (sqrt_sqrt q) at 1 by auto. field. lra. }
  pose proof (Fdot D v) as Fd. pose proof (Fdot v v) as Fv. rewrite Hv in Fv.
  unfold F in Dt at 3. rewrite E in Dt.
  assert (Fw : F w = rotate_elem (F v) t 2 false) by (apply yp_forward_backward; auto).
  rewrite <- (Fdot w w), <- (Fdot D w), Fw. clear Fw w.
  unfold rotate_elem. rewrite rmtx_elem_2. unfold rad_of.
  destruct (F v) as [p q z]. destruct (F D) as [r s z']. cbn [vz] in Zv, ZD. subst z z'.
  unfold mdet in Dt. unfold dot in Fd, Fv. cbn [vx vy vz] in *. cbn in Dt.
  rewrite cos_minus, cos_acos by auto.
  assert (Dt' : sin (acos (dot D v)) = p * s - q * r) by (rewrite <- Dt; ring). rewrite Dt'.
  assert (Fd' : dot D v = r * p + s * q) by (unfold dot; rewrite <- Fd; ring). rewrite Fd'.
  unfold mmulv, dot. cbn [vx vy vz]. cbn.
  pose proof (sin2_cos2 t) as SC. unfold Rsqr in SC. split; [|ring].
  transitivity ((p * p + q * q) * (sin t * sin t + cos t * cos t)); [ring|]. rewrite SC. lra.
Qed.
Lemma moved_angle d va v a b2 : d <> vzero -> dot v v = 1 -> regular_dir (cross v (norm d)) ->
  let t := angle (norm d) v in let x := (a * a - b2 + t * t) / (2 * t) in
  let w := moved_vec (mk_view d va) a b2 t v in
  dot w w = 1 /\ (0 <= x <= PI -> angle (norm d) w = x).
Proof.
  intros Hd Hv Hr t x w. pose proof (regular_nonzero _ Hr) as Hc.
  assert (E : rmtx_yp (cross v (norm d)) = rmtx_yp (norm (cross v (norm d)))).
  { unfold rmtx_yp. rewrite norm_idem by auto. reflexivity. }
  assert (Ez : yp_forward (rmtx_yp (cross v (norm d))) (norm (cross v (norm d))) = V3 0 0 1).
  { rewrite E. pose proof (w2v_dir _ 180 Hr) as W. rewrite mk_view_dxyz in W by auto.
    unfold world2view, mk_view in W. cbn [vm_rmtx] in W. rewrite norm1_nonzero in W by auto. exact W. }
  destruct (rmtx_yp_rotation (cross v (norm d))) as [R1 R2].
  destruct (rotate_toward (rmtx_yp (cross v (norm d))) v (norm d) (t - x) R1 R2 Hv (norm_dot d Hd) Hc Ez) as [W1 W2].
  assert (W : w = yp_backward (rmtx_yp (cross v (norm d))) (rotate_elem (yp_forward (rmtx_yp (cross v (norm d))) v) (t - x) 2 false)).
  { unfold w, moved_vec. rewrite mk_view_dxyz by auto. reflexivity. }
  rewrite W. split; auto. intros Hx. unfold angle. rewrite W2. fold (angle (norm d) v). fold t.
  replace (t - (t - x)) with x by ring. apply acos_cos. auto.
Qed.

(** ** stray rays *)
Lemma stray_mask_bright vm args : exists f, stray_mask vm (normed args) = map f args /\ forall r, In r args -> (f r = true <-> bright_edge vm args r).
Proof.
  assert (L : map r_lum (normed args) = map r_lum args) by (unfold normed; rewrite map_map; auto).
  unfold stray_mask, lum_average, xmean. rewrite L, map_length. fold (Rsumf r_lum args).
  destruct args as [|r0 args0]; [exists (fun _ => false); split; [destruct (xdiv _ _); auto; destruct (Rgtb _ _); auto|intros r []]|].
  set (args := r0 :: args0) in *. assert (N : 0 < INR (length args)) by (apply lt_0_INR; cbn; lia).
  rewrite xdiv_fin by lra. set (avg := Rsumf r_lum args / INR (length args)) in *.
  destruct (Rgtb avg 0) eqn:G.
  - apply Rltb_true in G. exists (fun r => is_stray vm avg (Ray (norm (r_vec r)) (r_omega r) (r_lum r))). split.
    + unfold normed. rewrite map_map. reflexivity.
    + intros r _. unfold is_stray, bright_edge. cbn [r_vec r_lum]. fold avg. rewrite !Bool.andb_true_iff, Bool.negb_true_iff.
      unfold isclose, Rgtb. rewrite Rleb_true, Rltb_true. split.
      * intros [[A B] C]. split; auto. split; auto. split; auto. apply (Rmult_lt_compat_r avg) in C; auto.
        unfold Rdiv in C. rewrite Rmult_assoc, Rinv_l in C by lra. lra.
      * intros [A [B [_ C]]]. split; [split; auto|]. apply Rmult_lt_reg_r with avg; auto. unfold Rdiv. rewrite Rmult_assoc, Rinv_l by lra. lra.
  - apply Rltb_false in G. exists (fun _ => false). split; [unfold normed; rewrite map_map; auto|].
    intros r _. split; [discriminate|]. intros [_ [_ [A _]]]. fold avg in A. lra.
Qed.
Lemma fill_mask_twice {A} mask (x y : A) l : fill_mask mask x (fill_mask mask y l) = fill_mask mask x l.
Proof. revert l; induction mask as [|b mask IH]; intros [|z l]; cbn; auto. destruct b; f_equal; apply IH. Qed.
Definition stray_hits (vm : viewmapper) (s : nat * R * vec3 * R) : Prop :=
  let '(i, b2, vst, d) := s in let a := vm_viewangle vm * PI / 360 in a - sqrt b2 < d < a + sqrt b2.
Definition stray_lens (vm : viewmapper) (s : nat * R * vec3 * R) : R :=
  let '(i, b2, vst, d) := s in lens_code (vm_viewangle vm * PI / 360) b2 d.
Lemma stray_round_hit vm sm st s : stray_hits vm s ->
  fst (fst (stray_round vm sm st s)) = fill_mask sm (stray_lens vm s) (fst (fst st)).
Proof.
  destruct s as [[[i b2] vst] d], st as [[om v] mask]. unfold stray_hits, stray_round, stray_lens. intros [A B].
  replace (Rltb _ _ && Rltb _ _)%bool with true; [reflexivity|]. symmetry. apply andb_true_intro. split; apply Rltb_true; auto.
Qed.
Lemma stray_fold_last vm sm ss s st : (forall q, In q (ss ++ [s]) -> stray_hits vm q) ->
  fst (fst (fold_left (stray_round vm sm) (ss ++ [s]) st)) = fill_mask sm (stray_lens vm s) (fst (fst st)).
Proof.
  revert st. induction ss as [|q ss IH]; intros st H; cbn [app fold_left].
  - apply stray_round_hit. apply H. left. auto.
  - rewrite IH by (intros x Hx; apply H; right; auto). rewrite stray_round_hit by (apply H; left; auto). apply fill_mask_twice.
Qed.
(** ** one stray ray *)
Section One.
  Variables (f : ray -> bool) (pre post : list ray) (s : ray).
  Hypothesis Hs : f s = true.
  Hypothesis Hpre : forall r, In r pre -> f r = false.
  Hypothesis Hpost : forall r, In r post -> f r = false.
  Lemma select_none {A} l (k : list A) : (forall r, In r l -> f r = false) -> select (map f l) k = [].
  Proof. revert k; induction l as [|x l IH]; intros [|y k] H; cbn [map select]; try rewrite (H x) by (left; auto); auto. apply IH. intros r Hr. apply H. right; auto. Qed.
  Lemma strays_one_gen vm n : map (fun ir => (fst ir, r_omega (snd ir) / PI, r_vec (snd ir), vm_radians vm (r_vec (snd ir))))
      (select (map f (pre ++ s :: post)) (combine (seq n (length (normed (pre ++ s :: post)))) (normed (pre ++ s :: post)))) =
    [((n + length pre)%nat, r_omega s / PI, norm (r_vec s), vm_radians vm (norm (r_vec s)))].
  Proof.
    revert n. induction pre as [|p l IH]; intros n.
    - cbn [app map normed length seq combine select]. rewrite Hs. rewrite select_none by auto. cbn. rewrite Nat.add_0_r. auto.
    - cbn [app map normed length seq combine select]. rewrite (Hpre p) by (left; auto).
      fold (normed (l ++ s :: post)). rewrite IH by (intros r Hr; apply Hpre; right; auto). cbn [length]. do 4 f_equal. lia.
  Qed.
  Lemma fill_none {A} (x : A) l k : length l = length k -> (forall r, In r l -> f r = false) -> fill_mask (map f l) x k = k.
  Proof. revert k; induction l as [|y l IH]; intros [|z k] L H; cbn in *; try discriminate; auto. rewrite (H y) by auto. f_equal. apply IH; auto. Qed.
  Lemma fill_one {A} (x : A) (g : ray -> A) : fill_mask (map f (pre ++ s :: post)) x (map g (pre ++ s :: post)) = map g pre ++ x :: map g post.
  Proof.
    induction pre as [|p l IH]; cbn [app map fill_mask].
    - rewrite Hs. f_equal. apply fill_none; auto. rewrite map_length. auto.
    - rewrite (Hpre p) by (left; auto). f_equal. apply IH. intros r Hr. apply Hpre; right; auto.
  Qed.
  Lemma set_nth_one {A} (x : A) (g : ray -> A) : set_nth (length pre) x (map g (pre ++ s :: post)) = map g pre ++ x :: map g post.
  Proof. clear. induction pre as [|p l IH]; cbn [app map set_nth length]; auto. f_equal. apply IH. Qed.
End One.
Lemma mk_rays_app v1 o1 l1 v2 o2 l2 : length v1 = length o1 -> length v1 = length l1 ->
  mk_rays (v1 ++ v2) (o1 ++ o2) (l1 ++ l2) = mk_rays v1 o1 l1 ++ mk_rays v2 o2 l2.
Proof.
  revert o1 l1; induction v1 as [|v v1 IH]; intros [|o o1] [|l l1] A B; cbn in A, B; try discriminate; auto.
  cbn [app]. change (mk_rays (?v :: ?vs) (?o :: ?os) (?l :: ?ls)) with (Ray v o l :: mk_rays vs os ls). rewrite IH by lia. auto.
Qed.
Lemma select_app {A} m1 m2 (l1 l2 : list A) : length m1 = length l1 -> select (m1 ++ m2) (l1 ++ l2) = select m1 l1 ++ select m2 l2.
Proof. revert l1; induction m1 as [|b m1 IH]; intros [|x l1] H; cbn in *; try discriminate; auto. destruct b; rewrite IH by lia; auto. Qed.
Lemma normed_app a b : normed (a ++ b) = normed a ++ normed b. Proof. apply map_app. Qed.
Lemma single_stray vm pre s post : vm_aspect vm <> 2%Z -> bright_edge vm (pre ++ s :: post) s ->
  (forall r, In r (pre ++ post) -> ~ bright_edge vm (pre ++ s :: post) r) ->
  let a := vm_viewangle vm * PI / 360 in let t := vm_radians vm (norm (r_vec s)) in overlaps a (r_omega s) t ->
  let area := lens_code a (r_omega s / PI) t in
  exists mask, view_rays vm (pre ++ s :: post) =
    (seen vm pre ++ Ray (moved_vec vm a (r_omega s / PI) t (norm (r_vec s))) area (r_lum s) :: seen vm post, mask,
     map r_omega pre ++ area :: map r_omega post).
Proof.
  intros Ha Hb Hn a t Ho area. unfold view_rays. apply Z.eqb_neq in Ha as Ha'. rewrite Ha'.
  fold (normed (pre ++ s :: post)). destruct (stray_mask_bright vm (pre ++ s :: post)) as [f [E Hf]].
  assert (Fs : f s = true) by (apply Hf; [apply in_elt|auto]).
  assert (Fn : forall r, In r (pre ++ post) -> f r = false).
  { intros r Hr. apply Bool.not_true_is_false. intros T. apply (Hn r Hr). apply Hf; auto. rewrite in_app_iff in *. cbn. tauto. }
  assert (Fp : forall r, In r pre -> f r = false) by (intros; apply Fn, in_or_app; auto).
  assert (Fq : forall r, In r post -> f r = false) by (intros; apply Fn, in_or_app; auto).
  rewrite E. unfold strays. rewrite (strays_one_gen f pre post s Fs Fp Fq vm 0). cbn [fold_left Nat.add].
  unfold stray_round. fold a. fold t. destruct Ho as [O1 O2].
  replace (Rltb (a - sqrt (r_omega s / PI)) t && Rltb t (a + sqrt (r_omega s / PI)))%bool with true
    by (symmetry; apply andb_true_intro; split; apply Rltb_true; auto).
  fold area.
  assert (Mo : map r_omega (normed (pre ++ s :: post)) = map r_omega (pre ++ s :: post)) by (unfold normed; rewrite map_map; auto).
  assert (Mv : map r_vec (normed (pre ++ s :: post)) = map (fun r => norm (r_vec r)) (pre ++ s :: post)) by (unfold normed; rewrite map_map; auto).
  assert (Ml : map r_lum (normed (pre ++ s :: post)) = map r_lum (pre ++ s :: post)) by (unfold normed; rewrite map_map; auto).
  assert (Mm : map (fun r => in_view vm 0 (r_vec r)) (normed (pre ++ s :: post)) = map (fun r => in_view vm 0 (norm (r_vec r))) (pre ++ s :: post))
    by (unfold normed; rewrite map_map; auto).
  rewrite Mo, Mv, Ml, Mm. rewrite (fill_one f pre post s Fs Fp Fq). rewrite !set_nth_one.
  rewrite (map_app r_lum). cbn [map]. eexists. f_equal. f_equal.
  rewrite mk_rays_app by (rewrite !map_length; auto).
  change (mk_rays (?v :: ?vs) (?o :: ?os) (?l :: ?ls)) with (Ray v o l :: mk_rays vs os ls).
  rewrite select_app by (rewrite mk_rays_length; rewrite !map_length; auto). cbn [select].
  assert (G : forall l, select (map (fun r => in_view vm 0 (norm (r_vec r))) l) (mk_rays (map (fun r => norm (r_vec r)) l) (map r_omega l) (map r_lum l)) = seen vm l).
  { intros l. unfold seen. rewrite Ha'. cbn [orb]. fold (normed l).
    replace (map (fun r => in_view vm 0 (norm (r_vec r))) l) with (map (fun r => in_view vm 0 (r_vec r)) (normed l)) by (unfold normed; rewrite map_map; auto).
    replace (mk_rays _ _ _) with (normed l); [apply select_map_filter|].
    rewrite <- (mk_rays_id (normed l)) at 1. unfold normed. rewrite !map_map. auto. }
  rewrite !G. auto.
Qed.
Lemma clipped_stray fuel o d va pre s post : o_as_area o = true -> d <> vzero -> hemi_angle va ->
  let vm := mk_view d va in let args := pre ++ s :: post in let v := norm (r_vec s) in
  r_vec s <> vzero -> bright_edge vm args s -> (forall r, In r (pre ++ post) -> ~ bright_edge vm args r) ->
  let a := half va in let b := sqrt (r_omega s / PI) in let t := angle (norm d) v in
  0 < r_omega s <= PI * (a * a) -> a - b < t < a + b -> a * a <= t * t + b * b ->
  exists w m, construct fuel o vm args = Some (m, map r_omega pre ++ lens_area a b t :: map r_omega post) /\
    ms_rays m = seen vm pre ++ Ray w (lens_area a b t) (r_lum s) :: seen vm post /\
    (regular_dir (cross v (norm d)) -> dot w w = 1 /\ angle (norm d) w = (a * a - b * b + t * t) / (2 * t)).
Proof.
  intros Ho Hd Hva vm args v Hv Hb Hn a b t Hom Ht Hg.
  pose proof (norm_dot (r_vec s) Hv) as Vu. fold v in Vu. pose proof PI_pos as HPI.
  assert (Ea : vm_viewangle vm * PI / 360 = a) by (unfold vm, a, half; rewrite mk_view_hemi_va by auto; reflexivity).
  assert (Et : vm_radians vm v = t) by (unfold vm; rewrite vm_radians_eq, mk_view_dxyz by auto; reflexivity).
  assert (Hasp : vm_aspect vm <> 2%Z) by (unfold vm; rewrite mk_view_hemi_aspect by auto; discriminate).
  pose proof (half_range va Hva) as Ha. fold a in Ha.
  assert (Hq : 0 < r_omega s / PI) by (apply Rmult_lt_0_compat; [lra|apply Rinv_0_lt_compat; lra]).
  assert (Hb0 : 0 < b) by (apply sqrt_lt_R0; auto).
  assert (Hbb : b * b = r_omega s / PI) by (apply sqrt_sqrt; lra).
  assert (Hba : b <= a).
  { apply Rsqr_incr_0; [|lra|lra]. unfold Rsqr. rewrite Hbb. apply Rmult_le_reg_r with PI; auto. unfold Rdiv. rewrite Rmult_assoc, Rinv_l by lra. lra. }
  destruct (single_stray vm pre s post Hasp Hb Hn) as [mask E].
  { unfold overlaps. fold v. rewrite Ea, Et. fold b. auto. }
  cbv zeta in E. fold args v in E. rewrite Ea, Et in E. rewrite <- Hbb in E.
  rewrite (lens_code_area a b t) in E by nra.
  exists (moved_vec vm a (b * b) t v). eexists. unfold construct. rewrite E. unfold set_omega. rewrite Ho. cbn [negb andb].
  rewrite mk_rays_id. split; [reflexivity|]. split; [reflexivity|].
  intros Hr. destruct (moved_angle d va v a (b * b) Hd Vu Hr) as [W1 W2]. split; [exact W1|]. apply W2. fold t.
  assert (X : - a < (a * a - b * b + t * t) / (2 * t) < a) by (apply lens_x_lt; lra).
  split; [|lra]. apply Rmult_le_pos; [nra|left; apply Rinv_0_lt_compat; lra].
Qed.
(** *** witnesses *)
Definition tiny := mk_view up3 2.
Definition ta : R := half 2.
Lemma hemi_2 : hemi_angle 2. Proof. unfold hemi_angle. lra. Qed.
Lemma up3_nonzero : up3 <> vzero. Proof. apply unit_nonzero, up3_unit. Qed.
Lemma ta_eq : ta = PI / 180. Proof. unfold ta, half. field. Qed.
Lemma ta_pos : 0 < ta < / 40. Proof. rewrite ta_eq. pose proof PI_pos. pose proof PI_4. split; [lra|]. apply Rmult_lt_reg_r with 180; [lra|]. unfold Rdiv. rewrite Rmult_assoc, Rinv_l by lra. lra. Qed.
Definition tilt (t : R) : vec3 := V3 (sin t) 0 (cos t).
Lemma tilt_unit t : dot (tilt t) (tilt t) = 1.
Proof. unfold dot, tilt. cbn. pose proof (sin2_cos2 t). unfold Rsqr in *. lra. Qed.
Lemma norm_tilt t : norm (tilt t) = tilt t. Proof. apply norm_unit_id, tilt_unit. Qed.
Lemma tilt_angle t : 0 <= t <= PI -> angle (norm up3) (tilt t) = t.
Proof.
  intros H. rewrite norm_up3. unfold angle. replace (dot up3 (tilt t)) with (cos t) by (unfold dot, up3, tilt; cbn; ring).
  apply acos_cos; auto.
Qed.
Lemma tilt_regular t : 0 < t < PI -> regular_dir (cross (tilt t) (norm up3)).
Proof.
  intros H. rewrite norm_up3. unfold cross, tilt, up3. cbn [vx vy vz].
  replace (V3 _ _ _) with (V3 0 (- sin t) 0) by (f_equal; ring). pose proof (sin_gt_0 t (proj1 H) (proj2 H)) as S.
  right. assert (Nn : vnorm (V3 0 (- sin t) 0) = sin t).
  { unfold vnorm, dot. cbn [vx vy vz]. replace (_ + _) with (sin t * sin t) by ring. apply sqrt_square. lra. }
  rewrite Nn. cbn [vx vy vz]. split; [|split].
  - unfold vzero. intros [=E]. lra.
  - rewrite Rabs_R0, Rabs_Ropp, Rabs_right by lra. rewrite Rmax_right by lra. nra.
  - replace (0 / sin t) with 0 by (unfold Rdiv; ring). rewrite acos_0. unfold cap_bot. pose proof PI_RGT_0. pose proof PI_4.
    pose proof PI2_1. nra.
Qed.
Definition dark : ray := Ray up3 1 0.
Definition stray_at (t : R) : ray := Ray (tilt t) (PI * (ta * ta)) 1.
Lemma dark_not vm args : ~ bright_edge vm args dark.
Proof. intros [_ [_ [A B]]]. cbn [dark r_lum] in B. lra. Qed.
Lemma tiny_out t : ta <= t <= PI -> in_view tiny 0 (norm (tilt t)) = false.
Proof.
  intros H. apply Bool.not_true_is_false. rewrite norm_tilt. intros E. apply in_view_sound in E; [|apply up3_nonzero|apply tilt_unit|apply hemi_2].
  rewrite tilt_angle in E by (pose proof ta_pos; lra). fold ta in E. lra.
Qed.
Lemma tiny_bright t args : ta <= t <= 2 * ta -> 0 < Rsumf r_lum args / INR (length args) < / 10 -> bright_edge tiny args (stray_at t).
Proof.
  intros H A. pose proof ta_pos as T. pose proof PI2_1. split; [apply tiny_out; lra|]. split; [|cbn [stray_at r_lum]; lra].
  cbn [stray_at r_vec]. rewrite norm_tilt. unfold vm_degrees, tiny. rewrite vm_radians_eq by (try apply up3_nonzero; apply tilt_unit). rewrite mk_view_dxyz by apply up3_nonzero.
  fold (angle (norm up3) (tilt t)). rewrite tilt_angle by lra. rewrite mk_view_hemi_va by apply hemi_2.
  assert (E : t * 180 / PI = t / ta) by (rewrite ta_eq; field; pose proof PI_pos; lra). rewrite E.
  assert (1 <= t / ta <= 2).
  { split; apply Rmult_le_reg_r with ta; try lra; unfold Rdiv; rewrite Rmult_assoc, Rinv_l by lra; lra. }
  rewrite Rabs_right by lra. unfold rtol_default. rewrite Rabs_right by lra. lra.
Qed.
Lemma dark_sum n : Rsumf r_lum (repeat dark n) = 0.
Proof. induction n as [|n IH]; auto. cbn [repeat]. rewrite Rsumf_cons, IH. cbn. ring. Qed.
Lemma sqrt2_b : 1 <= sqrt 2 <= 2.
Proof. split; [rewrite <- sqrt_1 at 1; apply sqrt_le_1; lra|]. rewrite <- (sqrt_square 2) at 2 by lra. apply sqrt_le_1; lra. Qed.
Lemma radius_ta : sqrt (PI * (ta * ta) / PI) = ta.
Proof. pose proof PI_pos. replace (PI * (ta * ta) / PI) with (ta * ta) by (field; lra). apply sqrt_square. pose proof ta_pos; lra. Qed.
Lemma lens_quarter : lens_area ta ta (sqrt 2 * ta) = ta * ta * (PI / 2 - 1).
Proof.
  pose proof ta_pos. assert (Q : sqrt 2 * sqrt 2 = 2) by (apply sqrt_sqrt; lra). pose proof sqrt2_b. unfold lens_area.
  replace ((sqrt 2 * ta * (sqrt 2 * ta) + ta * ta - ta * ta) / (2 * (sqrt 2 * ta) * ta)) with (1 / sqrt 2).
  2:{ apply Rmult_eq_reg_r with (sqrt 2); [|lra]. transitivity 1; [field; lra|]. symmetry.
      transitivity ((sqrt 2 * sqrt 2) * / 2); [field; lra|]. rewrite Q. field. }
  assert (AC : acos (1 / sqrt 2) = PI / 4) by (rewrite <- cos_PI4; apply acos_cos; pose proof PI_pos; lra). rewrite AC.
  replace ((- (sqrt 2 * ta) + ta + ta) * (sqrt 2 * ta + ta - ta) * (sqrt 2 * ta - ta + ta) * (sqrt 2 * ta + ta + ta))
    with ((2 * (ta * ta)) * (2 * (ta * ta))).
  2:{ transitivity ((4 - sqrt 2 * sqrt 2) * (sqrt 2 * sqrt 2) * (ta * ta * (ta * ta))); [rewrite Q; ring|ring]. }
  rewrite sqrt_square by nra. field.
Qed.
Definition one_stray : list ray := repeat dark 10 ++ stray_at (sqrt 2 * ta) :: [].
Lemma one_stray_avg : 0 < Rsumf r_lum one_stray / INR (length one_stray) < / 10.
Proof. unfold one_stray. rewrite Rsumf_app, dark_sum, Rsumf_1. cbn [stray_at r_lum repeat length app INR]. lra. Qed.
Lemma one_stray_ok : let s := stray_at (sqrt 2 * ta) in
  bright_edge tiny one_stray s /\ (forall r, In r (repeat dark 10 ++ []) -> ~ bright_edge tiny one_stray r) /\ r_vec s <> vzero /\
  angle (norm up3) (norm (r_vec s)) = sqrt 2 * ta /\ 0 < r_omega s <= PI * (ta * ta) /\ sqrt (r_omega s / PI) = ta /\
  ta - ta < sqrt 2 * ta < ta + ta /\ ta * ta <= sqrt 2 * ta * (sqrt 2 * ta) + ta * ta /\ regular_dir (cross (norm (r_vec s)) (norm up3)).
Proof.
  intros s. pose proof ta_pos. pose proof sqrt2_b. assert (Q : sqrt 2 * sqrt 2 = 2) by (apply sqrt_sqrt; lra). pose proof PI2_1.
  assert (sqrt 2 < 2) by nra.
  split; [apply tiny_bright; [nra|apply one_stray_avg]|]. split.
  { intros r Hr. rewrite app_nil_r in Hr. apply repeat_spec in Hr as ->. apply dark_not. }
  cbn [s stray_at r_vec r_omega]. rewrite norm_tilt. split; [apply unit_nonzero, tilt_unit|].
  split; [apply tilt_angle; nra|]. split; [split; [|lra]; apply Rmult_lt_0_compat; [lra|nra]|]. split; [apply radius_ta|].
  split; [nra|]. split; [nra|]. apply tilt_regular. split; nra.
Qed.
Lemma arguments_modified : exists m om, construct 0 (opts1 2000) tiny one_stray = Some (m, om) /\ om <> map r_omega one_stray.
Proof.
  destruct one_stray_ok as (A & B & C & D & E & F & G & H & I).
  destruct (clipped_stray 0 (opts1 2000) up3 2 (repeat dark 10) (stray_at (sqrt 2 * ta)) [] eq_refl up3_nonzero hemi_2 C A B) as (w & m & X & _).
  - fold ta. exact E.
  - rewrite D, F. fold ta. exact G.
  - rewrite D, F. fold ta. exact H.
  - rewrite D, F in X. fold ta in X. eexists _, _. split; [exact X|]. unfold one_stray. rewrite map_app. intros Q. apply app_inv_head in Q.
    cbn [map stray_at r_omega] in Q. injection Q as Q. rewrite lens_quarter in Q. pose proof ta_pos. pose proof PI_pos.
    rewrite (Rmult_comm PI) in Q. apply Rmult_eq_reg_l with (r := ta * ta) (r1 := PI / 2 - 1) (r2 := PI) in Q; [lra|nra]. 
Qed.
(** two stray rays: both get the overlap of the second *)
Lemma sqrt3_b : 1 < sqrt 3 < 2 /\ sqrt 3 * sqrt 3 = 3.
Proof. assert (Q : sqrt 3 * sqrt 3 = 3) by (apply sqrt_sqrt; lra). pose proof (sqrt_pos 3). split; [split; nra|auto]. Qed.
Lemma lens_sixth : lens_area ta ta (sqrt 3 * ta) = ta * ta * (PI / 3 - sqrt 3 / 2).
Proof.
  pose proof ta_pos. destruct sqrt3_b as [B Q]. unfold lens_area.
  replace ((sqrt 3 * ta * (sqrt 3 * ta) + ta * ta - ta * ta) / (2 * (sqrt 3 * ta) * ta)) with (sqrt 3 / 2) by (field; lra).
  assert (AC : acos (sqrt 3 / 2) = PI / 6) by (rewrite <- cos_PI6; apply acos_cos; pose proof PI_pos; lra). rewrite AC.
  replace ((- (sqrt 3 * ta) + ta + ta) * (sqrt 3 * ta + ta - ta) * (sqrt 3 * ta - ta + ta) * (sqrt 3 * ta + ta + ta))
    with ((sqrt 3 * (ta * ta)) * (sqrt 3 * (ta * ta))).
  2:{ transitivity ((4 - sqrt 3 * sqrt 3) * (sqrt 3 * sqrt 3) * (ta * ta * (ta * ta))); [rewrite Q; ring_simplify; rewrite Q || idtac|ring].
      transitivity ((sqrt 3 * sqrt 3) * (ta * ta * (ta * ta))); [ring|rewrite Q; ring]. }
  rewrite sqrt_square by nra. field.
Qed.
Definition two_strays : list ray := stray_at (sqrt 2 * ta) :: stray_at (sqrt 3 * ta) :: repeat dark 19.
Lemma two_strays_avg : 0 < Rsumf r_lum two_strays / INR (length two_strays) < / 10.
Proof. unfold two_strays. rewrite !Rsumf_cons, dark_sum. cbn [stray_at r_lum repeat length app INR]. lra. Qed.
Lemma shared_overlap : exists m om, construct 0 (opts1 2000) tiny two_strays = Some (m, om) /\
  bright_edge tiny two_strays (stray_at (sqrt 2 * ta)) /\ bright_edge tiny two_strays (stray_at (sqrt 3 * ta)) /\
  om = lens_area ta ta (sqrt 3 * ta) :: lens_area ta ta (sqrt 3 * ta) :: map r_omega (repeat dark 19) /\
  lens_area ta ta (sqrt 3 * ta) < lens_area ta ta (sqrt 2 * ta).
Proof.
  pose proof ta_pos as T. pose proof sqrt2_b as B2. destruct sqrt3_b as [B3 Q3]. assert (Q2 : sqrt 2 * sqrt 2 = 2) by (apply sqrt_sqrt; lra). pose proof PI2_1 as P1.
  assert (Lt2 : sqrt 2 < 2) by nra.
  assert (Br1 : bright_edge tiny two_strays (stray_at (sqrt 2 * ta))) by (apply tiny_bright; [nra|apply two_strays_avg]).
  assert (Br2 : bright_edge tiny two_strays (stray_at (sqrt 3 * ta))) by (apply tiny_bright; [nra|apply two_strays_avg]).
  assert (V : snd (view_rays tiny two_strays) = lens_area ta ta (sqrt 3 * ta) :: lens_area ta ta (sqrt 3 * ta) :: map r_omega (repeat dark 19)).
  { unfold view_rays. assert (Ha : (vm_aspect tiny =? 2)%Z = false) by (unfold tiny; rewrite mk_view_hemi_aspect by apply hemi_2; auto). rewrite Ha.
    fold (normed two_strays). destruct (stray_mask_bright tiny two_strays) as [f [E Hf]]. rewrite E.
    assert (F1 : f (stray_at (sqrt 2 * ta)) = true) by (apply Hf; [left; auto|auto]).
    assert (F2 : f (stray_at (sqrt 3 * ta)) = true) by (apply Hf; [right; left; auto|auto]).
    assert (F3 : forall r, In r (repeat dark 19) -> f r = false).
    { intros r Hr. apply Bool.not_true_is_false. intros X. apply Hf in X; [|right; right; auto]. apply repeat_spec in Hr as ->. apply (dark_not _ _ X). }
    assert (Sel : strays tiny (map f two_strays) (normed two_strays) =
      [(0%nat, PI * (ta * ta) / PI, norm (tilt (sqrt 2 * ta)), vm_radians tiny (norm (tilt (sqrt 2 * ta))));
       (1%nat, PI * (ta * ta) / PI, norm (tilt (sqrt 3 * ta)), vm_radians tiny (norm (tilt (sqrt 3 * ta))))]).
    { unfold strays, two_strays. cbn [map normed length seq combine select]. rewrite F1, F2. rewrite (select_none f) by auto. reflexivity. }
    rewrite Sel. clear Sel.
    assert (Ang : forall t, 0 <= t <= PI -> vm_radians tiny (norm (tilt t)) = t).
    { intros t Ht. rewrite norm_tilt. unfold tiny. rewrite vm_radians_eq by (try apply up3_nonzero; apply tilt_unit).
      rewrite mk_view_dxyz by apply up3_nonzero. fold (angle (norm up3) (tilt t)). apply tilt_angle; auto. }
    rewrite !Ang by nra.
    assert (Ta : vm_viewangle tiny * PI / 360 = ta) by (unfold tiny, ta, half; rewrite mk_view_hemi_va by apply hemi_2; auto).
    set (q1 := (0%nat, _, _, _)). set (q2 := (1%nat, _, _, _)).
    set (st := (map r_omega (normed two_strays), map r_vec (normed two_strays), map (fun r => in_view tiny 0 (r_vec r)) (normed two_strays))).
    pose proof (stray_fold_last tiny (map f two_strays) [q1] q2 st) as L. cbn [app] in L.
    assert (Hit : forall q, In q [q1; q2] -> stray_hits tiny q).
    { intros q [<-|[<-|[]]]; unfold stray_hits; cbn [q1 q2]; rewrite Ta, radius_ta; nra. }
    specialize (L Hit). destruct (fold_left _ _ _) as [[om v] mask]. cbn [fst snd] in *. rewrite L.
    unfold stray_lens, q2, st. cbn [fst snd]. rewrite Ta. replace (PI * (ta * ta) / PI) with (ta * ta) by (field; pose proof PI_pos; lra).
    rewrite lens_code_area by nra. unfold two_strays. cbn [normed map fill_mask]. rewrite F1, F2. f_equal. f_equal.
    rewrite map_map. cbn [r_omega]. apply fill_none; auto. }
  unfold construct. destruct (view_rays tiny two_strays) as [[rays mask] om]. cbn [snd] in V. unfold set_omega. cbn [o_as_area opts1 negb andb].
  eexists _, _. split; [reflexivity|]. split; auto. split; auto. split; auto. rewrite lens_quarter, lens_sixth.
  pose proof PI_4. apply Rmult_lt_compat_l; [nra|]. assert (1.7 < sqrt 3) by nra. lra.
Qed.
