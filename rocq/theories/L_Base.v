(** Facts about the vocabulary of Base.v *)
From Coq Require Import Lra Lia.
From Verif Require Import Base.
Local Open Scope R_scope.

(** ** booleans *)
Lemma Rltb_true x y : Rltb x y = true <-> x < y.
Proof. unfold Rltb; destruct (Rlt_dec x y); split; intros; auto; discriminate. Qed.
Lemma Rltb_false x y : Rltb x y = false <-> y <= x.
Proof. unfold Rltb; destruct (Rlt_dec x y); split; intros; auto; try discriminate; lra. Qed.
Lemma Rleb_true x y : Rleb x y = true <-> x <= y.
Proof. unfold Rleb; destruct (Rle_dec x y); split; intros; auto; discriminate. Qed.
Lemma Rleb_false x y : Rleb x y = false <-> y < x.
Proof. unfold Rleb; destruct (Rle_dec x y); split; intros; auto; try discriminate; lra. Qed.
Lemma Reqb_true x y : Reqb x y = true <-> x = y.
Proof. unfold Reqb; destruct (Req_EM_T x y); split; intros; auto; discriminate. Qed.
Lemma Reqb_false x y : Reqb x y = false <-> x <> y.
Proof. unfold Reqb; destruct (Req_EM_T x y); split; intros; auto; try discriminate; contradiction. Qed.

Ltac case_Rltb x y :=
  let E := fresh "E" in destruct (Rltb x y) eqn:E; [apply Rltb_true in E | apply Rltb_false in E].
Ltac case_Rleb x y :=
  let E := fresh "E" in destruct (Rleb x y) eqn:E; [apply Rleb_true in E | apply Rleb_false in E].
Ltac case_Reqb x y :=
  let E := fresh "E" in destruct (Reqb x y) eqn:E; [apply Reqb_true in E | apply Reqb_false in E].
(** case split on the first float comparison in the goal *)
Ltac rcase :=
  match goal with
  | |- context [Rgtb ?x ?y] => unfold Rgtb
  | |- context [Rgeb ?x ?y] => unfold Rgeb
  | |- context [Rltb ?x ?y] => case_Rltb x y
  | |- context [Rleb ?x ?y] => case_Rleb x y
  | |- context [Reqb ?x ?y] => case_Reqb x y
  end.

(** ** floor and mod *)
Lemma Rfloor_spec x : IZR (Rfloor x) <= x < IZR (Rfloor x) + 1.
Proof.
  unfold Rfloor; rewrite minus_IZR; destruct (archimed x) as [H1 H2]; lra.
Qed.
Lemma Rfloor_unique x z : IZR z <= x < IZR z + 1 -> Rfloor x = z.
Proof.
  intros [H1 H2]; unfold Rfloor; rewrite <- (up_tech x z); [lia|lra|rewrite plus_IZR; lra].
Qed.
Lemma Rfloor_iff x z : Rfloor x = z <-> IZR z <= x < IZR z + 1.
Proof. split; [intros <-; apply Rfloor_spec | apply Rfloor_unique]. Qed.
Lemma Rfloor_IZR z : Rfloor (IZR z) = z.
Proof. apply Rfloor_unique; lra. Qed.
Lemma Rfloor_add_Z x z : Rfloor (x + IZR z) = (Rfloor x + z)%Z.
Proof. apply Rfloor_unique; rewrite plus_IZR; pose proof (Rfloor_spec x); lra. Qed.
Lemma Rfloor_le x y : x <= y -> (Rfloor x <= Rfloor y)%Z.
Proof.
  intros H; pose proof (Rfloor_spec x); pose proof (Rfloor_spec y).
  apply Z.lt_succ_r; apply lt_IZR; rewrite succ_IZR; lra.
Qed.
Lemma Rfloor_ge x z : IZR z <= x -> (z <= Rfloor x)%Z.
Proof. intros H; rewrite <- (Rfloor_IZR z); apply Rfloor_le; exact H. Qed.
Lemma Rfloor_lt x z : x < IZR z -> (Rfloor x < z)%Z.
Proof. intros H; apply lt_IZR; pose proof (Rfloor_spec x); lra. Qed.

Lemma Rmod_range x y : 0 < y -> 0 <= Rmod x y < y.
Proof.
  intros Hy; unfold Rmod; pose proof (Rfloor_spec (x / y)) as [H1 H2].
  set (k := IZR (Rfloor (x / y))) in *; clearbody k.
  assert (Hx : x = (x / y) * y) by (field; lra).
  assert (k * y <= (x / y) * y) by (apply Rmult_le_compat_r; lra).
  assert ((x / y) * y < (k + 1) * y) by (apply Rmult_lt_compat_r; lra).
  rewrite <- Hx in *; lra.
Qed.
Lemma Rmod_small x y : 0 <= x < y -> Rmod x y = x.
Proof.
  intros Hx; unfold Rmod.
  rewrite (Rfloor_unique (x / y) 0); [lra|].
  split; [apply Rmult_le_pos; [lra|left; apply Rinv_0_lt_compat; lra]|].
  apply Rmult_lt_reg_r with y; [lra|]. field_simplify; lra.
Qed.
Lemma Rmod_add_mult x y k : 0 < y -> Rmod (x + IZR k * y) y = Rmod x y.
Proof.
  intros Hy; unfold Rmod.
  replace ((x + IZR k * y) / y) with (x / y + IZR k) by (field; lra).
  rewrite Rfloor_add_Z, plus_IZR; ring.
Qed.
Lemma Rmod_shift x y : 0 < y -> Rmod (x + y) y = Rmod x y.
Proof. intros Hy; rewrite <- (Rmod_add_mult x y 1 Hy); f_equal; lra. Qed.
Lemma Rmod_exists x y : 0 < y -> exists k : Z, Rmod x y = x + IZR k * y.
Proof.
  intros Hy; exists (- Rfloor (x / y))%Z; unfold Rmod; rewrite opp_IZR; ring.
Qed.

Lemma Rabs_le_inv x y : Rabs x <= y -> - y <= x <= y.
Proof. unfold Rabs; destruct (Rcase_abs x); lra. Qed.

Lemma sqrt_le_one x : 0 <= x <= 1 -> sqrt x <= 1.
Proof. intros H. pose proof (sqrt_le_1 x 1) as K. rewrite sqrt_1 in K. apply K; lra. Qed.
Lemma sqrt_lt_one x : 0 <= x < 1 -> sqrt x < 1.
Proof. intros H. pose proof (sqrt_lt_1 x 1) as K. rewrite sqrt_1 in K. apply K; lra. Qed.

(** ** trigonometry *)
Lemma PI_pos : 0 < PI. Proof. exact PI_RGT_0. Qed.

Lemma sin_zero_cos_one d : - (2 * PI) < d < 2 * PI -> sin d = 0 -> cos d = 1 -> d = 0.
Proof.
  intros Hd Hs Hc. pose proof PI_pos.
  assert (Hh : sin (d / 2) = 0).
  { assert (E : cos d = 1 - 2 * sin (d / 2) * sin (d / 2)).
    { rewrite <- cos_2a_sin; f_equal; field. }
    rewrite Hc in E. assert (sin (d/2) * sin (d/2) = 0) as Z by lra.
    apply Rmult_integral in Z; destruct Z; auto. }
  destruct (Rtotal_order d 0) as [L|[E|G]]; auto.
  - assert (sin (- (d / 2)) > 0) by (apply sin_gt_0; lra). rewrite sin_neg in *; lra.
  - assert (sin (d / 2) > 0) by (apply sin_gt_0; lra). lra.
Qed.

Lemma angle_unique a b :
  - (2 * PI) < a - b < 2 * PI -> sin a = sin b -> cos a = cos b -> a = b.
Proof.
  intros Hab Hs Hc. enough (a - b = 0) by lra.
  apply sin_zero_cos_one; auto.
  - rewrite sin_minus, Hs, Hc; ring.
  - rewrite cos_minus, Hs, Hc. pose proof (sin2_cos2 b) as E; unfold Rsqr in E; lra.
Qed.

Lemma arctan2_range y x : - PI < arctan2 y x <= PI.
Proof.
  pose proof PI_pos; unfold arctan2.
  destruct (Rlt_dec 0 x); [pose proof (atan_bound (y / x)); lra|].
  destruct (Rlt_dec x 0).
  - destruct (Rle_dec 0 y).
    + pose proof (atan_bound (y / x)).
      assert (y / x <= 0). { unfold Rdiv. assert (/ x < 0) by (apply Rinv_lt_0_compat; lra). nra. }
      assert (atan (y / x) <= 0).
      { rewrite <- atan_0. destruct (Req_dec (y/x) 0) as [->|]; [lra|]. left; apply atan_increasing; lra. }
      lra.
    + pose proof (atan_bound (y / x)).
      assert (0 < y / x). { unfold Rdiv. assert (/ x < 0) by (apply Rinv_lt_0_compat; lra). nra. }
      assert (0 < atan (y / x)). { rewrite <- atan_0. apply atan_increasing; lra. }
      lra.
  - destruct (Rlt_dec 0 y); [lra|]. destruct (Rlt_dec y 0); lra.
Qed.

Lemma sqrt_1_div y x : x <> 0 -> sqrt (1 + (y / x)²) = sqrt (x * x + y * y) / Rabs x.
Proof.
  intros Hx. assert (0 < Rabs x) by (apply Rabs_pos_lt; auto).
  apply sqrt_lem_1.
  - pose proof (Rle_0_sqr (y / x)); lra.
  - apply Rmult_le_pos; [apply sqrt_pos|left; apply Rinv_0_lt_compat; auto].
  - assert (E : Rabs x * Rabs x = x * x) by (rewrite <- Rabs_mult; apply Rabs_pos_eq; nra).
    replace (sqrt (x * x + y * y) / Rabs x * (sqrt (x * x + y * y) / Rabs x))
      with ((sqrt (x * x + y * y) * sqrt (x * x + y * y)) / (Rabs x * Rabs x)) by (field; lra).
    rewrite sqrt_sqrt by nra. rewrite E; unfold Rsqr; field; auto.
Qed.

Lemma hyp_pos x y : x <> 0 \/ y <> 0 -> 0 < sqrt (x * x + y * y).
Proof. intros [H|H]; apply sqrt_lt_R0; nra. Qed.

Lemma arctan2_polar y x :
  sqrt (x * x + y * y) * cos (arctan2 y x) = x /\ sqrt (x * x + y * y) * sin (arctan2 y x) = y.
Proof.
  unfold arctan2.
  destruct (Rlt_dec 0 x) as [Hx|Hx].
  { rewrite cos_atan, sin_atan, (sqrt_1_div y x) by lra.
    rewrite (Rabs_pos_eq x) by lra.
    assert (0 < sqrt (x * x + y * y)) by (apply hyp_pos; lra).
    split; field; lra. }
  destruct (Rlt_dec x 0) as [Hx'|Hx'].
  { assert (0 < sqrt (x * x + y * y)) by (apply hyp_pos; lra).
    assert (E1 : sqrt (x * x + y * y) * cos (atan (y / x)) = - x).
    { rewrite cos_atan, (sqrt_1_div y x), (Rabs_left x) by lra. field; lra. }
    assert (E2 : sqrt (x * x + y * y) * sin (atan (y / x)) = - y).
    { rewrite sin_atan, (sqrt_1_div y x), (Rabs_left x) by lra. field; lra. }
    destruct (Rle_dec 0 y).
    - rewrite neg_cos, neg_sin; lra.
    - replace (atan (y / x) - PI) with (- (PI - atan (y / x))) by ring.
      rewrite cos_neg, sin_neg.
      rewrite Rtrigo_facts.cos_pi_minus, Rtrigo_facts.sin_pi_minus. lra. }
  assert (x = 0) as -> by lra.
  destruct (Rlt_dec 0 y).
  { rewrite cos_PI2, sin_PI2. replace (0 * 0 + y * y) with (y * y) by ring.
    rewrite sqrt_square by lra. lra. }
  destruct (Rlt_dec y 0).
  { rewrite cos_neg, sin_neg, cos_PI2, sin_PI2. replace (0 * 0 + y * y) with ((- y) * (- y)) by ring.
    rewrite sqrt_square by lra. lra. }
  assert (y = 0) as -> by lra.
  replace (0 * 0 + 0 * 0) with 0 by ring. rewrite sqrt_0; lra.
Qed.

Lemma arctan2_unique r phi :
  0 < r -> - PI < phi <= PI -> arctan2 (r * sin phi) (r * cos phi) = phi.
Proof.
  intros Hr Hphi.
  set (y := r * sin phi). set (x := r * cos phi).
  pose proof (arctan2_polar y x) as [H1 H2].
  assert (E : sqrt (x * x + y * y) = r).
  { replace (x * x + y * y) with (r * r).
    - apply sqrt_square; lra.
    - unfold x, y. pose proof (sin2_cos2 phi) as S; unfold Rsqr in S. nra. }
  rewrite E in *.
  pose proof (arctan2_range y x) as Hrg. pose proof PI_pos.
  apply angle_unique; [lra| |].
  - apply Rmult_eq_reg_l with r; [|lra]. exact H2.
  - apply Rmult_eq_reg_l with r; [|lra]. exact H1.
Qed.

Lemma arctan2_scale k y x : 0 < k -> arctan2 (k * y) (k * x) = arctan2 y x.
Proof.
  intros Hk. destruct (Req_dec x 0) as [Hx|Hx]; [destruct (Req_dec y 0) as [Hy|Hy]|].
  - subst; rewrite !Rmult_0_r; reflexivity.
  - assert (P : 0 < sqrt (x * x + y * y)) by (apply hyp_pos; auto).
    pose proof (arctan2_polar y x) as [H1 H2]. pose proof (arctan2_range y x).
    rewrite <- H1 at 1. rewrite <- H2 at 1. rewrite <- !Rmult_assoc.
    apply arctan2_unique; auto. nra.
  - assert (P : 0 < sqrt (x * x + y * y)) by (apply hyp_pos; auto).
    pose proof (arctan2_polar y x) as [H1 H2]. pose proof (arctan2_range y x).
    rewrite <- H1 at 1. rewrite <- H2 at 1. rewrite <- !Rmult_assoc.
    apply arctan2_unique; auto. nra.
Qed.

Lemma acos_inj x y : -1 <= x <= 1 -> -1 <= y <= 1 -> acos x = acos y -> x = y.
Proof. intros Hx Hy E; rewrite <- (cos_acos x Hx), <- (cos_acos y Hy), E; reflexivity. Qed.

Lemma acos_decr x y : -1 <= x <= 1 -> -1 <= y <= 1 -> x < y -> acos y < acos x.
Proof.
  intros Hx Hy L. destruct (Rlt_dec (acos y) (acos x)) as [|N]; auto.
  pose proof (acos_bound x). pose proof (acos_bound y).
  destruct (Req_dec (acos x) (acos y)) as [E|E].
  - apply acos_inj in E; lra.
  - assert (cos (acos y) < cos (acos x)) by (apply cos_decreasing_1; lra).
    rewrite !cos_acos in * by auto; lra.
Qed.

Lemma sum_sq_1_bound x y : x * x + y * y = 1 -> -1 <= x <= 1.
Proof. intros; split; nra. Qed.

(** ** vectors *)
Lemma vec3_ext a b : vx a = vx b -> vy a = vy b -> vz a = vz b -> a = b.
Proof. destruct a, b; simpl; intros; subst; reflexivity. Qed.

Lemma dot_sym a b : dot a b = dot b a.
Proof. unfold dot; ring. Qed.
Lemma dot_nonneg a : 0 <= dot a a.
Proof. unfold dot; nra. Qed.
Lemma dot_zero a : dot a a = 0 -> a = vzero.
Proof.
  destruct a as [x y z]; unfold dot, vzero; simpl; intros H.
  pose proof (Rle_0_sqr x) as Hx; pose proof (Rle_0_sqr y) as Hy; pose proof (Rle_0_sqr z) as Hz.
  unfold Rsqr in *. f_equal; apply Rsqr_0_uniq; unfold Rsqr; lra.
Qed.
Lemma vnorm_sqr a : vnorm a * vnorm a = dot a a.
Proof. unfold vnorm; apply sqrt_sqrt, dot_nonneg. Qed.
Lemma vnorm_1 a : vnorm a = 1 <-> dot a a = 1.
Proof.
  split; intros H.
  - rewrite <- vnorm_sqr, H; ring.
  - unfold vnorm; rewrite H; apply sqrt_1.
Qed.
Lemma vnorm_pos a : a <> vzero -> 0 < vnorm a.
Proof.
  intros H; unfold vnorm; apply sqrt_lt_R0. pose proof (dot_nonneg a).
  destruct (Req_dec (dot a a) 0) as [E|E]; [apply dot_zero in E; contradiction|lra].
Qed.
Lemma vnorm_scale k a : vnorm (vscale k a) = Rabs k * vnorm a.
Proof.
  unfold vnorm. replace (dot (vscale k a) (vscale k a)) with ((k * k) * dot a a) by (unfold dot, vscale; simpl; ring).
  rewrite sqrt_mult by (try apply dot_nonneg; nra).
  f_equal. replace (k * k) with (k²) by reflexivity. apply sqrt_Rsqr_abs.
Qed.

Lemma cauchy_schwarz3 a b : dot a b * dot a b <= dot a a * dot b b.
Proof.
  destruct a as [a1 a2 a3], b as [b1 b2 b3]; unfold dot; simpl.
  pose proof (Rle_0_sqr (a1*b2-a2*b1)) as H1; pose proof (Rle_0_sqr (a1*b3-a3*b1)) as H2;
  pose proof (Rle_0_sqr (a2*b3-a3*b2)) as H3; unfold Rsqr in *.
  assert (E : (a1 * a1 + a2 * a2 + a3 * a3) * (b1 * b1 + b2 * b2 + b3 * b3)
    - (a1 * b1 + a2 * b2 + a3 * b3) * (a1 * b1 + a2 * b2 + a3 * b3)
    = (a1*b2-a2*b1)*(a1*b2-a2*b1) + (a1*b3-a3*b1)*(a1*b3-a3*b1) + (a2*b3-a3*b2)*(a2*b3-a3*b2)) by ring.
  lra.
Qed.
Lemma dot_unit_bound a b : dot a a = 1 -> dot b b = 1 -> -1 <= dot a b <= 1.
Proof. intros Ha Hb. pose proof (cauchy_schwarz3 a b) as H; rewrite Ha, Hb in H. split; nra. Qed.

(** ** matrices *)
Lemma mtrans_dot m v w : dot (mmulv m v) w = dot v (mmulv (mtrans m) w).
Proof. destruct m as [[? ? ?] [? ? ?] [? ? ?]], v, w; unfold dot, mmulv, mtrans, col; simpl; unfold dot; simpl; ring. Qed.

Lemma mmul_assoc_v a b v : mmulv (mmul a b) v = mmulv a (mmulv b v).
Proof.
  destruct a as [[? ? ?] [? ? ?] [? ? ?]], b as [[? ? ?] [? ? ?] [? ? ?]], v.
  unfold mmul, mmulv, mtrans, col; simpl; unfold dot; simpl.
  apply vec3_ext; simpl; ring.
Qed.
Lemma mmulv_id v : mmulv mid v = v.
Proof. destruct v; unfold mmulv, mid, dot; simpl; apply vec3_ext; simpl; ring. Qed.

(** ** sums *)
Lemma Rsum_app l m : Rsum (l ++ m) = Rsum l + Rsum m.
Proof. induction l as [|a l IH]; simpl; [ring|]. unfold Rsum in *; simpl; rewrite IH; ring. Qed.
Lemma Rsumf_app {A} (f : A -> R) l m : Rsumf f (l ++ m) = Rsumf f l + Rsumf f m.
Proof. unfold Rsumf; rewrite map_app, Rsum_app; reflexivity. Qed.
Lemma Rsumf_cons {A} (f : A -> R) a l : Rsumf f (a :: l) = f a + Rsumf f l.
Proof. reflexivity. Qed.
Lemma Rsumf_ext {A} (f g : A -> R) l : (forall a, In a l -> f a = g a) -> Rsumf f l = Rsumf g l.
Proof.
  induction l as [|a l IH]; intros H; [reflexivity|]. rewrite !Rsumf_cons, IH; [|intros; apply H; right; auto].
  rewrite (H a); [reflexivity|left; auto].
Qed.
Lemma Rsumf_scal {A} (f : A -> R) c l : Rsumf (fun a => c * f a) l = c * Rsumf f l.
Proof. induction l as [|a l IH]; [unfold Rsumf; simpl; ring|]. rewrite !Rsumf_cons, IH; ring. Qed.
Lemma Rsumf_plus {A} (f g : A -> R) l : Rsumf (fun a => f a + g a) l = Rsumf f l + Rsumf g l.
Proof. induction l as [|a l IH]; [unfold Rsumf; simpl; ring|]. rewrite !Rsumf_cons, IH; ring. Qed.
Lemma Rsumf_nonneg {A} (f : A -> R) l : (forall a, In a l -> 0 <= f a) -> 0 <= Rsumf f l.
Proof.
  induction l as [|a l IH]; intros H; [unfold Rsumf; simpl; lra|].
  rewrite Rsumf_cons. pose proof (H a (or_introl eq_refl)).
  assert (0 <= Rsumf f l) by (apply IH; intros; apply H; right; auto). lra.
Qed.
Lemma Rsumf_le {A} (f g : A -> R) l : (forall a, In a l -> f a <= g a) -> Rsumf f l <= Rsumf g l.
Proof.
  induction l as [|a l IH]; intros H; [unfold Rsumf; simpl; lra|].
  rewrite !Rsumf_cons. pose proof (H a (or_introl eq_refl)).
  assert (Rsumf f l <= Rsumf g l) by (apply IH; intros; apply H; right; auto). lra.
Qed.
Lemma Rsumf_filter {A} (f : A -> R) (p : A -> bool) l :
  Rsumf f (filter p l) + Rsumf f (filter (fun a => negb (p a)) l) = Rsumf f l.
Proof.
  induction l as [|a l IH]; [unfold Rsumf; simpl; ring|].
  simpl; destruct (p a); simpl; rewrite !Rsumf_cons, <- IH; ring.
Qed.
