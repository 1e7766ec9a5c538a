(** Two rays at the edge: their order matters. *)
From Coq Require Import Lra Lia String Sorting.Permutation.
From Verif Require Import Base L_Base BaseX M_Translate S_Translate M_Mapper S_Mapper M_Io M_Metric S_Metric L_Angles L_Mapper L_Metric L_Metric2 L_Construct2 L_Order S_Order.
Import ListNotations.
Local Open Scope R_scope.

Definition pair_at (d : list ray) (t1 t2 : R) : list ray := stray_at t1 :: stray_at t2 :: d.
Lemma pair_avg t1 t2 : 0 < Rsumf r_lum (pair_at (repeat dark 19) t1 t2) / INR (length (pair_at (repeat dark 19) t1 t2)) < / 10.
Proof. unfold pair_at. rewrite !Rsumf_cons, dark_sum. cbn [stray_at r_lum repeat length app INR]. lra. Qed.
Lemma pair_area d t1 t2 : (0 < Rsumf r_lum (pair_at d t1 t2) / INR (length (pair_at d t1 t2)) < / 10) -> (forall r, In r d -> r = dark) -> ta < t1 < 2 * ta -> ta < t2 < 2 * ta -> exists m om, construct 0 (opts1 2000) tiny (pair_at d t1 t2) = Some (m, om) /\
  ms_view_area m = 2 * lens_area ta ta t2 + Rsumf r_omega (filter (fun r => in_view tiny 0 (r_vec r)) (normed (d))).
Proof.
  intros Av Dk H1 H2. pose proof ta_pos as T. pose proof PI2_1 as P1.
  assert (Br1 : bright_edge tiny (pair_at d t1 t2) (stray_at t1)) by (apply tiny_bright; [nra|exact Av]).
  assert (Br2 : bright_edge tiny (pair_at d t1 t2) (stray_at t2)) by (apply tiny_bright; [nra|exact Av]).
  assert (V : Rsumf r_omega (fst (fst (view_rays tiny (pair_at d t1 t2)))) =
    2 * lens_area ta ta t2 + Rsumf r_omega (filter (fun r => in_view tiny 0 (r_vec r)) (normed (d)))).
  { unfold view_rays. assert (Ha : (vm_aspect tiny =? 2)%Z = false) by (unfold tiny; rewrite mk_view_hemi_aspect by apply hemi_2; auto). rewrite Ha.
    fold (normed (pair_at d t1 t2)). destruct (stray_mask_bright tiny (pair_at d t1 t2)) as [f [E Hf]]. rewrite E.
    assert (F1 : f (stray_at t1) = true) by (apply Hf; [left; auto|auto]).
    assert (F2 : f (stray_at t2) = true) by (apply Hf; [right; left; auto|auto]).
    assert (F3 : forall r, In r (d) -> f r = false).
    { intros r Hr. apply Bool.not_true_is_false. intros X. apply Hf in X; [|right; right; auto]. apply Dk in Hr as ->. apply (dark_not _ _ X). }
    assert (Sel : strays tiny (map f (pair_at d t1 t2)) (normed (pair_at d t1 t2)) =
      [(0%nat, PI * (ta * ta) / PI, norm (tilt t1), vm_radians tiny (norm (tilt t1)));
       (1%nat, PI * (ta * ta) / PI, norm (tilt t2), vm_radians tiny (norm (tilt t2)))]).
    { unfold strays, pair_at. cbn [map normed length seq combine select]. rewrite F1, F2. rewrite (select_none f) by auto. reflexivity. }
    rewrite Sel. clear Sel.
    assert (Ang : forall t, 0 <= t <= PI -> vm_radians tiny (norm (tilt t)) = t).
    { intros t Ht. rewrite norm_tilt. unfold tiny. rewrite vm_radians_eq by (try apply up3_nonzero; apply tilt_unit).
      rewrite mk_view_dxyz by apply up3_nonzero. fold (angle (norm up3) (tilt t)). apply tilt_angle; auto. }
    rewrite !Ang by nra.
    assert (Ta : vm_viewangle tiny * PI / 360 = ta) by (unfold tiny, ta, half; rewrite mk_view_hemi_va by apply hemi_2; auto).
    cbn [fold_left]. unfold stray_round. rewrite Ta, radius_ta.
    assert (X : forall t, ta < t < 2 * ta -> Rltb (ta - ta) t && Rltb t (ta + ta) = true).
    { intros t Ht. rewrite (proj2 (Rltb_true (ta - ta) t)), (proj2 (Rltb_true t (ta + ta))) by lra. reflexivity. }
    rewrite (X t1 H1), (X t2 H2). cbn [fst snd].
    replace (PI * (ta * ta) / PI) with (ta * ta) by (field; pose proof PI_pos; lra).
    rewrite !lens_code_area by nra.
    unfold pair_at. generalize (lens_area ta ta t1). intros L1. generalize (lens_area ta ta t2). intros L2.
    cbn [normed map fill_mask set_nth r_omega r_vec r_lum]. fold (normed (d)). rewrite F1, F2. cbn [fill_mask].
    assert (N : map r_omega (normed (d)) = map r_omega (d)) by (unfold normed; rewrite map_map; reflexivity).
    assert (Ln : length d = length (map r_omega (normed d))) by (unfold normed; rewrite !map_length; reflexivity).
    rewrite (fill_none f L1) by auto. rewrite (fill_none f L2) by auto.
    unfold mk_rays at 1. cbn [combine map select fst snd]. 
    match goal with |- context [map (fun p => Ray (fst (fst p)) (snd (fst p)) (snd p)) (combine (combine ?a ?b) ?c)] => fold (mk_rays a b c) end.
    rewrite mk_rays_id, select_map_filter. rewrite !Rsumf_cons. cbn [r_omega]. ring. }
  unfold construct. destruct (view_rays tiny (pair_at d t1 t2)) as [[rays mask] om]. cbn [fst] in V. unfold set_omega. cbn [o_as_area opts1 negb andb].
  eexists _, _. split; [reflexivity|]. cbn [ms_view_area]. exact V.
Qed.
Lemma order_matters : exists o vm args args' m m' om om', Permutation args args' /\
  construct 0 o vm args = Some (m, om) /\ construct 0 o vm args' = Some (m', om') /\
  call KMetric m ["view_area"%string] <> call KMetric m' ["view_area"%string].
Proof.
  pose proof ta_pos as T. destruct sqrt3_b as [B3 Q3]. assert (Q2 : sqrt 2 * sqrt 2 = 2) by (apply sqrt_sqrt; lra). pose proof sqrt2_b.
  assert (1 < sqrt 2 < 2) by (split; nra).
  destruct (pair_area (repeat dark 19) (sqrt 2 * ta) (sqrt 3 * ta)) as (m & om & C & A); [apply pair_avg|intros r Hr; apply repeat_spec in Hr; exact Hr|nra|nra|].
  destruct (pair_area (repeat dark 19) (sqrt 3 * ta) (sqrt 2 * ta)) as (m' & om' & C' & A'); [apply pair_avg|intros r Hr; apply repeat_spec in Hr; exact Hr|nra|nra|].
  exists (opts1 2000), tiny, (pair_at (repeat dark 19) (sqrt 2 * ta) (sqrt 3 * ta)), (pair_at (repeat dark 19) (sqrt 3 * ta) (sqrt 2 * ta)), m, m', om, om'.
  split; [apply perm_swap|]. split; [exact C|]. split; [exact C'|].
  assert (E : forall x, call KMetric x ["view_area"%string] = Ok [Fin (ms_view_area x)]) by reflexivity. rewrite !E, A, A'.
  generalize dependent (Rsumf r_omega (filter (fun r => in_view tiny 0 (r_vec r)) (normed (repeat dark 19)))). intros y A' A X.
  apply (f_equal (fun r : res (list xr) => match r with Ok [Fin v] => v | _ => 0 end)) in X. cbn beta iota in X. assert (L : lens_area ta ta (sqrt 3 * ta) < lens_area ta ta (sqrt 2 * ta)).
  { rewrite lens_quarter, lens_sixth. pose proof PI_4. pose proof PI2_1. apply Rmult_lt_compat_l; [nra|]. assert (1.7 < sqrt 3) by nra. lra. }
  lra.
Qed.
Lemma order_example : no_edge_rays full [ray1 3; ray1 5] /\ Permutation [ray1 3; ray1 5] [ray1 5; ray1 3] /\
  exists m om, construct 0 (opts1 2000) full [ray1 3; ray1 5] = Some (m, om).
Proof.
  split; [apply full_no_edge|]. split; [apply perm_swap|]. rewrite full_construct by reflexivity. eexists _, _. reflexivity.
Qed.
