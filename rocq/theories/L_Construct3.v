(** Lemmas for Prop_Metric2.v: where the overlap formula of the constructor is too small *)
From Coq Require Import Lra Lia Psatz String.
From Verif Require Import Base BaseX L_Base M_Translate S_Translate M_Mapper S_Mapper M_Io M_Metric M_Cache S_Metric L_Angles L_Mapper L_Metric L_Metric2 L_Metric4 L_Construct L_Construct2.
Import ListNotations.
Local Open Scope R_scope.

Section Lens.
  Variables a b d : R.
  Hypothesis Ha : 0 < a.
  Hypothesis Hb : 0 < b.
  Hypothesis Hd : 0 < d.
  Hypothesis H1 : a - b < d.
  Hypothesis H2 : b - a < d.
  Hypothesis H3 : d < a + b.
  Let x := (a * a - b * b + d * d) / (2 * d).
  Lemma lens_area_x : lens_area a b d = a * a * acos (x / a) + b * b * acos ((d - x) / b) - d * sqrt (a * a - x * x).
  Proof.
    unfold lens_area. replace ((d * d + a * a - b * b) / (2 * d * a)) with (x / a) by (unfold x; field; lra).
    replace ((d * d + b * b - a * a) / (2 * d * b)) with ((d - x) / b) by (unfold x; field; lra).
    assert (T : sqrt ((- d + a + b) * (d + a - b) * (d - a + b) * (d + a + b)) = 2 * d * sqrt (a * a - x * x)).
    { replace ((- d + a + b) * (d + a - b) * (d - a + b) * (d + a + b)) with ((2 * d) * (2 * d) * (a * a - x * x)) by (unfold x; field; lra).
      rewrite sqrt_mult by (try nra; left; now apply lens_y_pos). rewrite sqrt_square by lra. reflexivity. }
    rewrite T. field.
  Qed.
  Lemma acos_pos_lt z : 0 < z <= 1 -> acos z < PI / 2.
  Proof. intros Z. rewrite <- acos_0. apply acos_decr; lra. Qed.
  Lemma quot_bound z r : 0 < r -> 0 < z < r -> 0 < z / r < 1.
  Proof.
    intros Hr Hz. split; [apply Rmult_lt_0_compat; [lra|apply Rinv_0_lt_compat; lra]|]. apply Rmult_lt_reg_r with r; [lra|]. unfold Rdiv. rewrite Rmult_assoc, Rinv_l by lra. lra.
  Qed.
  Lemma lens_code_inside : d * d + b * b < a * a -> lens_code a (b * b) d < lens_area a b d.
  Proof.
    intros G. assert (X : let x := (a * a - b * b + d * d) / (2 * d) in - a < x < a) by (apply lens_x_lt; assumption). cbv zeta in X. assert (DX : let x := (a * a - b * b + d * d) / (2 * d) in - b < d - x < b) by (apply lens_dx_lt; assumption). cbv zeta in DX. pose proof (lens_x a b d Hd) as E.
    assert (Y : let x := (a * a - b * b + d * d) / (2 * d) in 0 < a * a - x * x) by (apply lens_y_pos; assumption). cbv zeta in Y. rewrite lens_code_unfold by assumption. rewrite lens_area_x. fold x in X, DX, E, Y |- *.
    assert (N : d < x). { assert (0 < x - d); [|lra]. replace (x - d) with ((a * a - b * b - d * d) / (2 * d)) by (unfold x; field; lra). apply Rmult_lt_0_compat; [lra|apply Rinv_0_lt_compat; lra]. }
    clearbody x. rewrite Rabs_left by lra. rewrite asin_of_chord by lra.
    replace (a * a - x * x) with (b * b - (x - d) * (x - d)) at 1 by lra. rewrite asin_of_chord by lra.
    replace ((d - x) / b) with (- ((x - d) / b)) by (field; lra). rewrite acos_opp.
    assert (Q : acos ((x - d) / b) < PI / 2) by (apply acos_pos_lt; pose proof (quot_bound (x - d) b Hb ltac:(lra)); lra).
    assert (0 < sqrt (a * a - x * x)) as S by (apply sqrt_lt_R0; exact Y). set (y := sqrt (a * a - x * x)) in *. set (q := acos ((x - d) / b)) in *. clearbody y q.
    assert (0 < b * b * (PI - 2 * q)) by (apply Rmult_lt_0_compat; [nra|lra]). assert (0 < y * (x - d)) by (apply Rmult_lt_0_compat; lra). nra.
  Qed.
  Lemma lens_code_big : d * d + a * a < b * b -> lens_code a (b * b) d < lens_area a b d.
  Proof.
    intros G. assert (X : let x := (a * a - b * b + d * d) / (2 * d) in - a < x < a) by (apply lens_x_lt; assumption). cbv zeta in X. assert (DX : let x := (a * a - b * b + d * d) / (2 * d) in - b < d - x < b) by (apply lens_dx_lt; assumption). cbv zeta in DX. pose proof (lens_x a b d Hd) as E.
    assert (Y : let x := (a * a - b * b + d * d) / (2 * d) in 0 < a * a - x * x) by (apply lens_y_pos; assumption). cbv zeta in Y. rewrite lens_code_unfold by assumption. rewrite lens_area_x. fold x in X, DX, E, Y |- *.
    assert (N : x < 0). { assert (0 < - x); [|lra]. replace (- x) with ((b * b - a * a - d * d) / (2 * d)) by (unfold x; field; lra). apply Rmult_lt_0_compat; [lra|apply Rinv_0_lt_compat; lra]. }
    clearbody x. rewrite Rabs_right by lra.
    assert (A1 : asin (sqrt (a * a - x * x) / a) = acos (- x / a)).
    { replace (a * a - x * x) with (a * a - (- x) * (- x)) by ring. apply asin_of_chord; lra. }
    assert (A2 : asin (sqrt (a * a - x * x) / b) = acos ((d - x) / b)).
    { replace (a * a - x * x) with (b * b - (d - x) * (d - x)) by lra. apply asin_of_chord; lra. }
    rewrite A1, A2. replace (x / a) with (- (- x / a)) by (field; lra). rewrite acos_opp.
    assert (Q : acos (- x / a) < PI / 2) by (apply acos_pos_lt; pose proof (quot_bound (- x) a Ha ltac:(lra)); lra).
    set (q := acos (- x / a)) in *. clearbody q. assert (0 < a * a * (PI - 2 * q)) by (apply Rmult_lt_0_compat; [nra|lra]). nra.
  Qed.
End Lens.

Lemma short_stray fuel o d va pre s post : o_as_area o = true -> d <> vzero -> hemi_angle va ->
  let vm := mk_view d va in let args := pre ++ s :: post in let v := norm (r_vec s) in
  r_vec s <> vzero -> bright_edge vm args s -> (forall r, In r (pre ++ post) -> ~ bright_edge vm args r) ->
  let a := va * PI / 360 in let b := sqrt (r_omega s / PI) in let t := angle (norm d) v in
  0 < r_omega s -> Rabs (a - b) < t < a + b -> t * t + b * b < a * a \/ t * t + a * a < b * b ->
  exists w m area, construct fuel o vm args = Some (m, map r_omega pre ++ area :: map r_omega post) /\
    ms_rays m = seen vm pre ++ Ray w area (r_lum s) :: seen vm post /\ 0 <= area < lens_area a b t.
Proof.
  intros Ho Hd Hva vm args v Hv Hb Hn a b t Hom Ht Hg.
  pose proof (norm_dot (r_vec s) Hv) as Vu. fold v in Vu. pose proof PI_pos as HPI.
  assert (Ea : vm_viewangle vm * PI / 360 = a) by (unfold vm, a; rewrite mk_view_hemi_va by auto; reflexivity).
  assert (Et : vm_radians vm v = t) by (unfold vm; rewrite vm_radians_eq, mk_view_dxyz by auto; reflexivity).
  assert (Hasp : vm_aspect vm <> 2%Z) by (unfold vm; rewrite mk_view_hemi_aspect by auto; discriminate).
  pose proof (half_range va Hva) as Ha. fold (half va) in a. fold a in Ha.
  assert (Hq : 0 < r_omega s / PI) by (apply Rmult_lt_0_compat; [lra|apply Rinv_0_lt_compat; lra]).
  assert (Hb0 : 0 < b) by (apply sqrt_lt_R0; auto).
  assert (Hbb : b * b = r_omega s / PI) by (apply sqrt_sqrt; lra).
  pose proof (Rle_abs (a - b)) as R1. pose proof (Rle_abs (- (a - b))) as R2. rewrite Rabs_Ropp in R2. pose proof (Rabs_pos (a - b)) as R3.
  destruct (single_stray vm pre s post Hasp Hb Hn) as [mask E].
  { unfold overlaps. fold v. rewrite Ea, Et. fold b. lra. }
  cbv zeta in E. fold args v in E. rewrite Ea, Et in E. rewrite <- Hbb in E.
  exists (moved_vec vm a (b * b) t v). eexists. exists (lens_code a (b * b) t). unfold construct. rewrite E. unfold set_omega. rewrite Ho. cbn [negb andb].
  rewrite mk_rays_id. split; [reflexivity|]. split; [reflexivity|]. split; [apply lens_code_nonneg; lra|].
  destruct Hg; [apply lens_code_inside|apply lens_code_big]; lra.
Qed.
(** a bright ray within the view that is reported out of view, and most of it inside *)
Lemma short_inside_exists : exists s, let pre := repeat dark 10 in
  bright_edge tiny (pre ++ s :: []) s /\ (forall r, In r (pre ++ []) -> ~ bright_edge tiny (pre ++ s :: []) r) /\ r_vec s <> vzero /\ 0 < r_omega s /\
  let t := angle (norm up3) (norm (r_vec s)) in let b := sqrt (r_omega s / PI) in Rabs (ta - b) < t < ta + b /\ t * t + b * b < ta * ta.
Proof.
  destruct (in_view_misses up3 2 up3_nonzero hemi_2 ltac:(lra)) as (v & V & A & O). fold (half 2) ta in A. set (t := angle (norm up3) v) in *.
  pose proof ta_pos as T. pose proof PI_pos as HPI. assert (T0 : 0 < t).
  { destruct (Rle_lt_dec (89 / 100 * ta) t) as [L|L]; [lra|]. exfalso. rewrite (in_view_complete up3 2 v up3_nonzero V hemi_2) in O; [discriminate|]. fold (half 2) ta. exact L. }
  assert (T9 : 89 / 100 * ta <= t).
  { destruct (Rle_lt_dec (89 / 100 * ta) t) as [L|L]; [lra|]. exfalso. rewrite (in_view_complete up3 2 v up3_nonzero V hemi_2) in O; [discriminate|]. fold (half 2) ta. exact L. }
  set (b := 2 * (ta - t)). assert (B : 0 < b) by (unfold b; lra). exists (Ray v (PI * (b * b)) 1). cbv zeta. cbn [r_vec r_omega].
  assert (NV : norm v = v) by (now apply norm_unit_id). rewrite NV. fold t. assert (RB : sqrt (PI * (b * b) / PI) = b).
  { replace (PI * (b * b) / PI) with (b * b) by (field; lra). apply sqrt_square. lra. }
  rewrite RB. split; [|split; [|split; [now apply unit_nonzero|split; [apply Rmult_lt_0_compat; [exact HPI|nra]|]]]].
  - unfold bright_edge. cbn [r_vec r_lum]. rewrite NV. split; [exact O|]. split.
    + unfold vm_degrees, tiny. rewrite vm_radians_eq by (try apply up3_nonzero; exact V). rewrite mk_view_dxyz by apply up3_nonzero.
      fold (angle (norm up3) v). fold t. rewrite mk_view_hemi_va by apply hemi_2.
      assert (E : t * 180 / PI = t / ta) by (rewrite ta_eq; field; lra). rewrite E.
      assert (89 / 100 <= t / ta <= 1). { split; apply Rmult_le_reg_r with ta; try lra; replace (t / ta * ta) with t by (field; lra); lra. }
      replace (2 / 2) with 1 by field. rewrite Rabs_R1. unfold rtol_default. rewrite Rabs_left1 by lra. lra.
    + rewrite Rsumf_app, dark_sum, Rsumf_1. cbn [r_lum repeat length app INR]. lra.
  - intros r Hr. rewrite app_nil_r in Hr. apply repeat_spec in Hr as ->. apply dark_not.
  - assert (b <= 22 / 100 * ta) by (unfold b; lra). rewrite Rabs_right by lra. unfold b in *. split; [lra|]. nra.
Qed.
