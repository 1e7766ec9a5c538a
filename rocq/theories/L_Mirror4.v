(** A point spread kernel of 2 x 2 pixels moves the light. *)
From Coq Require Import Lra Lia Psatz.
From Verif Require Import Base L_Base L_Trig M_Translate M_Mapper M_Io S_Mapper L_Mapper L_Io L_Initimg L_Draw M_Gss S_Gss L_Gss L_Gss9 L_Gss11 M_Ndimage S_Ndimage L_Ndimage L_Ndimage3 S_Mirror L_Mirror L_Mirror2 L_Kernel L_Kernel2 L_Mirror3.
Local Open Scope R_scope.

Section Two.
Variables (age pigment pupd fw : R).
Hypotheses (Ha : 10 <= age <= 100) (Hg : 0 < pigment < 1) (Hp : 1.1 < pupd <= 8) (Hf : hemi_angle fw) (Hs : vscl (V3 0 1 0) fw <= 1 / 2).
Notation coef := (psf_coef age pigment pupd).
Notation vk := (mk_view (V3 0 1 0) fw).
Notation s := (vscl (V3 0 1 0) fw).
Definition k2 (x y : R) : R :=
  (if in_view vk 0 (pixel2ray vk 2 (x, y)) then spread f_b coef (vm_radians vk (pixel2ray vk 2 (x, y))) else 0) * pixel2omega vk 2 (x, y).
Lemma k2_radians x y : (x = 1 / 2 \/ x = 3 / 2) -> (y = 1 / 2 \/ y = 3 / 2) -> vm_radians vk (pixel2ray vk 2 (x, y)) = PI * (s * (sqrt 2 / 4)).
Proof.
  intros X Y. destruct (px_radians (V3 0 1 0) fw 2 x y (proj1 regular_y) Hf ltac:(lia)) as [-> _]; [lra|lra|]. f_equal.
  pose proof (vscl_range (V3 0 1 0) fw Hf) as S. assert (0 <= sqrt 2) by apply sqrt_pos. unfold at_px, pd. cbn [fst snd]. rewrite <- (sqrt_square (s * (sqrt 2 / 4))) by nra. f_equal.
  assert (sqrt 2 * sqrt 2 = 2) as Q by (apply sqrt_sqrt; lra). replace (s * (sqrt 2 / 4) * (s * (sqrt 2 / 4))) with (s * s * (sqrt 2 * sqrt 2) / 16) by field. rewrite Q. unfold square. destruct X as [->| ->], Y as [->| ->]; field.
Qed.
Lemma k2_omega x y : (x = 1 / 2 \/ x = 3 / 2) -> (y = 1 / 2 \/ y = 3 / 2) -> pixel2omega vk 2 (x, y) = pixel2omega vk 2 (1 / 2, 1 / 2).
Proof.
  intros X Y. assert (M : forall z, pixel2omega vk 2 (3 / 2, z) = pixel2omega vk 2 (1 / 2, z)). { intros z. rewrite <- (omega_mirror (V3 0 1 0) fw 2 (1 / 2) z) by lia. f_equal. f_equal. lra. }
  destruct X as [->| ->], Y as [->| ->]; rewrite ?M; try reflexivity; rewrite omega_swap, M; reflexivity.
Qed.
Lemma k2_eq x y : (x = 1 / 2 \/ x = 3 / 2) -> (y = 1 / 2 \/ y = 3 / 2) -> k2 x y = k2 (1 / 2) (1 / 2).
Proof. intros X Y. unfold k2, in_view. rewrite (k2_radians x y X Y), (k2_radians (1 / 2) (1 / 2)), (k2_omega x y X Y) by (now left). reflexivity. Qed.
Lemma k2_omega_pos : 0 < pixel2omega vk 2 (1 / 2, 1 / 2).
Proof.
  pose proof (vscl_range (V3 0 1 0) fw Hf) as S. rewrite omega_eq. cbn [fst snd]. set (t := s) in *. clearbody t. unfold view_at. cbn [fst snd].
  replace ((1 / 2 - 1 / 2) / 2 - 1 / 2) with (- (1 / 2)) by field. replace ((1 / 2 + 1 / 2) / 2 - 1 / 2) with 0 by field. replace (1 / 2 / 2 - 1 / 2) with (- (1 / 4)) by field.
  rewrite !Rmult_0_l. replace (- (1 / 2) * (-1 * t)) with (t / 2) by field. replace (- (1 / 4) * (1 * t)) with (- (t / 4)) by field. replace (- (1 / 4) * (-1 * t)) with (t / 4) by field. replace (- (1 / 2) * (1 * t)) with (- (t / 2)) by field.
  set (d := sqrt 5 / 4 * t). assert (Q5 : sqrt 5 * sqrt 5 = 5) by (apply sqrt_sqrt; lra). assert (0 <= sqrt 5) by apply sqrt_pos. assert (2 < sqrt 5 < 2.3) as B5 by nra.
  assert (D0 : 0 < d <= 1 / 2) by (unfold d; nra).
  assert (D : d * d = 5 / 16 * (t * t)) by (unfold d; replace (sqrt 5 / 4 * t * (sqrt 5 / 4 * t)) with (sqrt 5 * sqrt 5 * (t * t) / 16) by field; rewrite Q5; field).
  assert (P1 : pd (t / 2, - (t / 4)) = d). { unfold pd. cbn [fst snd]. rewrite <- (sqrt_square d) by lra. f_equal. rewrite D. unfold square. field. }
  assert (P2 : pd (t / 4, - (t / 2)) = d). { unfold pd. cbn [fst snd]. rewrite <- (sqrt_square d) by lra. f_equal. rewrite D. unfold square. field. }
  assert (P3 : pd (0, - (t / 4)) = t / 4). { unfold pd. cbn [fst snd]. transitivity (sqrt (t / 4 * (t / 4))); [f_equal; unfold square; field|apply sqrt_square; lra]. }
  assert (P4 : pd (t / 4, 0) = t / 4). { unfold pd. cbn [fst snd]. transitivity (sqrt (t / 4 * (t / 4))); [f_equal; unfold square; field|apply sqrt_square; lra]. }
  rewrite !ang2dir_eq by (rewrite ?P1, ?P2, ?P3, ?P4; lra). rewrite P1, P2, P3, P4. cbn [fst snd]. set (S1 := sin (PI * d) / d). set (S2 := sin (PI * (t / 4)) / (t / 4)).
  pose proof PI_lo as Pl. pose proof PI_hi as Ph.
  assert (2 <= S1).
  { unfold S1. apply (Rmult_le_reg_r d); [lra|]. unfold Rdiv. rewrite Rmult_assoc, Rinv_l, Rmult_1_r by lra.
    pose proof (sinc_decr (PI * d) (PI / 2)) as K. rewrite sin_PI2 in K. destruct (Req_dec d (1 / 2)) as [->|N]; [replace (PI * (1 / 2)) with (PI / 2) by field; rewrite sin_PI2; lra|].
    specialize (K ltac:(nra) ltac:(lra)). apply (Rmult_le_compat_r (PI * d)) in K; [|nra]. replace (sin (PI * d) / (PI * d) * (PI * d)) with (sin (PI * d)) in K by (field; nra).
    replace (1 / (PI / 2) * (PI * d)) with (2 * d) in K by (field; lra). exact K. }
  assert (0 < S2 <= 3.15).
  { unfold S2. split; [apply Rdiv_lt_0_compat; [apply sin_gt_0; nra|lra]|]. apply (Rmult_le_reg_r (t / 4)); [lra|]. unfold Rdiv at 1. rewrite Rmult_assoc, Rinv_l, Rmult_1_r by lra.
    assert (sin (PI * (t / 4)) < PI * (t / 4)) by (apply sin_lt_x; nra). nra. }
  unfold om, vnorm. apply sqrt_lt_R0. unfold cross, vsub, dot. cbn [vx vy vz]. clearbody S1 S2.
  match goal with |- 0 < ?a * ?a + ?b * ?b + ?c * ?c => assert (0 < c * c) as C; [|pose proof (Rle_0_sqr a) as A1; pose proof (Rle_0_sqr b) as A2; unfold Rsqr in A1, A2; lra] end.
  apply Rsqr_pos_lt. assert (t * t > 0) by nra.
  match goal with |- ?c <> 0 => replace c with (t * t / 16 * (((S2 - S1) * (S2 - S1)) - (2 * S1) * (2 * S1)) * (1)) by field end.
  assert ((S2 - S1) * (S2 - S1) < 2 * S1 * (2 * S1)) by nra. nra.
Qed.
Lemma k2_pos : 0 < k2 (1 / 2) (1 / 2).
Proof.
  unfold k2. apply Rmult_lt_0_compat; [|apply k2_omega_pos]. replace (in_view vk 0 _) with true; [apply psf_positive; lra|]. symmetry. unfold in_view. apply Rltb_true. rewrite k2_radians by now left.
  pose proof (vscl_range (V3 0 1 0) fw Hf) as S. unfold vscl in S. pose proof PI_RGT_0. set (t := vm_viewangle vk * vm_chordfactor vk / 180) in S.
  replace (vm_chordfactor vk * vm_viewangle vk * PI / 360) with (PI * (t / 2)) by (unfold t; field). change s with t. assert (sqrt 2 < 2). { rewrite <- (sqrt_square 2) at 2 by lra. apply sqrt_lt_1; lra. }
  rewrite Rminus_0_r. apply Rmult_lt_compat_l; nra.
Qed.
Lemma raw2 ppa : Rceil (fw * 60 * ppa) = 2%Z -> let a := k2 (1 / 2) (1 / 2) in kernel_raw fw ppa coef = [a; a; a; a].
Proof.
  intros E a. unfold kernel_raw. rewrite E. rewrite rays_eq by exact Hf. unfold pixel_omegas. rewrite combine_map, map_map. cbn [fst snd].
  change (zgrid 2 2) with [(0, 0); (0, 1); (1, 0); (1, 1)]%Z. cbn [map fst snd]. replace (0 + 1 / 2) with (1 / 2) by lra. replace (1 + 1 / 2) with (3 / 2) by lra.
  fold (k2 (1 / 2) (1 / 2)) (k2 (1 / 2) (3 / 2)) (k2 (3 / 2) (1 / 2)) (k2 (3 / 2) (3 / 2)). unfold a. now rewrite (k2_eq (1 / 2) (3 / 2)), (k2_eq (3 / 2) (1 / 2)), (k2_eq (3 / 2) (3 / 2)) by auto.
Qed.
Lemma fixed2 ppa cap : Rceil (fw * 60 * ppa) = 2%Z -> let a := k2 (1 / 2) (1 / 2) in kernel_fix cap (kernel_raw fw ppa coef) = Ok [cap - 3 * a; a; a; a].
Proof.
  intros E a. rewrite raw2 by exact E. fold a. unfold kernel_fix, np_argmax. cbn [argmax_from]. unfold Rgtb. replace (Rltb a a) with false by (symmetry; apply Rltb_false; lra). cbn [bind set_nth]. unfold Rsum. cbn [fold_right]. do 2 f_equal. ring.
Qed.
End Two.

Lemma conv2 e0 e1 e2 e3 e4 e5 e6 e7 e8 a b c d : let out := flt_conv scipy_filters [e0; e1; e2; e3; e4; e5; e6; e7; e8] [a; b; c; d] in
  nth_error out 1 = Some (a * e5 + b * e4 + c * e2 + d * e1) /\ nth_error out 7 = Some (a * e8 + b * e7 + c * e8 + d * e7).
Proof.
  intros out. unfold out, scipy_filters. cbn [flt_conv]. change (is_square [e0; e1; e2; e3; e4; e5; e6; e7; e8]) with true. change (is_square [a; b; c; d]) with true. cbn [andb].
  unfold elements, convolve, axis_sum. split.
  - cbv - [Rplus Rmult]. f_equal. ring.
  - cbv - [Rplus Rmult]. f_equal. ring.
Qed.

(** * every even window: the peak is above the middle *)
Lemma argmax_from_first : forall l best bi i, argmax_from best bi i l = bi \/
  exists n v, argmax_from best bi i l = (i + n)%nat /\ nth_error l n = Some v /\ best < v /\ forall n' x, (n' < n)%nat -> nth_error l n' = Some x -> x < v.
Proof.
  induction l as [|y l IH]; intros best bi i; cbn [argmax_from]; [now left|]. unfold Rgtb. destruct (Rltb best y) eqn:L.
  - right. apply Rltb_true in L. destruct (IH y i (S i)) as [E | (n & v & E & N & B & F)].
    + exists 0%nat, y. rewrite E. split; [lia|]. split; [reflexivity|]. split; [exact L|]. intros; lia.
    + exists (S n), v. rewrite E. split; [lia|]. split; [exact N|]. split; [lra|]. intros [|n'] x Hn X; [cbn in X; injection X as <-; exact B|]. apply (F n' x); [lia|exact X].
  - apply Rltb_false in L. destruct (IH best bi (S i)) as [E | (n & v & E & N & B & F)]; [now left|]. right.
    exists (S n), v. rewrite E. split; [lia|]. split; [exact N|]. split; [exact B|]. intros [|n'] x Hn X; [cbn in X; injection X as <-; lra|]. apply (F n' x); [lia|exact X].
Qed.
Lemma argmax_first l k : np_argmax l = Ok k -> exists v, nth_error l k = Some v /\ forall n x, (n < k)%nat -> nth_error l n = Some x -> x < v.
Proof.
  destruct l as [|y l]; [discriminate|]. cbn [np_argmax]. intros E. assert (argmax_from y 0 1 l = k) as K by now injection E. destruct (argmax_from_first l y 0 1) as [Z | (n & v & Z & N & B & F)].
  - rewrite Z in K. subst k. exists y. split; [reflexivity|]. intros; lia.
  - rewrite Z in K. subst k. exists v. split; [exact N|]. intros [|n'] x Hn X; [cbn in X; injection X as <-; exact B|]. apply (F n' x); [lia|exact X].
Qed.
Lemma even_peak fw ppa coef m : hemi_angle fw -> (0 < m)%Z -> Rceil (fw * 60 * ppa) = (2 * m)%Z ->
  exists i j, (0 <= i < m)%Z /\ (0 <= j < 2 * m)%Z /\ np_argmax (kernel_raw fw ppa coef) = Ok (Z.to_nat (i * (2 * m) + j)).
Proof.
  intros Hf Hm E. set (w := (2 * m)%Z) in *.
  assert (M : mirror_of (Z.to_nat w) (kernel_raw fw ppa coef) (kernel_raw fw ppa coef)).
  { unfold kernel_raw. rewrite E. fold w. cbv zeta.
    pose proof (mirror_dot (V3 0 1 0) fw w (proj1 regular_y) Hf ltac:(unfold w; lia) (fun c => if Rltb (acos (clip c (-1) 1) - 0) (vm_chordfactor (mk_view (V3 0 1 0) fw) * vm_viewangle (mk_view (V3 0 1 0) fw) * PI / 360) then spread f_b coef (acos (clip c (-1) 1)) else 0)) as A.
    pose proof (mirror_map (fun p => fst p * snd p) _ _ _ (mirror_combine _ _ _ _ _ A (mirror_omegas (V3 0 1 0) fw w ltac:(unfold w; lia)))) as B.
    match type of B with mirror_of _ ?a _ => match goal with |- mirror_of _ ?g _ => replace g with a; [exact B|] end end.
    clear. generalize (pixelrays (mk_view (V3 0 1 0) fw) w) (pixel_omegas (mk_view (V3 0 1 0) fw) w). intros l. induction l as [|v l IH]; intros [|o os]; cbn [map combine]; try reflexivity. rewrite IH. reflexivity. }
  set (k := kernel_raw fw ppa coef) in *. clearbody k. pose proof M as (L & _ & F).
  destruct (np_argmax k) as [c|e] eqn:A.
  2:{ exfalso. destruct k; [|discriminate A]. assert (0 < Z.to_nat w)%nat by (unfold w; lia). change (length (@nil R)) with 0%nat in L. nia. }
  destruct (argmax_first k c A) as (v & V & P). assert (c < Z.to_nat w * Z.to_nat w)%nat as C by (rewrite <- L; apply nth_error_Some; congruence).
  destruct (pos_split _ c C) as (i & j & Hi & Hj & ->). exists (Z.of_nat i), (Z.of_nat j). subst w. assert (IM : (i < Z.to_nat m)%nat).
  { assert (~ Z.to_nat m <= i)%nat; [|lia]. intros G. rewrite F in V by assumption. assert (v < v); [|lra]. apply (P ((Z.to_nat (2 * m) - 1 - i) * Z.to_nat (2 * m) + j)%nat); [nia|exact V]. }
  split; [lia|]. split; [lia|]. f_equal. nia.
Qed.

(** * the cases *)
Definition bright_middle : list R := [0; 0; 0; 0; 1; 0; 0; 0; 0].
Lemma bright_mirror : mirror_of 3 bright_middle bright_middle.
Proof. repeat split. intros i j Hi Hj. destruct i as [|[|[|]]], j as [|[|[|]]]; try lia; reflexivity. Qed.
Lemma Rceil_IZR z : Rceil (IZR z) = z.
Proof. unfold Rceil. rewrite <- opp_IZR, Rfloor_IZR. lia. Qed.
Lemma window_2 : window_of 10 15 3 = 2%Z.
Proof. unfold window_of. replace (10 * IZR 3 / 15) with (IZR 2) by lra. apply Rceil_IZR. Qed.
Lemma vscl_10 d : vscl d 10 <= 1 / 2.
Proof.
  assert (H : hemi_angle 10) by (unfold hemi_angle; lra). unfold vscl. rewrite mk_view_hemi_va by exact H. pose proof (chordfactor_bounds d 10 H). nra.
Qed.
Lemma even_moved age pigment pupd mask omega : 10 <= age <= 100 -> 0 < pigment < 1 -> 1.1 < pupd <= 8 ->
  let par := GPar age 17 179 pigment 10 true false false false in
  window_of 10 15 3 = 2%Z /\ mirror_of 3 [0; 0; 0; 0; 1; 0; 0; 0; 0] [0; 0; 0; 0; 1; 0; 0; 0; 0] /\
  exists out, apply_psf (flt_conv scipy_filters) par (IZR 3 / (60 * 15)) mask omega [0; 0; 0; 0; 1; 0; 0; 0; 0] pupd = Ok out /\ ~ mirror_of 3 out out.
Proof.
  intros Ha Hg Hp par. split; [exact window_2|]. split; [exact bright_mirror|]. unfold apply_psf. cbn [g_age g_pigment g_fwidth par]. cbv zeta.
  destruct (capture 10 (psf_coef age pigment pupd)) as [cap|e] eqn:C.
  2:{ exfalso. revert C. unfold capture. cbv zeta. replace (Rfloor (10 / 0.002 / 2)) with 2500%Z; [discriminate|]. symmetry. apply Rfloor_unique. lra. }
  cbn [bind]. assert (W : Rceil (10 * 60 * (IZR 3 / (60 * 15))) = 2%Z) by (replace (10 * 60 * (IZR 3 / (60 * 15))) with (IZR 2) by lra; apply Rceil_IZR).
  assert (H : hemi_angle 10) by (unfold hemi_angle; lra).
  rewrite fixed2 by assumption. cbn [bind]. assert (K : 0 < k2 age pigment pupd 10 (1 / 2) (1 / 2)) by (apply k2_pos; try assumption; apply vscl_10). set (a := k2 _ _ _ _ _ _) in *.
  set (base := mean_base _ _ _ _). eexists. split; [reflexivity|]. intros (_ & _ & M). specialize (M 0%nat 1%nat ltac:(lia) ltac:(lia)). change (0 * 3 + 1)%nat with 1%nat in M. change ((3 - 1 - 0) * 3 + 1)%nat with 7%nat in M. rewrite !nth_error_map in M.
  destruct (conv2 0 0 0 0 1 0 0 0 0 (cap - 3 * a) a a a) as [E1 E7]. rewrite E1, E7 in M. cbn [option_map] in M. injection M as M. clearbody a base. lra.
Qed.
