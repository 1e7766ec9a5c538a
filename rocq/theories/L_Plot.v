From Coq Require Import Ascii String Sorted Lra Lia.
From Verif Require Import Base L_Base M_Translate M_Mapper M_Header M_Initimg S_Mapper S_Rotate S_Initimg L_Angles L_Mapper L_Bins L_Rotate L_Draw L_Grow L_Grow2 L_Initimg.
Import ListNotations.
Local Open Scope R_scope.

Lemma select_all {A} (l : list A) m : length m = length l -> (forall b, In b m -> b = true) -> select m l = l.
Proof.
  revert m. induction l as [|a l IH]; intros [|b m] L H; try discriminate; [reflexivity|]. rewrite (H b (or_introl eq_refl)). cbn [select]. f_equal. apply IH; [now inversion L|].
  intros x X. apply H. now right.
Qed.
Lemma init_base d sf bb a j z res : 0 < fst sf -> 0 < snd sf ->
  let m := mk_mapper d sf bb a j z in let fs := m_framesize m res in (0 < fst fs)%Z -> (0 < snd fs)%Z ->
  exists r, m_init_img m res = Ok r /\ mi_shape r = fs /\ Z.of_nat (length (mi_vecs r)) = (fst fs * snd fs)%Z /\ mi_header r = s "VIEW= -vtl -vv 1 -vh 1" /\
  mi_mask r = zrange (fst fs * snd fs) /\
  forall i k, (0 <= i < fst fs)%Z -> (0 <= k < snd fs)%Z -> m_ray2pixel m fs (nth (Z.to_nat (i * snd fs + k)) (mi_vecs r) vzero) = (fst fs - 1 - i, k)%Z.
Proof.
  intros S1 S2 m fs F1 F2. unfold m_init_img. fold fs. destruct (Z.ltb_spec (fst fs) 0); [lia|]. destruct (Z.ltb_spec (snd fs) 0); [lia|]. cbn [orb].
  set (vecs := map _ _). assert (L : Z.of_nat (length vecs) = (fst fs * snd fs)%Z) by (unfold vecs; rewrite map_length, zgrid_length; nia).
  eexists. split; [reflexivity|]. cbn [mi_shape mi_vecs mi_mask mi_header]. split; [reflexivity|]. split; [exact L|]. split; [reflexivity|]. split.
  - rewrite L. apply select_all; [rewrite map_length, zrange_length; lia|]. intros b B. apply in_map_iff in B as (v & <- & V). unfold vecs in V. apply in_map_iff in V as ([x y] & <- & V).
    apply in_zgrid in V. cbn [fst snd] in V |- *. unfold m_in_view, m_pixel2ray, m_vxy2xyz. cbn [fst snd]. unfold m. rewrite mapper_uv_roundtrip by lra. cbn [fst snd].
    assert (G : forall n k, (0 <= k < n)%Z -> 0 <= (IZR k + 1 / 2) / IZR n <= 1).
    { intros n k [A B]. assert (0 < IZR n) by (apply IZR_lt; lia). apply IZR_le in A. assert (C : IZR k <= IZR (n - 1)) by (apply IZR_le; lia). rewrite minus_IZR in C.
      split; [apply Rmult_le_pos; [lra|left; now apply Rinv_0_lt_compat]|]. apply Rmult_le_reg_r with (IZR n); auto. unfold Rdiv. rewrite Rmult_assoc, Rinv_l by lra. lra. }
    pose proof (G _ _ (proj1 V)). pose proof (G _ _ (proj2 V)). unfold Rgeb.
    rewrite !(proj2 (Rleb_true _ _)) by lra. reflexivity.
  - intros i k I K. unfold vecs. rewrite nth_grid by auto. cbn [fst snd]. unfold m. apply mapper_pixel_mirrored_int; auto; lra.
Qed.

Lemma plot_base m res vs g : (0 < g)%Z -> let fs := m_framesize m res in (g <= fst fs)%Z -> (g <= snd fs)%Z ->
  exists out, m_plot m vs res g = Ok (out, [s "VIEW= -vtl -vv 1 -vh 1"]) /\
  let im := Img (fst fs) (snd fs) (fun _ _ => 0) in grown im out 1 (hit im (m_ray2pixel m fs) vs) g.
Proof.
  intros G fs F1 F2. unfold m_plot. fold fs. destruct (Z.ltb_spec (fst fs) 0); [lia|]. destruct (Z.ltb_spec (snd fs) 0); [lia|]. cbn [orb].
  destruct (grown_base m (Img (fst fs) (snd fs) (fun _ _ => 0)) vs 1 g) as (out & -> & P); auto; [now intros x y _|]. exists out. split; [reflexivity|].
  cbv zeta. cbn [im_nx im_ny] in P. now rewrite <- surjective_pairing in P.
Qed.
Lemma plot_view show d va res vs g : hemi_angle va -> (0 < g <= res)%Z ->
  exists out, view_plot show (mk_view d va) vs res g = Ok (out, [vm_header show (mk_view d va) vzero]) /\ grown (blank res) out 1 (hit (blank res) (ray2pixel (mk_view d va) res) vs) g.
Proof.
  intros H G. unfold view_plot. destruct (Z.ltb_spec res 0); [lia|]. destruct (grown_view d va (blank res) vs 1 g H) as (out & E & P); try (cbn; lia); [now intros x y _|].
  unfold blank in E. rewrite E. exists out. split; [reflexivity|exact P].
Qed.
Lemma plot_full show d res vs g : d <> vzero -> (0 < g <= res)%Z -> (forall v, In v vs -> dot v v = 1) ->
  exists out, view_plot show (mk_view d 360) vs res g = Ok (out, [vm_header show (mk_view d 360) vzero]) /\ grown (blank res) out 1 (hit (blank res) (ray2pixel (mk_view d 360) res) vs) g.
Proof.
  intros D G U. unfold view_plot. destruct (Z.ltb_spec res 0); [lia|]. destruct (grown_360 d (blank res) vs 1 g D U) as (out & E & P); try (cbn; lia); [now intros x y _|].
  unfold blank in E. rewrite E. exists out. split; [reflexivity|exact P].
Qed.
(** directions behind are not plotted *)
Lemma plot_behind show d res vs g : d <> vzero -> regular_dir (vopp d) -> (0 < g <= res)%Z -> (forall v, In v vs -> dot v v = 1 /\ dot (norm d) v < 0) ->
  exists out, view_plot show (mk_view d 360) vs res g = Ok (out, [vm_header show (mk_view d 360) vzero]) /\ constant out 0.
Proof.
  intros D R G U. destruct (plot_full show d res vs g D G (fun v V => proj1 (U v V))) as (out & E & S1 & S2 & Z & _). exists out. split; [exact E|].
  intros x y I. apply (Z (x, y)); [unfold in_image in *; now rewrite S1, S2 in I|]. intros q [Iq (v & V & Q)]. exfalso. destruct (U v V) as [N B].
  assert (res <= fst (ray2pixel (mk_view d 360) res v))%Z.
  { unfold ray2pixel, ray2pixelf. cbn [fst]. apply Rfloor_ge. pose proof (view360_back d v D R N ltac:(lra)) as S. cbv zeta in S.
    assert (Z0 : 0 < IZR res) by (apply IZR_lt; lia). set (xx := fst (xyz2vxy (mk_view d 360) v)) in *. rewrite <- (Rmult_1_l (IZR res)) at 1. apply Rmult_le_compat_r; lra. }
  destruct Iq as [[_ X] _]. rewrite <- Q in X. cbn [blank im_nx] in X. lia.
Qed.
Lemma circle_example : in_circle 4 1 1 /\ ~ in_circle 4 0 0.
Proof. unfold in_circle. lia. Qed.
Lemma behind_example : dot (V3 0 (-1) 0) (V3 0 (-1) 0) = 1 /\ dot (norm (V3 0 1 0)) (V3 0 (-1) 0) < 0 /\ regular_dir (vopp (V3 0 1 0)).
Proof.
  split; [unfold dot; cbn [vx vy vz]; ring|]. split.
  - rewrite norm_unit_id by (unfold dot; cbn [vx vy vz]; ring). unfold dot; cbn [vx vy vz]; lra.
  - unfold vopp; cbn [vx vy vz]. rewrite Ropp_0. apply regular_y.
Qed.
