(** Lemmas for Prop_Rotate.v: consequences *)
From Coq Require Import Lia Lra.
From Verif Require Import Base L_Base L_Trig L_Concentric L_Angles M_Translate M_Mapper S_Translate S_Mapper L_Mapper L_Draw M_Rotate S_Rotate L_Rotate.
Local Open Scope R_scope.

Lemma turned_quarter n i j : turned 90 n (pixel_centre i j) = pixel_centre j (n - 1 - i).
Proof.
  unfold turned, pixel_centre. replace (90 * PI / 180) with (PI / 2) by field. rewrite cos_PI2, sin_PI2. cbn [fst snd].
  rewrite !minus_IZR. apply pair_eq; field.
Qed.
Lemma quarter_of n i j : pixel_of n i j -> pixel_of n j (n - 1 - i).
Proof. unfold pixel_of. lia. Qed.

Lemma pass_quarter im n i j : square_image im n -> pixel_of n i j ->
  im_px (rot_pass im 90 NoCenter true None true) i j = im_px im j (n - 1 - i)%Z.
Proof.
  intros S P. rewrite (pass_turn im n) by auto. rewrite turned_quarter, rgi_nearest_half; auto using quarter_of. apply S.
Qed.
Lemma rotate_quarter im n : square_image im n ->
  exists out, array_rotate im 90 NoCenter true None true = Ok out /\ same_image out (quarter_turn im).
Proof.
  intros S. rewrite (rotate_ok im n) by auto. cbn [negb andb]. eexists. split; [reflexivity|].
  destruct (pass_size im n 90 NoCenter true None true S) as (X & Y & N). destruct S as (X0 & Y0 & N0).
  unfold same_image. rewrite X, Y. unfold quarter_turn. cbn [im_nx im_ny im_px]. rewrite X0, Y0. split; [auto|]. split; [auto|].
  intros i j I J. apply pass_quarter; [split; auto | split; auto].
Qed.
Lemma rotate_four im n : square_image im n ->
  exists out, bind (array_rotate im 90 NoCenter true None true) (fun a =>
              bind (array_rotate a 90 NoCenter true None true) (fun b =>
              bind (array_rotate b 90 NoCenter true None true) (fun c =>
                    array_rotate c 90 NoCenter true None true))) = Ok out /\ same_image out im.
Proof.
  intros S. rewrite (rotate_ok im n) by auto. cbn [negb andb bind].
  pose proof (pass_size im n 90 NoCenter true None true S) as S1. rewrite (rotate_ok _ n) by auto. cbn [negb andb bind].
  pose proof (pass_size _ n 90 NoCenter true None true S1) as S2. rewrite (rotate_ok _ n) by auto. cbn [negb andb bind].
  pose proof (pass_size _ n 90 NoCenter true None true S2) as S3. rewrite (rotate_ok _ n) by auto. cbn [negb andb bind].
  pose proof (pass_size _ n 90 NoCenter true None true S3) as S4.
  eexists. split; [reflexivity|]. destruct S4 as (X & Y & N). unfold same_image. rewrite X, Y.
  split; [symmetry; apply S|]. split; [symmetry; apply S|]. intros i j I J. assert (P : pixel_of n i j) by (split; auto).
  rewrite !(pass_quarter _ n) by (auto; unfold pixel_of in *; lia). f_equal; lia.
Qed.

(** * angle zero *)
Lemma rotate_zero_nearest im n first : square_image im n ->
  exists out, array_rotate im 0 NoCenter first None true = Ok out /\ same_image out im.
Proof.
  intros S. rewrite (rotate_ok im n) by auto. replace (Reqb 0 0) with true by (symmetry; apply Reqb_true; auto).
  rewrite Bool.andb_false_r. eexists. split; [reflexivity|].
  destruct (pass_size im n 0 NoCenter first None true S) as (X & Y & N). unfold same_image. rewrite X, Y.
  split; [symmetry; apply S|]. split; [symmetry; apply S|]. intros i j I J. assert (P : pixel_of n i j) by (split; auto).
  assert (E : rot_pass im 0 NoCenter first None true = rot_pass im 0 NoCenter true None true).
  { unfold rot_pass, rot_dir. replace (Reqb 0 0) with true by (symmetry; apply Reqb_true; auto).
    cbn [negb]. rewrite !Bool.andb_false_r. reflexivity. }
  rewrite E, (pass_turn im n), turned_0 by auto. apply rgi_nearest_half; auto.
Qed.
Lemma rotate_zero_linear im n i j : square_image im n -> (0 <= i < n - 1)%Z -> (0 <= j < n - 1)%Z ->
  exists out, array_rotate im 0 NoCenter true None false = Ok out /\
  im_px out i j = (im_px im i j + im_px im i (j + 1)%Z + im_px im (i + 1)%Z j + im_px im (i + 1)%Z (j + 1)%Z) / 4.
Proof.
  intros S I J. rewrite (rotate_ok im n) by auto. cbn [negb andb]. eexists. split; [reflexivity|].
  rewrite (pass_turn im n), turned_0 by (auto; split; lia). unfold rgi, pixel_centre. cbn [fst snd].
  destruct S as (_ & _ & N). rewrite !axis_half by lia.
  destruct (Z.ltb_spec i (n - 1)); [|lia]. destruct (Z.ltb_spec j (n - 1)); [|lia]. field.
Qed.
Lemma rotate_zero_corner im n : square_image im n ->
  exists out, array_rotate im 0 NoCenter true None false = Ok out /\
  im_px out (n - 1)%Z (n - 1)%Z =
  (im_px im (n - 2)%Z (n - 2)%Z - 3 * im_px im (n - 2)%Z (n - 1)%Z - 3 * im_px im (n - 1)%Z (n - 2)%Z + 9 * im_px im (n - 1)%Z (n - 1)%Z) / 4.
Proof.
  intros S. rewrite (rotate_ok im n) by auto. cbn [negb andb]. eexists. split; [reflexivity|].
  destruct S as (X & Y & N). rewrite (pass_turn im n), turned_0 by (unfold square_image, pixel_of; lia). unfold rgi, pixel_centre. cbn [fst snd].
  rewrite !axis_half by lia. destruct (Z.ltb_spec (n - 1) (n - 1)); [lia|]. replace (n - 2 + 1)%Z with (n - 1)%Z by lia. field.
Qed.
Lemma zero_linear_changes : exists im out, square_image im 2 /\ pixels_within im 0 1 /\
  array_rotate im 0 NoCenter true None false = Ok out /\ ~ same_image out im /\ im_px out 1%Z 1%Z < 0.
Proof.
  set (im := Img 2 2 (fun i j : Z => if (i =? j)%Z then 0 else 1)).
  assert (S : square_image im 2) by (unfold square_image; cbn; lia).
  destruct (rotate_zero_corner im 2 S) as (out & E & V). exists im, out. split; [exact S|]. split.
  { intros i j _ _. cbn [im im_px]. destruct (i =? j)%Z; lra. }
  split; [exact E|]. cbn in V. split.
  - intros (_ & _ & H). destruct (rotate_turns im 2 0 None false S) as (o & E2 & (X & Y & _) & _). rewrite E in E2. injection E2 as <-.
    rewrite X, Y in H. specialize (H 1%Z 1%Z ltac:(lia) ltac:(lia)). rewrite V in H. cbn in H. lra.
  - rewrite V. lra.
Qed.
Lemma zero_fill im n f nearest j : square_image im n -> (0 <= j < n)%Z ->
  exists out, array_rotate im 0 NoCenter true (Some f) nearest = Ok out /\
  im_px out (n - 1)%Z j = f /\ im_px out j (n - 1)%Z = f.
Proof.
  intros S J. rewrite (rotate_ok im n) by auto. cbn [negb andb]. eexists. split; [reflexivity|].
  destruct S as (X & Y & N).
  assert (O : rgi_out n 0 (IZR (n - 1) + 1 / 2) = true).
  { unfold rgi_out, Rgtb. apply Bool.orb_true_iff. right. apply Rltb_true. lra. }
  split; rewrite (pass_turn im n), turned_0 by (unfold square_image, pixel_of; lia); unfold rgi, pixel_centre; cbn [fst snd];
  destruct (rgi_axis n 0 _), (rgi_axis n 0 _); rewrite O, ?Bool.orb_true_r; reflexivity.
Qed.

(** * every angle between 0 and 90 degrees moves a pixel *)
Lemma small_angle im ang : square_image im 2 -> 0 < ang < 90 ->
  exists out, array_rotate im ang NoCenter true None true = Ok out /\ im_px out 0%Z 0%Z = im_px im 0%Z 1%Z.
Proof.
  intros S A. rewrite (rotate_ok im 2) by auto. cbn [negb andb]. eexists. split; [reflexivity|].
  rewrite (pass_turn im 2) by (auto; unfold pixel_of; lia).
  set (t := ang * PI / 180). pose proof PI_pos as PP. assert (T : 0 < t < PI / 2) by (unfold t; nra).
  assert (C : 0 < cos t < 1).
  { split; [apply cos_gt_0; lra|]. rewrite <- cos_0. apply cos_decreasing_1; lra. }
  assert (D : 0 < sin t < 1).
  { split; [apply sin_gt_0; lra|]. rewrite <- sin_PI2. apply sin_increasing_1; lra. }
  pose proof (sin2cos2 t) as Q.
  assert (CS : 1 < cos t + sin t) by nra.
  unfold turned, pixel_centre. cbn [fst snd]. fold t. unfold rgi. cbn [fst snd].
  replace (2 / 2 + cos t * (0 + 1 / 2 - 2 / 2) + sin t * (0 + 1 / 2 - 2 / 2)) with (1 - (cos t + sin t) / 2) by field.
  replace (2 / 2 - sin t * (0 + 1 / 2 - 2 / 2) + cos t * (0 + 1 / 2 - 2 / 2)) with (1 - (cos t - sin t) / 2) by field.
  unfold rgi_axis. set (f := Rfloor _). set (g := Rfloor _).
  replace (Z.max 0 (Z.min (- f - 1) (2 - 2))) with 0%Z by lia.
  replace (Z.max 0 (Z.min (- g - 1) (2 - 2))) with 0%Z by lia.
  replace (Rleb (1 - (cos t + sin t) / 2 - 0 - 0) (1 / 2)) with true by (symmetry; apply Rleb_true; lra).
  replace (Rleb (1 - (cos t - sin t) / 2 - 0 - 0) (1 / 2)) with false by (symmetry; apply Rleb_false; lra).
  reflexivity.
Qed.

(** * range *)
Lemma pass_value im n ang center rot fill nearest i j : square_image im n ->
  exists p, im_px (rot_pass im ang center rot fill nearest) i j = rgi nearest fill n 0 (im_px im) p.
Proof. intros (X & Y & N). unfold rot_pass. cbn [im_px]. rewrite Y. eauto. Qed.
Lemma pass_range im n ang center rot f nearest lo hi : square_image im n -> pixels_within im lo hi -> lo <= f <= hi ->
  pixels_within (rot_pass im ang center rot (Some f) nearest) lo hi.
Proof.
  intros S W F i j _ _. destruct (pass_value im n ang center rot (Some f) nearest i j S) as (p & ->).
  apply rgi_range; auto; [apply S|]. intros a b [A B]. destruct S as (X & Y & _). apply W; lia.
Qed.
Lemma rotate_range im n ang center first f nearest lo hi : square_image im n -> pixels_within im lo hi -> lo <= f <= hi ->
  exists out, array_rotate im ang center first (Some f) nearest = Ok out /\ square_image out n /\ pixels_within out lo hi.
Proof.
  intros S W F. rewrite (rotate_ok im n) by auto. eexists. split; [reflexivity|].
  destruct (negb first && negb (Reqb ang 0)).
  - split; [apply pass_size; now apply pass_size|]. apply (pass_range _ n); auto; [now apply pass_size|]. now apply (pass_range _ n).
  - split; [now apply pass_size|]. now apply (pass_range _ n).
Qed.
Lemma pass_const im n ang center rot nearest c : square_image im n -> pixels_within im c c ->
  pixels_within (rot_pass im ang center rot None nearest) c c.
Proof.
  intros S W i j _ _. destruct (pass_value im n ang center rot None nearest i j S) as (p & ->).
  assert (K : forall a b, pixel_of n a b -> im_px im a b = c).
  { intros a b [A B]. destruct S as (X & Y & _). pose proof (W a b ltac:(lia) ltac:(lia)). lra. }
  destruct nearest.
  - destruct (rgi_nearest_value None n (im_px im) p (proj2 (proj2 S))) as [(f & F & _) | (a & b & P & ->)]; [discriminate|].
    rewrite (K a b P). lra.
  - rewrite (rgi_linear_const n (im_px im) c p (proj2 (proj2 S)) K). lra.
Qed.
Lemma rotate_const im n ang center first nearest c : square_image im n -> pixels_within im c c ->
  exists out, array_rotate im ang center first None nearest = Ok out /\ square_image out n /\ pixels_within out c c.
Proof.
  intros S W. rewrite (rotate_ok im n) by auto. eexists. split; [reflexivity|].
  destruct (negb first && negb (Reqb ang 0)).
  - split; [apply pass_size; now apply pass_size|]. apply (pass_const _ n); auto; [now apply pass_size|]. now apply (pass_const _ n).
  - split; [now apply pass_size|]. now apply (pass_const _ n).
Qed.
Lemma pass_values im n ang center rot i j : square_image im n ->
  exists a b, pixel_of n a b /\ im_px (rot_pass im ang center rot None true) i j = im_px im a b.
Proof.
  intros S. destruct (pass_value im n ang center rot None true i j S) as (p & ->).
  destruct (rgi_nearest_value None n (im_px im) p (proj2 (proj2 S))) as [(f & F & _) | (a & b & P & E)]; [discriminate|]. eauto.
Qed.
Lemma rotate_values im n ang center first : square_image im n ->
  exists out, array_rotate im ang center first None true = Ok out /\ square_image out n /\
  forall i j, pixel_of n i j -> exists a b, pixel_of n a b /\ im_px out i j = im_px im a b.
Proof.
  intros S. rewrite (rotate_ok im n) by auto. eexists. split; [reflexivity|].
  destruct (negb first && negb (Reqb ang 0)).
  - split; [apply pass_size; now apply pass_size|]. intros i j _.
    destruct (pass_values _ n ang NoCenter true i j (pass_size im n ang center first None true S)) as (a & b & P & ->).
    now apply pass_values.
  - split; [now apply pass_size|]. intros i j _. now apply pass_values.
Qed.
Lemma rotate_rejects im ang center first fill nearest :
  im_nx im <> im_ny im -> array_rotate im ang center first fill nearest = Raise ValueError.
Proof. intros H. unfold array_rotate. apply Z.eqb_neq in H. rewrite H. reflexivity. Qed.

(** * gradients *)
Lemma rgi_bilinear n a b c d im p : (2 <= n)%Z ->
  (forall i j, pixel_of n i j -> im i j = a + b * IZR i + c * IZR j + d * IZR i * IZR j) ->
  rgi false None n 0 im p = a + b * fst p + c * snd p + d * fst p * snd p.
Proof.
  intros N K. unfold rgi. pose proof (axis_in n (fst p) N) as A. pose proof (axis_in n (snd p) N) as B.
  rewrite (axis_pos n (fst p)), (axis_pos n (snd p)).
  set (i := fst (rgi_axis n 0 (fst p))) in *. set (j := fst (rgi_axis n 0 (snd p))) in *.
  rewrite !K by (split; lia). rewrite !plus_IZR. ring.
Qed.
Lemma rotate_gradient im n ang a b c d : square_image im n ->
  (forall i j, pixel_of n i j -> im_px im i j = a + b * IZR i + c * IZR j + d * IZR i * IZR j) ->
  exists out, array_rotate im ang NoCenter true None false = Ok out /\ square_image out n /\
  forall i j, pixel_of n i j -> let p := turned ang n (pixel_centre i j) in
    im_px out i j = a + b * fst p + c * snd p + d * fst p * snd p.
Proof.
  intros S K. destruct (rotate_turns im n ang None false S) as (out & E & Z & V). exists out. split; [exact E|]. split; [exact Z|].
  intros i j P p. rewrite V by auto. apply rgi_bilinear; auto. apply S.
Qed.
