(** Lemmas for Prop_Skybin.v *)
From Coq Require Import List Lra Lia.
From Verif Require Import Base L_Base M_Translate S_Translate L_Concentric L_Bins L_Trig M_Skybin S_Skybin.
Import ListNotations.
Local Open Scope R_scope.

Lemma insert_in x y l : In y (insert_new x l) <-> y = x \/ In y l.
Proof.
  induction l as [|z l IH]; cbn [insert_new]; [cbn; intuition|]. destruct (x <? z)%Z; [cbn; intuition|].
  destruct (Z.eqb_spec x z) as [->|]; [cbn; intuition|]. cbn [In]. rewrite IH. intuition.
Qed.
Lemma unique_in y l : In y (unique l) <-> In y l.
Proof. unfold unique. induction l as [|x l IH]; [reflexivity|]. cbn [fold_right]. rewrite insert_in, IH. cbn; intuition. Qed.
Lemma increasing_cons x l : increasing (x :: l) <-> (forall y, In y l -> (x < y)%Z) /\ increasing l.
Proof.
  revert x. induction l as [|z l IH]; intros x; [cbn; intuition|]. change (increasing (x :: z :: l)) with ((x < z)%Z /\ increasing (z :: l)).
  split.
  - intros [A B]. split; [|exact B]. intros y [<-|Y]; [exact A|]. apply IH in B. destruct B as [B _]. specialize (B y Y). lia.
  - intros [A B]. split; [apply A; now left|exact B].
Qed.
Lemma insert_increasing x l : increasing l -> increasing (insert_new x l).
Proof.
  induction l as [|z l IH]; intros H; cbn [insert_new]; [exact I|]. destruct (Z.ltb_spec x z).
  - split; assumption.
  - destruct (Z.eqb_spec x z); [exact H|]. apply increasing_cons in H as [A B]. apply increasing_cons. split; [|auto].
    intros y Y. apply insert_in in Y. destruct Y as [->|Y]; [lia|auto].
Qed.
Lemma unique_increasing l : increasing (unique l).
Proof. unfold unique. induction l as [|x l IH]; [exact I|]. cbn [fold_right]. now apply insert_increasing. Qed.
Lemma filter_increasing f l : increasing l -> increasing (filter f l).
Proof.
  induction l as [|x l IH]; intros H; [exact I|]. apply increasing_cons in H as [A B]. cbn [filter].
  destruct (f x); [|auto]. apply increasing_cons. split; [|auto]. intros y Y. apply filter_In in Y. now apply A.
Qed.
Lemma skybins_sorted vs side tol normalize l : (0 < side)%Z -> 0 < tol -> skybins vs side tol normalize = Ok l ->
  increasing l /\ Forall (fun b => (0 <= b < side * side)%Z) l.
Proof.
  intros S T. unfold skybins. rewrite (proj2 (Rltb_true 0 tol) T : Rgtb tol 0 = true).
  destruct (add_offsets _ _) as [uvs|]; [|discriminate]. cbn [bind]. intros E. injection E as <-.
  split; [apply filter_increasing, unique_increasing|]. apply Forall_forall. intros b B. apply filter_In in B. destruct B as [B L].
  apply Z.ltb_lt in L. apply unique_in, in_map_iff in B. destruct B as (p & <- & _). pose proof (uv2bin_range p side S). lia.
Qed.
Lemma skybins_zero vs side tol normalize : tol <= 0 -> skybins vs side tol normalize = Ok (map (fun v => xyz2skybin v side normalize) vs).
Proof.
  intros T. unfold skybins. replace (Rgtb tol 0) with false by (symmetry; apply Rltb_false; lra). now rewrite map_map.
Qed.
Lemma skybins_rows vs side tol normalize : 0 < tol -> length vs <> 1%nat -> length vs <> 9%nat -> skybins vs side tol normalize = Raise ValueError.
Proof.
  intros T A B. unfold skybins. rewrite (proj2 (Rltb_true 0 tol) T : Rgtb tol 0 = true). unfold add_offsets.
  rewrite map_length. change (length (tol_grid (tol / IZR side))) with 9%nat. apply Nat.eqb_neq in B. rewrite B.
  destruct vs as [|v [|w vs]]; [reflexivity|contradiction|reflexivity].
Qed.
(** nine directions: one offset each *)
Lemma skybins_nine vs side tol normalize : 0 < tol -> length vs = 9%nat ->
  exists l, skybins vs side tol normalize = Ok l /\ (length l <= 9)%nat.
Proof.
  intros T A. unfold skybins. rewrite (proj2 (Rltb_true 0 tol) T : Rgtb tol 0 = true).
  set (uv := map _ vs). assert (U : length uv = 9%nat) by (unfold uv; now rewrite map_length).
  assert (add_offsets (tol_grid (tol / IZR side)) uv = Ok (map (fun q => row_add (fst q) (snd q)) (combine (tol_grid (tol / IZR side)) uv))) as ->.
  { unfold add_offsets. rewrite U. destruct uv as [|p [|q uv]]; try discriminate. reflexivity. }
  cbn [bind]. eexists. split; [reflexivity|].
  assert (F : forall f (l : list Z), (length (filter f l) <= length l)%nat).
  { intros f l. induction l as [|x l IH]; cbn [filter length]; [lia|]. destruct (f x); cbn [length]; lia. }
  assert (I : forall x l, (length (insert_new x l) <= S (length l))%nat).
  { intros x l. induction l as [|y l IH]; cbn [insert_new length]; [lia|]. destruct (x <? y)%Z; cbn [length]; [lia|]. destruct (x =? y)%Z; cbn [length]; lia. }
  assert (Q : forall l, (length (unique l) <= length l)%nat).
  { intros l. unfold unique. induction l as [|x l IH]; cbn [fold_right length]; [lia|]. specialize (I x (fold_right insert_new [] l)). lia. }
  eapply Nat.le_trans; [apply F|]. eapply Nat.le_trans; [apply Q|]. rewrite !map_length, combine_length, U. cbn. lia.
Qed.

(** * one direction *)
Lemma floor_near U t i : 0 < t <= 1 ->
  (exists V, Rabs (V - U) <= t /\ Rfloor V = i) <-> i = Rfloor (U - t) \/ i = Rfloor U \/ i = Rfloor (U + t).
Proof.
  intros T. split.
  - intros (V & A & <-). apply Rabs_le_inv in A. pose proof (Rfloor_spec U). pose proof (Rfloor_spec (U - t)). pose proof (Rfloor_spec (U + t)).
    destruct (Rle_or_lt V U) as [L|L].
    + pose proof (Rfloor_le (U - t) V ltac:(lra)). pose proof (Rfloor_le V U L).
      assert (Rfloor U <= Rfloor (U - t) + 1)%Z. { apply Z.lt_succ_r, lt_IZR. unfold Z.succ. rewrite !plus_IZR. lra. } lia.
    + pose proof (Rfloor_le V (U + t) ltac:(lra)). pose proof (Rfloor_le U V ltac:(lra)).
      assert (Rfloor (U + t) <= Rfloor U + 1)%Z. { apply Z.lt_succ_r, lt_IZR. unfold Z.succ. rewrite !plus_IZR. lra. } lia.
  - intros [->|[->| ->]]; [exists (U - t)|exists U|exists (U + t)]; (split; [|reflexivity]).
    + replace (U - t - U) with (- t) by ring. rewrite Rabs_Ropp, Rabs_pos_eq; lra.
    + replace (U - U) with 0 by ring. rewrite Rabs_R0. lra.
    + replace (U + t - U) with t by ring. rewrite Rabs_pos_eq; lra.
Qed.
Lemma uv2bin_floor u v side : (0 < side)%Z -> 0 <= u < 2 -> 0 <= v < 1 -> uv2bin (u, v) side = (Rfloor (IZR side * u) * side + Rfloor (IZR side * v))%Z.
Proof.
  intros S U V. unfold uv2bin. assert (uv2ij (u, v) side 2 = (Rfloor (IZR side * u), Rfloor (IZR side * v))) as ->; [|reflexivity].
  apply uv2ij_cell; try assumption. split; apply Rfloor_spec.
Qed.
Lemma tol_grid_in t e f : In (e, f) (tol_grid t) <-> (e = - t \/ e = 0 \/ e = t) /\ (f = - t \/ f = 0 \/ f = t).
Proof.
  unfold tol_grid. rewrite in_flat_map. split.
  - intros (b & B & H). apply in_map_iff in H. destruct H as (a & E & A). injection E as -> ->. cbn in A, B. intuition.
  - intros [A B]. exists f. split; [cbn; intuition|]. apply in_map_iff. exists e. split; [reflexivity|]. cbn; intuition.
Qed.
Lemma skybins_one v side tol normalize : 0 < tol -> exists l, skybins [v] side tol normalize = Ok l /\
  forall b, In b l <-> (b < side * side)%Z /\ exists d, In d (tol_grid (tol / IZR side)) /\ uv2bin (row_add d (xyz2uv normalize xyz_axes false v)) side = b.
Proof.
  intros T. unfold skybins. rewrite (proj2 (Rltb_true 0 tol) T : Rgtb tol 0 = true). cbn [map add_offsets bind].
  eexists. split; [reflexivity|]. intros b. rewrite filter_In, unique_in, in_map_iff, Z.ltb_lt. split.
  - intros [(p & E & H) L]. apply in_map_iff in H. destruct H as (d & <- & D). split; [exact L|]. now exists d.
  - intros [L (d & D & E)]. split; [|exact L]. eexists. split; [exact E|]. exact (in_map (fun d => row_add d _) _ d D).
Qed.
Lemma skybins_near v side tol normalize u w : (0 < side)%Z -> 0 < tol <= 1 -> xyz2uv normalize xyz_axes false v = (u, w) ->
  tol / IZR side <= u -> u + tol / IZR side < 2 -> tol / IZR side <= w -> w + tol / IZR side < 1 ->
  exists l, skybins [v] side tol normalize = Ok l /\ forall b, In b l <-> (0 <= b < side * side)%Z /\ bin_near side tol (u, w) b.
Proof.
  intros S T E U1 U2 W1 W2. destruct (skybins_one v side tol normalize) as (l & L & H); [lra|]. exists l. split; [exact L|].
  intros b. rewrite H, E. assert (S0 : 0 < IZR side) by now apply IZR_lt.
  set (t := tol / IZR side) in *. assert (Et : IZR side * t = tol) by (unfold t; field; lra).
  assert (T0 : 0 < t) by (unfold t; apply Rdiv_lt_0_compat; lra).
  assert (C : forall e, e = - t \/ e = 0 \/ e = t -> - t <= e <= t) by (intros e [->|[->| ->]]; lra).
  split.
  - intros [L2 ([e f] & D & B)]. apply tol_grid_in in D as [De Df]. pose proof (C e De). pose proof (C f Df).
    unfold row_add in B. cbn [fst snd] in B. rewrite uv2bin_floor in B by (try assumption; lra).
    set (i := Rfloor (IZR side * (e + u))) in *. set (j := Rfloor (IZR side * (f + w))) in *.
    assert (J : (0 <= j < side)%Z). { unfold j. split; [apply Rfloor_ge; cbn; nra|apply Rfloor_lt; nra]. }
    assert (I0 : (0 <= i)%Z). { unfold i. apply Rfloor_ge; cbn; nra. }
    subst b. split; [nia|]. exists (e + u, f + w). cbn [fst snd]. fold t.
    split; [replace (e + u - u) with e by ring; apply Rabs_le; lra|]. split; [replace (f + w - w) with f by ring; apply Rabs_le; lra|].
    unfold in_bin. cbn [fst snd]. rewrite Z.div_add_l, Z.div_small, Z.add_0_r by lia.
    replace (i * side + j)%Z with (j + i * side)%Z by ring. rewrite Z_mod_plus_full, Z.mod_small by lia. unfold i, j. split; apply Rfloor_spec.
  - intros [L2 ([u' w'] & A & B & [I J])]. cbn [fst snd] in *. split; [lia|].
    apply Rabs_le_inv in A, B.
    assert (K : forall x x', - t <= x' - x <= t -> exists e, (e = - t \/ e = 0 \/ e = t) /\ Rfloor (IZR side * x') = Rfloor (IZR side * (e + x))).
    { intros x x' X. destruct (proj1 (floor_near (IZR side * x) tol (Rfloor (IZR side * x')) T)) as [Q|[Q|Q]].
      - exists (IZR side * x'). split; [|reflexivity]. replace (IZR side * x' - IZR side * x) with (IZR side * (x' - x)) by ring. apply Rabs_le. nra.
      - exists (- t). split; [auto|]. rewrite Q. f_equal. rewrite <- Et. ring.
      - exists 0. split; [auto|]. rewrite Q. f_equal. ring.
      - exists t. split; [auto|]. rewrite Q. f_equal. rewrite <- Et. ring. }
    destruct (K u u' A) as (e & De & Fe). destruct (K w w' B) as (f & Df & Ff). exists (e, f). split; [now apply tol_grid_in|].
    pose proof (C e De). pose proof (C f Df). unfold row_add. cbn [fst snd]. rewrite uv2bin_floor by (try assumption; lra). rewrite <- Fe, <- Ff.
    apply Rfloor_unique in I, J. rewrite I, J. pose proof (Z.div_mod b side ltac:(lia)). lia.
Qed.
(** the own bin *)
Lemma skybins_own v side tol normalize : (0 < side)%Z -> 0 < tol -> (xyz2skybin v side normalize < side * side)%Z ->
  exists l, skybins [v] side tol normalize = Ok l /\ In (xyz2skybin v side normalize) l.
Proof.
  intros S T B. destruct (skybins_one v side tol normalize T) as (l & L & H). exists l. split; [exact L|]. apply H. split; [exact B|].
  exists (0, 0). split; [apply tol_grid_in; auto|]. unfold xyz2skybin. f_equal. unfold row_add. destruct (xyz2uv _ _ _ v). cbn [fst snd]. now rewrite !Rplus_0_l.
Qed.

(** * what goes wrong *)
Lemma uv_west : xyz2uv false xyz_axes false (V3 (-1) 0 0) = (0, 1 / 2).
Proof.
  unfold xyz2uv, xyz_axes. cbn [vget vx vy vz]. rewrite (proj2 (Rltb_false 0 0)) by lra.
  replace (2 - (1 - 1 * 0)) with 1 by ring. rewrite sqrt_1. replace (-1 / 1) with (-1) by field. replace (0 / 1) with 0 by field.
  assert (arctan2 0 (-1) = PI) as ->.
  { pose proof (arctan2_unique 1 PI ltac:(lra)) as H. rewrite sin_PI, cos_PI in H. replace (1 * 0) with 0 in H by ring. replace (1 * -1) with (-1) in H by ring.
    apply H. pose proof PI_RGT_0. lra. }
  pose proof PI_RGT_0 as P. replace (square (-1) + square 0) with 1 by (unfold square; ring). rewrite sqrt_1.
  rewrite (proj2 (Rltb_false PI (- (PI / 4)))) by lra. rewrite Rplus_0_r.
  rewrite (proj2 (Rltb_false PI (PI / 4))) by lra. rewrite (proj2 (Rltb_false PI (3 * (PI / 4)))) by lra. rewrite (proj2 (Rltb_true PI (5 * (PI / 4)))) by lra.
  cbn [fst snd]. apply pair_eq; field. lra.
Qed.
Lemma uv_up : xyz2uv false xyz_axes false (V3 0 0 1) = (1 / 2, 1 / 2).
Proof.
  unfold xyz2uv, xyz_axes. cbn [vget vx vy vz]. rewrite (proj2 (Rltb_false 1 0)) by lra.
  replace (square (0 / sqrt (2 - (1 - 1 * 1))) + square (0 / sqrt (2 - (1 - 1 * 1)))) with 0 by (unfold square, Rdiv; ring). rewrite sqrt_0.
  pose proof PI_RGT_0 as P. cbv zeta. match goal with |- context [Rltb ?e (PI / 4)] => set (p := e); clearbody p end.
  destruct (Rltb p (PI / 4)); [|destruct (Rltb p (3 * (PI / 4))); [|destruct (Rltb p (5 * (PI / 4)))]]; cbn [fst snd]; apply pair_eq; field; lra.
Qed.
Lemma east_bin : 0 < vx (skybin2xyz 14 4).
Proof.
  unfold skybin2xyz. rewrite bin2uv_eq by lia. change (14 / 4)%Z with 3%Z. change (14 mod 4)%Z with 2%Z.
  rewrite uv2xyz_eq. cbv zeta. unfold red_u, sgn_u. rewrite (proj2 (Rltb_false 1 ((3 + 1 / 2) / 4)) ltac:(lra) : Rgtb ((3 + 1 / 2) / 4) 1 = false).
  replace (2 * ((3 + 1 / 2) / 4) - 1) with (3 / 4) by field. replace (2 * ((2 + 1 / 2) / 4) - 1) with (1 / 4) by field.
  assert (rr (3 / 4) (1 / 4) = 3 / 4) as R by (unfold rr; rewrite (proj2 (Rltb_true (1 / 4 * (1 / 4)) (3 / 4 * (3 / 4))) ltac:(lra) : Rgtb (3 / 4 * (3 / 4)) (1 / 4 * (1 / 4)) = true); reflexivity).
  cbn [vz]. rewrite R. rewrite (proj2 (Rltb_false (1 * (1 - 3 / 4 * (3 / 4))) 0)) by lra. cbn [vx].
  unfold dX. rewrite R. apply Rmult_lt_0_compat; [|apply sqrt_lt_R0; lra].
  assert (0 < cos (ph (3 / 4) (1 / 4))); [|nra]. apply cos_gt_0; unfold ph; rewrite (proj2 (Rltb_true (1 / 4 * (1 / 4)) (3 / 4 * (3 / 4))) ltac:(lra) : Rgtb (3 / 4 * (3 / 4)) (1 / 4 * (1 / 4)) = true);
    pose proof PI_RGT_0; lra.
Qed.
Lemma skybins_opposite : exists l, skybins [V3 (-1) 0 0] 4 (1 / 2) false = Ok l /\ In 14%Z l /\ 0 < vx (skybin2xyz 14 4).
Proof.
  destruct (skybins_one (V3 (-1) 0 0) 4 (1 / 2) false) as (l & L & H); [lra|]. exists l. split; [exact L|]. split; [|exact east_bin].
  apply H. split; [lia|]. exists (- (1 / 2 / 4), 0). split; [apply tol_grid_in; auto|]. rewrite uv_west. unfold uv2bin, uv2ij, row_add. cbn [fst snd].
  replace (Rfloor (4 * (- (1 / 2 / 4) + 0))) with (-1)%Z by (symmetry; apply Rfloor_unique; lra).
  replace (Rfloor (4 * (0 + 1 / 2))) with 2%Z by (symmetry; apply Rfloor_unique; lra).
  rewrite (proj2 (Rleb_false 1 (- (1 / 2 / 4) + 0)) ltac:(lra) : Rgeb (- (1 / 2 / 4) + 0) 1 = false). reflexivity.
Qed.
Lemma skybins_gap : exists l, skybins [V3 0 0 1] 8 2 false = Ok l /\ bin_near 8 2 (xyz2uv false xyz_axes false (V3 0 0 1)) 28 /\ ~ In 28%Z l.
Proof.
  destruct (skybins_one (V3 0 0 1) 8 2 false) as (l & L & H); [lra|]. exists l. split; [exact L|]. rewrite uv_up in *. split.
  - exists (7 / 16, 1 / 2). cbn [fst snd]. split; [apply Rabs_le; lra|]. split; [apply Rabs_le; lra|]. unfold in_bin. cbn [fst snd].
    change (28 / 8)%Z with 3%Z. change (28 mod 8)%Z with 4%Z. lra.
  - intros I. apply H in I. destruct I as [_ ([e f] & D & E)]. apply tol_grid_in in D as [De Df]. unfold row_add in E. cbn [fst snd] in E.
    rewrite uv2bin_floor in E by (try lia; destruct De as [->|[->| ->]]; destruct Df as [->|[->| ->]]; lra).
    assert (F : forall e, e = - (2 / 8) \/ e = 0 \/ e = 2 / 8 -> Rfloor (8 * (e + 1 / 2)) = 2%Z \/ Rfloor (8 * (e + 1 / 2)) = 4%Z \/ Rfloor (8 * (e + 1 / 2)) = 6%Z).
    { intros x [->|[->| ->]]; [left|right; left|right; right]; apply Rfloor_unique; lra. }
    destruct (F e De) as [A|[A|A]], (F f Df) as [B|[B|B]]; rewrite A, B in E; lia.
Qed.
Lemma skybins_many vs side tol normalize : 0 < tol -> length vs <> 1%nat ->
  (length vs <> 9%nat -> skybins vs side tol normalize = Raise ValueError) /\
  (length vs = 9%nat -> exists l, skybins vs side tol normalize = Ok l /\ (length l <= 9)%nat).
Proof. intros T N. split; intros H; [now apply skybins_rows|now apply skybins_nine]. Qed.
