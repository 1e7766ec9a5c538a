From Coq Require Import Lra Lia Psatz.
From Verif Require Import Base L_Base M_Translate S_Translate M_Mapper S_Mapper L_Angles L_Mapper.
Local Open Scope R_scope.

Lemma pyround_close x : Rabs (IZR (pyround x) - x) <= 1 / 2.
Proof.
  unfold pyround. pose proof (Rfloor_spec x) as F. set (n := Rfloor x) in *. apply Rabs_le.
  destruct (Rltb (x - IZR n) (1 / 2)) eqn:A; [apply Rltb_true in A; lra|apply Rltb_false in A].
  destruct (Rgtb (x - IZR n) (1 / 2)) eqn:B; [|apply Rltb_false in B; destruct (Z.even n)]; rewrite ?plus_IZR; lra.
Qed.
Lemma pyround_IZR z : pyround (IZR z) = z.
Proof. unfold pyround. rewrite Rfloor_IZR. replace (Rltb (IZR z - IZR z) (1 / 2)) with true; auto. symmetry. apply Rltb_true. lra. Qed.
Lemma pyround_range x a b : IZR a <= x <= IZR b -> (a <= pyround x <= b)%Z.
Proof.
  intros H. pose proof (pyround_close x) as C. apply Rabs_le_inv in C.
  destruct (Z_lt_le_dec (pyround x) a) as [L|L].
  { exfalso. assert (M : (pyround x <= a - 1)%Z) by lia. apply IZR_le in M. rewrite minus_IZR in M. lra. }
  destruct (Z_lt_le_dec b (pyround x)) as [G|G]; [|lia].
  exfalso. assert (M : (b + 1 <= pyround x)%Z) by lia. apply IZR_le in M. rewrite plus_IZR in M. lra.
Qed.
Lemma framesize_spec m res : 0 < m_aspect m -> (0 <= res)%Z ->
  let (x, y) := m_framesize m res in (0 <= x <= res)%Z /\ (0 <= y <= res)%Z /\
  (m_aspect m <= 1 -> y = res /\ Rabs (IZR x - m_aspect m * IZR res) <= 1 / 2) /\
  (1 <= m_aspect m -> x = res /\ Rabs (IZR y - IZR res / m_aspect m) <= 1 / 2).
Proof.
  intros A Hr. pose proof (IZR_le _ _ Hr) as Hr'. unfold m_framesize. destruct (Rltb (m_aspect m) 1) eqn:E.
  - apply Rltb_true in E. split; [apply pyround_range; nra|]. split; [lia|]. split; [|lra].
    intros _. split; auto. rewrite Rmult_comm. apply pyround_close.
  - apply Rltb_false in E. assert (0 <= IZR res / m_aspect m <= IZR res).
    { split; [apply Rmult_le_pos; [lra|left; apply Rinv_0_lt_compat; lra]|].
      apply Rmult_le_reg_r with (m_aspect m); auto. unfold Rdiv. rewrite Rmult_assoc, Rinv_l by lra. nra. }
    split; [lia|]. split; [apply pyround_range; lra|]. split.
    + intros L. assert (m_aspect m = 1) by lra. rewrite H0. replace (IZR res / 1) with (IZR res) by field. rewrite pyround_IZR.
      split; auto. replace (IZR res - 1 * IZR res) with 0 by ring. rewrite Rabs_R0. lra.
    + intros _. split; auto. apply pyround_close.
Qed.
Lemma m_in_view_box d sf bbox asp jr uvz v : 0 < fst sf -> 0 < snd sf ->
  m_in_view (mk_mapper d sf bbox asp jr uvz) v = true <->
  fst (fst bbox) <= vx v <= fst (fst bbox) + fst sf /\ snd (fst bbox) <= vy v <= snd (fst bbox) + snd sf.
Proof.
  intros H1 H2. unfold m_in_view, m_xyz2uv, world2view_m, mk_mapper. cbn [m_rmtx m_bbox0 m_sf fst snd].
  replace (mmulv mid (mmulv mid v)) with v by (destruct v as [x y z]; unfold mmulv, mid, dot; cbn [r0 r1 r2 vx vy vz]; f_equal; ring).
  unfold Rgeb. rewrite !Bool.andb_true_iff, !Rleb_true.
  assert (G : forall a b s, 0 < s -> (0 <= (a - b) / s <-> b <= a) /\ ((a - b) / s <= 1 <-> a <= b + s)).
  { intros a b s Hs. assert (E : (a - b) / s * s = a - b) by (field; lra). split; split; intros H; nra. }
  destruct (G (vx v) (fst (fst bbox)) (fst sf) H1) as [-> ->]. destruct (G (vy v) (snd (fst bbox)) (snd sf) H2) as [-> ->]. tauto.
Qed.
Lemma view_area_cone d va : hemi_angle va -> vm_area (mk_view d va) = 2 * PI * (1 - cos (va / 2 * (PI / 180))).
Proof.
  intros H. unfold mk_view. rewrite (va_not_360 va H). cbn [vm_area]. replace (va * PI * 1 / 360) with (va / 2 * (PI / 180)) by field. reflexivity.
Qed.
Lemma view_area_sphere d : vm_area (mk_view d 360) = 4 * PI.
Proof.
  unfold mk_view. replace (Reqb 360 360) with true by (symmetry; apply Reqb_true; auto). cbn [vm_area].
  replace (180 * PI * 2 / 360) with PI by field. rewrite cos_PI. ring.
Qed.
Lemma m_in_view_misses : exists bbox v, m_in_view (mk_mapper (V3 0 1 0) (1, 1) bbox None 1 0) v = false /\
  fst (fst bbox) < vx v < fst (snd bbox) /\ snd (fst bbox) < vy v < snd (snd bbox).
Proof.
  exists ((0, 0), (2, 2)), (V3 1.5 1.5 0). split; [|cbn; lra]. apply Bool.not_true_is_false. rewrite m_in_view_box by (cbn; lra). cbn. lra.
Qed.
