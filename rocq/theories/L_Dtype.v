From Coq Require Import Reals List Lra Lia.
From Verif Require Import Base L_Base M_Translate L_Angles M_Dtype.
Import ListNotations.
Local Open Scope R_scope.

Lemma tp_norm_call tp : tp2xyz false (tpnorm tp) = tp2xyz true tp.
Proof. reflexivity. Qed.
Lemma tp2xyz_call_value k n a : fst (tp2xyz_call k n a) = map (tp2xyz n) a.
Proof. unfold tp2xyz_call. destruct n; [|reflexivity]. cbn [tpnorm_call fst]. rewrite map_map. reflexivity. Qed.
Lemma tpnorm_range_id tp : 0 <= fst tp < PI -> 0 <= snd tp < 2 * PI -> tpnorm tp = tp.
Proof. destruct tp as [t p]. apply tpnorm_id. Qed.
Lemma tp2xyz_call_kept k n a : k = pysequence \/ n = false \/ Forall (fun tp => 0 <= fst tp < PI /\ 0 <= snd tp < 2 * PI) a -> snd (tp2xyz_call k n a) = a.
Proof.
  unfold tp2xyz_call. destruct n; [|reflexivity]. intros [->|[H|H]]; [reflexivity|discriminate|]. cbn [tpnorm_call snd]. destruct k; [|reflexivity].
  rewrite <- (map_id a) at 2. apply map_ext_in. intros tp T. rewrite Forall_forall in H. apply tpnorm_range_id; now apply H.
Qed.
Lemma tp2xyz_call_overwrites : exists a, snd (tp2xyz_call ndarray true a) <> a /\ snd (tpnorm_call ndarray a) <> a.
Proof.
  exists [(PI, 0)]. assert (tpnorm (PI, 0) <> (PI, 0)) as N.
  { intros Q. pose proof (tpnorm_range (PI, 0)) as [[_ R] _]. rewrite Q in R. cbn [fst] in R. lra. }
  split; cbn; intros Q; injection Q as Q1 Q2; apply N; unfold tpnorm; cbn [fst snd]; now rewrite Q1, Q2.
Qed.
Lemma tpnorm_twice tp : tpnorm (tpnorm tp) = tpnorm tp.
Proof. pose proof (tpnorm_range tp) as [A B]. now apply tpnorm_range_id. Qed.
Lemma tp2xyz_call_again k n a : fst (tp2xyz_call k n (snd (tp2xyz_call k n a))) = fst (tp2xyz_call k n a) /\ snd (tp2xyz_call k n (snd (tp2xyz_call k n a))) = snd (tp2xyz_call k n a).
Proof.
  rewrite !tp2xyz_call_value. unfold tp2xyz_call. destruct n; [|split; reflexivity]. cbn [tpnorm_call snd]. destruct k; [|split; reflexivity]. split.
  - rewrite map_map. apply map_ext. intros tp. rewrite <- !tp_norm_call. now rewrite tpnorm_twice.
  - rewrite map_map. apply map_ext. intros tp. apply tpnorm_twice.
Qed.
Lemma tpnorm_call_spec k a : fst (tpnorm_call k a) = map tpnorm a /\ Forall (fun tp => 0 <= fst tp < PI /\ 0 <= snd tp < 2 * PI) (fst (tpnorm_call k a)) /\
  snd (tpnorm_call pysequence a) = a.
Proof.
  split; [reflexivity|]. split; [|reflexivity]. cbn [tpnorm_call fst]. apply Forall_map, Forall_forall. intros tp _. apply tpnorm_range.
Qed.
Lemma floor_whole z : Rfloor (IZR z) = z.
Proof. apply Rfloor_unique. lra. Qed.
Lemma tp2xyz_whole_ok t p : (0 <= t <= 3)%Z -> (0 <= p <= 6)%Z -> tp2xyz_whole true (t, p) = tp2xyz true (IZR t, IZR p).
Proof.
  intros T P. pose proof PI_gt_3 as G. assert (0 <= IZR t <= 3 /\ 0 <= IZR p <= 6) as [A B] by (split; split; apply IZR_le; lia).
  unfold tp2xyz_whole, tpnorm_whole. cbn [fst snd]. rewrite <- (tp_norm_call (IZR t, IZR p)), tpnorm_id by lra. cbn [fst snd]. now rewrite !floor_whole.
Qed.
Lemma tp2xyz_whole_off p : tp2xyz_whole true (4%Z, p) = V3 0 0 1 /\ tp2xyz true (4, IZR p) <> V3 0 0 1.
Proof.
  pose proof PI_gt_3 as G. pose proof PI_4 as G4.
  assert (PI < 4) as G5.
  { pose proof (PI_ineq 1) as [_ U]. unfold PI_tg, tg_alt in U. cbn in U. lra. }
  assert (fst (tpnorm (4, IZR p)) = 4 - PI) as F.
  { unfold tpnorm. cbn [fst]. replace (4 + PI) with ((4 - PI) + IZR 2 * PI) by (simpl; ring). rewrite Rmod_add_mult by lra. apply Rmod_small. lra. }
  split.
  - unfold tp2xyz_whole, tpnorm_whole. cbn [fst snd]. assert (Rfloor (fst (tpnorm (4, IZR p))) = 0%Z) as -> by (rewrite F; apply Rfloor_unique; lra).
    rewrite tp2xyz_sph. cbv zeta. cbn [fst snd]. unfold sph. rewrite sin_0, cos_0. f_equal; ring.
  - rewrite <- tp_norm_call, tp2xyz_sph. cbv zeta. rewrite F. unfold sph. intros Q. injection Q as _ _ Q.
    assert (cos (4 - PI) < cos 0) as L by (apply cos_decreasing_1; lra). rewrite cos_0 in L. lra.
Qed.
