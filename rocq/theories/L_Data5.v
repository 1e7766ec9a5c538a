(** Witnesses for the statements about the data functions. *)
From Coq Require Import Sorting.Permutation Sorting.Sorted Lra Lia.
From Verif Require Import Base M_Translate M_Mapper M_Data M_Float S_Data L_Base L_Data L_Data2 L_Data3 L_Data4.
Local Open Scope R_scope.

(** just below one, the value of the lower datum is returned *)
Definition almost_one : R := 1 - / 200000.

Lemma wq_jump argsort : sorts argsort ->
  weighted_quantile argsort [(0, 1); (1, 1)] [1 / 2; almost_one] 0 = Ok [1 / 2; 0].
Proof.
  intros Hs.
  assert (exists x, included [(0, 1); (1, 1)] 0 x) as Hex by (exists 0, 1; split; [now left|lra]).
  assert (forall q, 0 <= q <= 1 -> weighted_quantile argsort [(0, 1); (1, 1)] [q] 0 =
            Ok [wq (map fst (kept argsort [(0, 1); (1, 1)] 0)) (cw_of (map snd (kept argsort [(0, 1); (1, 1)] 0))) q]) as H1.
  { intros q Hq. rewrite wq_whole; auto. lra. }
  rewrite wq_whole; auto; [|lra|].
  - cbn [map]. unfold almost_one.
    pose proof (H1 (1 / 2) ltac:(lra)) as A. pose proof (H1 (1 - / 200000) ltac:(lra)) as B.
    rewrite wq_two in A, B by (assumption || lra).
    assert (close_to_one (1 / 2) = false) as C1 by (apply close_lt'; lra).
    assert (close_to_one (1 - / 200000) = true) as C2.
    { unfold close_to_one, isclose. apply Rleb_true. rewrite Rabs_left1, Rabs_R1 by lra. lra. }
    rewrite C1 in A. rewrite C2 in B. unfold Reqb in B. destruct (Req_EM_T (1 - / 200000) 1) in B; [lra|].
    injection A as A. injection B as B. rewrite <- A, <- B. do 2 f_equal. lra.
  - unfold almost_one. repeat apply Forall_cons; try apply Forall_nil; lra.
Qed.

Lemma wq_equal_jump argsort q : sorts argsort -> 1 - / 100000 - / 100000000 <= q < 1 ->
  exists r, weighted_quantile argsort [(0, 1); (1, 1)] [q] 0 = Ok [r] /\ ~ linear_quantile [0; 1] q r.
Proof.
  intros Hs Q. rewrite wq_two by (assumption || lra). exists 0.
  assert (close_to_one q = true) as ->. { unfold close_to_one, isclose. apply Rleb_true. rewrite Rabs_left1, Rabs_R1 by lra. lra. }
  unfold Reqb. destruct (Req_EM_T q 1); [lra|]. split; [reflexivity|]. intros (k & f & K & F & E & V). cbn [length] in K, E. cbn [INR] in E.
  destruct k as [|[|k]]; [|cbn [INR] in E; lra|lia]. cbn [INR] in E. cbn [nth Nat.add] in V. lra.
Qed.

Lemma wq_not_weighted argsort : sorts argsort ->
  exists m, weighted_median argsort [(0, 10); (1, 1)] 0 = Ok [m] /\
    weight_of (fun x => Rltb x m) [(0, 10); (1, 1)] > (10 + 1) / 2.
Proof.
  intros Hs. exists (1 / 2). unfold weighted_median. rewrite wq_two by (assumption || lra).
  assert (close_to_one (/ 2) = false) as -> by (apply close_lt'; lra).
  split; [do 2 f_equal; lra|]. unfold weight_of. cbn [filter fst]. rcmp. cbn [map snd fold_right]. lra.
Qed.

Lemma wq_tie_order : exists s1 s2, sorts s1 /\ sorts s2 /\
  weighted_quantile s1 [(0, 1); (0, 3); (1, 1)] [3 / 4] 0 = Ok [0] /\
  weighted_quantile s2 [(0, 1); (0, 3); (1, 1)] [3 / 4] 0 = Ok [1 / 2].
Proof.
  exists sort_key, (fun l => sort_key (rev l)).
  split; [apply sort_key_sorts|]. split; [apply sort_key_rev_sorts|].
  assert (exists x, included [(0, 1); (0, 3); (1, 1)] 0 x) as Hex by (exists 0, 1; split; [now left|lra]).
  assert (Forall (fun q => 0 <= q <= 1) [3 / 4]) as Hq by (apply Forall_cons; [lra|apply Forall_nil]).
  assert (close_to_one (3 / 4) = false) as Hc by (apply close_lt'; lra).
  split; (rewrite wq_whole; [|first [apply sort_key_sorts|apply sort_key_rev_sorts]|lra|exact Hex|exact Hq]);
    cbn [map]; do 2 f_equal; unfold wq; rewrite Hc; unfold kept, sort_key; cbn [rev app fold_right insert_key fst];
    rcmp; cbn [insert_key fst]; rcmp; cbn [filter snd]; rcmp; cbn [map fst snd];
    unfold cw_of, cumsum; cbn [cumsum_from map hd last filter]; rcmp; cbn [length Nat.sub Nat.add Nat.leb nth]; field.
Qed.

(** cull_vectors depends on the order in which the ball query lists its results *)
Definition all_close (i j : nat) : Prop := True.
Definition pair_lists (a b : list nat) (j : nat) : list nat := match j with O => a | _ => b end.

Lemma two_lists a b : (a = [0; 1] \/ a = [1; 0])%nat -> (b = [0; 1] \/ b = [1; 0])%nat ->
  neighbours 2 all_close (pair_lists a b).
Proof.
  intros Ha Hb j Hj.
  assert (forall l, (l = [0; 1] \/ l = [1; 0])%nat -> NoDup l /\ forall i, In i l <-> (i < 2)%nat /\ True) as H.
  { intros l [->| ->]; (split; [repeat constructor; cbn; lia|]); intros i; cbn [In]; lia. }
  destruct j as [|j]; cbn [pair_lists]; apply H; assumption.
Qed.

Lemma cull_orders :
  cull_vectors (pair_lists [0; 1] [0; 1])%nat 2 = [true; false] /\
  cull_vectors (pair_lists [1; 0] [1; 0])%nat 2 = [false; true] /\
  cull_vectors (pair_lists [1; 0] [0; 1])%nat 2 = [true; true].
Proof. repeat split; reflexivity. Qed.

(** mixed up and down scaling *)
Lemma resample_mixed gaussian gauss f :
  resample gaussian (Img 2 2 f) (Some (4, 1)%Z) gauss None = Img 2 2 f.
Proof.
  unfold resample. cbn [fst snd im_nx im_ny]. unfold Rgtb, Rltb.
  destruct (Rlt_dec 1 _) as [C|_]; [lra|]. destruct (Rlt_dec _ 1) as [C|_]; [lra|]. reflexivity.
Qed.

Lemma resample_empty gaussian f :
  im_ny (resample gaussian (Img 1 2 f) (Some (4, 1)%Z) false None) = 0%Z.
Proof.
  unfold resample. cbn [fst snd im_nx im_ny]. unfold Rgtb, Rltb.
  destruct (Rlt_dec 1 _) as [_|C]; [|lra]. cbn [repeat0 repeat1 im_ny im_nx].
  assert (Rtrunc (1 / 2) = 0%Z) as ->; [|reflexivity].
  unfold Rtrunc, Rltb. destruct (Rlt_dec (1 / 2) 0); [lra|].
  change (1 / 2) with (IZR 1 / 2). rewrite Rfloor_half. reflexivity.
Qed.

Lemma resample_factor_93 : resample_factor_f64 93 1 = 92%Z.
Proof. vm_compute. reflexivity. Qed.

Lemma bin_coord_49 : bin_coord_f64 1 49 (f_of_Z 0) = 0%Z.
Proof. vm_compute. reflexivity. Qed.
