(** Lemmas for Prop_Smooth2.v: the filter at the coordinates of the data *)
From Coq Require Import List Sorting.Permutation Sorting.Sorted Lra Lia.
From Verif Require Import Base L_Base M_Translate M_Mapper M_Data S_Data L_Data L_Data2 L_Data3 M_Smooth S_Smooth L_Smooth L_Smooth2 L_Smooth3 L_Smooth4.
Import ListNotations.
Local Open Scope R_scope.

Lemma filter_self_rows order argsort pdf am x rows : orders order -> not_negative pdf -> (forall v, In v x -> 0 < pdf v v) ->
  exists sx, Permutation sx x /\ StronglySorted Rle sx /\
  filter_self order argsort pdf am None x rows = filter_rows order argsort pdf am None x rows sx.
Proof.
  intros O N W. exists (sxs order x). split; [now apply sxs_perm|]. split; [now apply sxs_ss|].
  unfold filter_self, filter_rows. destruct (check_amethod am (length rows) (length x)) as [u|e]; [|reflexivity]. cbn [bind].
  fold (sxs order x). set (srows := if ascending x then rows else _). clearbody srows.
  rewrite <- (map_nth_seq_R (fun x0 => rows_x argsort pdf am x0 (sxs order x) srows)).
  destruct (sxs order x) as [|a l] eqn:E; [reflexivity|]. rewrite <- E. f_equal. apply map_ext_in. intros i I. apply in_seq in I.
  assert (In (nth i (sxs order x) 0) x) as H. { apply (Permutation_in _ (sxs_perm order x O)), nth_In. lia. }
  rewrite Rgtb_pos; [reflexivity|]. apply covered_sum; auto. apply Exists_exists. eauto.
Qed.

Lemma const_repeat (x : list R) c : Forall (fun v => v = c) x -> x = repeat c (length x).
Proof. intros H. induction H as [|v x -> _ IH]; [reflexivity|]. cbn [length repeat]. now rewrite <- IH. Qed.
Lemma sum_repeat (c : R) n : fold_right Rplus 0 (repeat c n) = INR n * c.
Proof. induction n as [|n IH]; [cbn; ring|]. cbn [repeat fold_right]. rewrite S_INR, IH. ring. Qed.
Lemma const_variance x c : (2 <= length x)%nat -> Forall (fun v => v = c) x -> cov x = 0.
Proof.
  intros L H. unfold cov. assert (0 < INR (length x)) as P by (apply lt_0_INR; lia).
  assert (fold_right Rplus 0 x / INR (length x) = c) as ->.
  { rewrite (const_repeat x c H) at 1. rewrite sum_repeat. field. lra. }
  rewrite sum_zero; [unfold Rdiv; ring|]. eapply Forall_impl; [|exact H]. intros v ->. ring.
Qed.
Lemma const_ascending x (c : R) : Forall (fun v => v = c) x -> ascending x = true.
Proof.
  intros H. induction H as [|v x -> F IH]; [reflexivity|]. destruct x as [|b x]; [reflexivity|]. cbn [ascending] in *. rewrite IH.
  inversion F; subst. assert (Rleb c c = true) as -> by (apply Rleb_true; lra). reflexivity.
Qed.
Lemma filter_constant order argsort x rows c sscale : (2 <= length x)%nat -> Forall (fun v => v = c) x -> rectangle (length x) rows ->
  let pdf := scaled_pdf (default_sigma x sscale) in
  filter_self order argsort pdf AMean None x rows = Raise IndexError /\
  filter_rows order argsort pdf AMean None x rows [c] = Ok [map (hd 0) rows].
Proof.
  intros L H Rt pdf.
  assert (Z : forall a b, pdf a b = 0).
  { intros a b. unfold pdf, scaled_pdf, default_sigma. rewrite (const_variance x c L H), Rmult_0_l, sqrt_0, Rmult_0_l.
    now rewrite (proj2 (Rltb_false 0 0) ltac:(lra) : Rgtb 0 0 = false). }
  assert (S : forall a, Rgtb (fold_right Rplus 0 (map (pdf a) x)) 0 = false).
  { intros a. rewrite sum_zero by (apply Forall_forall; intros v _; apply Z). apply Rltb_false. lra. }
  pose proof (const_ascending x c H) as A. clearbody pdf. split.
  - unfold filter_self. cbn [check_amethod bind]. rewrite A. destruct x as [|a x]; [cbn in L; lia|]. cbn [length seq]. rewrite map_cons. cbn [all_ok]. cbv zeta. rewrite S. reflexivity.
  - unfold filter_rows. cbn [check_amethod bind]. rewrite A. cbn [map all_ok]. unfold rows_x. rewrite S. cbv zeta.
    assert (searchsorted_left x c = 0%Z) as ->.
    { unfold searchsorted_left. rewrite filter_none; [reflexivity|]. eapply Forall_impl; [|exact H]. intros v ->. apply Rltb_false. lra. }
    assert ((0 =? Z.of_nat (length x))%Z = false) as -> by (apply Z.eqb_neq; lia). cbn [Z.eqb].
    change 0%Z with (Z.of_nat 0). rewrite (column_nat rows 0 (length x)); [|exact Rt|lia]. cbn [bind].
    do 2 f_equal. apply map_ext. intros [|? ?]; reflexivity.
Qed.
