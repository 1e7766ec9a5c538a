(** Lemmas for Prop_Smooth.v *)
From Coq Require Import List Sorting.Permutation Sorting.Sorted Lra Lia.
From Verif Require Import Base L_Base M_Translate M_Mapper M_Data S_Data L_Data L_Data2 L_Data3 M_Smooth S_Smooth.
Import ListNotations.
Local Open Scope R_scope.

Lemma all_some_nth {A B} (f : A -> option B) l r : all_some (map f l) = Some r ->
  length r = length l /\ forall k a b, (k < length l)%nat -> f (nth k l a) = Some (nth k r b).
Proof.
  revert r. induction l as [|x l IH]; intros r H; cbn [map all_some] in H.
  - injection H as <-. split; [reflexivity|]. intros k a b K. cbn in K. lia.
  - destruct (f x) eqn:E; [|discriminate]. destruct (all_some (map f l)) as [r'|]; [|discriminate]. injection H as <-.
    destruct (IH r' eq_refl) as [L N]. split; [cbn; now rewrite L|]. intros [|k] a b' K; cbn [nth]; [exact E|]. apply N. cbn in K. lia.
Qed.
Lemma column_one rows i l k : column rows i = Ok l -> (k < length rows)%nat -> column [nth k rows []] i = Ok [nth k l 0].
Proof.
  unfold column. destruct (all_some _) as [r|] eqn:E; [|discriminate]. intros H K. injection H as ->.
  destruct (all_some_nth _ _ _ E) as [_ N]. cbn [map all_some]. now rewrite (N k [] 0 K).
Qed.
Lemma column_length rows i l : column rows i = Ok l -> length l = length rows.
Proof. unfold column. destruct (all_some _) as [r|] eqn:E; [|discriminate]. intros H. injection H as ->. now apply all_some_nth in E. Qed.
Lemma one_row {A} (rows : list A) k d : length rows = 1%nat -> (k < length rows)%nat -> rows = [nth k rows d].
Proof. destruct rows as [|r [|]]; try discriminate. intros _ K. destruct k; [reflexivity|]. cbn in K. lia. Qed.
Lemma interpolate_one x0 xp rows i l k : interpolate x0 xp rows i = Ok l -> (k < length rows)%nat ->
  interpolate x0 xp [nth k rows []] i = Ok [nth k l 0] /\ length l = length rows.
Proof.
  intros H K. assert (length rows = 1%nat) as R.
  { unfold interpolate in H. destruct (column rows i); [|discriminate]. destruct (column rows (i - 1)); [|discriminate]. cbn [bind] in H.
    destruct (py_get xp i); [|discriminate]. destruct (py_get xp (i - 1)); [|discriminate]. destruct (Nat.eqb_spec (length rows) 1); [assumption|discriminate]. }
  rewrite <- (one_row rows k [] R K), H.
  assert (length l = 1%nat) as L.
  { unfold interpolate in H. destruct (column rows i) as [a|] eqn:A; [|discriminate]. destruct (column rows (i - 1)) as [b|] eqn:B; [|discriminate].
    apply column_length in A, B. cbn [bind] in H.
    destruct (py_get xp i); [|discriminate]. destruct (py_get xp (i - 1)); [|discriminate]. rewrite R in H. cbn [Nat.eqb] in H. injection H as <-.
    rewrite map_length, combine_length. lia. }
  rewrite R in K. rewrite <- (one_row l k 0 L) by (rewrite L; exact K). split; [reflexivity|]. now rewrite L, R.
Qed.
Lemma rows_x_one argsort pdf x0 xp rows l : rows_x argsort pdf AMean x0 xp rows = Ok l ->
  length l = length rows /\ forall k, (k < length rows)%nat -> rows_x argsort pdf AMean x0 xp [nth k rows []] = Ok [nth k l 0].
Proof.
  unfold rows_x. destruct (Rgtb _ 0).
  - intros H. injection H as <-. rewrite map_length. split; [reflexivity|]. intros k K. cbn [map].
    set (g := fun yp => _). rewrite (nth_indep (map g rows) 0 (g [])) by (now rewrite map_length). now rewrite map_nth.
  - set (mui := searchsorted_left xp x0). destruct (mui =? Z.of_nat (length xp))%Z; [|destruct (mui =? 0)%Z].
    + destruct (column rows (-1)) eqn:E; [|discriminate]. cbn [bind]. intros H. injection H as ->. split; [now apply column_length in E|].
      intros k K. now rewrite (column_one _ _ _ _ E K).
    + destruct (column rows 0) eqn:E; [|discriminate]. cbn [bind]. intros H. injection H as ->. split; [now apply column_length in E|].
      intros k K. now rewrite (column_one _ _ _ _ E K).
    + destruct (interpolate x0 xp rows mui) eqn:E; [|discriminate]. cbn [bind]. intros H. injection H as ->. split.
      * destruct rows as [|r rows].
        -- unfold interpolate, column in E. cbn in E. destruct (py_get xp mui); [|discriminate]. destruct (py_get xp (mui - 1)); discriminate.
        -- apply (interpolate_one _ _ _ _ _ 0 E). cbn; lia.
      * intros k K. destruct (interpolate_one _ _ _ _ _ k E K) as [-> _]. reflexivity.
Qed.
Lemma all_ok_nth {A B} (f : A -> res B) l r : all_ok (map f l) = Ok r -> Forall2 (fun a b => f a = Ok b) l r.
Proof.
  revert r. induction l as [|x l IH]; intros r H; cbn [map all_ok] in H.
  - injection H as <-. constructor.
  - destruct (f x) eqn:E; [|discriminate]. cbn [bind] in H. destruct (all_ok (map f l)) as [r'|]; [|discriminate]. cbn [bind] in H. injection H as <-.
    constructor; [exact E|auto].
Qed.
Lemma all_ok_map {A B} (f : A -> res B) l r : Forall2 (fun a b => f a = Ok b) l r -> all_ok (map f l) = Ok r.
Proof. intros H. induction H as [|a b l r E _ IH]; [reflexivity|]. cbn [map all_ok]. now rewrite E, IH. Qed.

Section Rows.
Variables (order : list R -> list nat) (argsort : list (R * R) -> list (R * R)) (pdf : R -> R -> R).
Lemma filter_rows_one bw x rows xr l : filter_rows order argsort pdf AMean bw x rows xr = Ok l ->
  Forall (fun v => length v = length rows) l /\
  forall k, (k < length rows)%nat -> filter_rows order argsort pdf AMean bw x [nth k rows []] xr = Ok (map (fun v => [nth k v 0]) l).
Proof.
  unfold filter_rows. cbn [check_amethod bind]. destruct xr as [|z xr]; [discriminate|]. set (xs := z :: xr). clearbody xs. clear z xr.
  set (sx := if ascending x then x else _).
  set (srows := if ascending x then rows else map (take_at (order x)) rows).
  assert (LS : length srows = length rows) by (unfold srows; destruct (ascending x); [reflexivity|now rewrite map_length]).
  intros H. apply all_ok_nth in H. split.
  - clear -H LS. induction H as [|a b xs l E _ IH]; constructor; [|exact IH]. destruct bw as [b0|]; apply rows_x_one in E; destruct E as [E _]; rewrite E;
      [rewrite map_length|]; exact LS.
  - intros k K. assert (SK : (if ascending x then [nth k rows []] else map (take_at (order x)) [nth k rows []]) = [nth k srows []]).
    { unfold srows. destruct (ascending x); [reflexivity|]. cbn [map]. f_equal.
      rewrite (nth_indep (map (take_at (order x)) rows) [] (take_at (order x) [])) by (now rewrite map_length). now rewrite map_nth. }
    rewrite SK. apply all_ok_map. rewrite <- LS in K. clear -H K. induction H as [|a b xs l E _ IH]; constructor; [|exact IH].
    destruct bw as [b0|]; apply rows_x_one in E; destruct E as [_ E].
    + specialize (E k). rewrite map_length in E. specialize (E K). cbn [map].
      rewrite (nth_indep _ [] (bw_window b0 (searchsorted_left sx a) [])) in E by (now rewrite map_length). rewrite map_nth in E. exact E.
    + apply E. exact K.
Qed.
End Rows.
