From Coq Require Import String Lra Lia.
From Verif Require Import Base BaseX L_Base M_Translate M_Mapper S_Mapper L_Mapper L_Draw M_Io L_Io M_Header M_Metric M_Peak M_Imgmetric S_Imgmetric L_Imgmetric L_Imgmetric2.
Import ListNotations.
Local Open Scope R_scope.

Lemma add_some rows g k row : nth_error (add_column (Some rows) g) k = Some row ->
  exists r x, nth_error rows k = Some r /\ nth_error g k = Some x /\ row = (r ++ [x])%list.
Proof.
  cbn [add_column]. revert g k. induction rows as [|r rows IH]; intros [|x g] [|k]; cbn; try discriminate.
  - intros [= <-]. eauto.
  - apply IH.
Qed.
Lemma add_none g k row : nth_error (add_column None g) k = Some row -> exists x, nth_error g k = Some x /\ row = [x].
Proof. cbn [add_column]. rewrite nth_error_map. destruct (nth_error g k); cbn; [intros [= <-]; eauto|discriminate]. Qed.
Lemma add_length r g : (forall rows, r = Some rows -> length rows = length g) -> length (add_column r g) = length g.
Proof. destruct r as [rows|]; cbn [add_column]; intros H; rewrite map_length; [|reflexivity]. rewrite combine_length, (H rows eq_refl). lia. Qed.
Lemma forall2_nth {A B} (Q : A -> B -> Prop) l r k x y : Forall2 Q l r -> nth_error l k = Some x -> nth_error r k = Some y -> Q x y.
Proof. intros H. revert k. induction H as [|a b l r H _ IH]; intros [|k]; cbn; try discriminate; [now intros [= ->] [= ->]|apply IH]. Qed.
Lemma forall2_length {A B} (Q : A -> B -> Prop) l r : Forall2 Q l r -> length r = length l.
Proof. induction 1; cbn; congruence. Qed.
Lemma combine_fst {A B} (l : list A) (r : list B) : length r = length l -> map fst (combine l r) = l.
Proof. revert r. induction l as [|x l IH]; intros [|y r]; cbn; try discriminate; [reflexivity|]. intros [= E]. now rewrite IH. Qed.
Lemma combine_nth_error {A B} (l : list A) (r : list B) k x y : nth_error (combine l r) k = Some (x, y) ->
  nth_error l k = Some x /\ nth_error r k = Some y.
Proof. revert r k. induction l as [|a l IH]; intros [|b r] [|k]; cbn; try discriminate; [now intros [= -> ->]|apply IH]. Qed.
Lemma pop_fst x l : fst (pop x l) = mem x l.
Proof.
  destruct (mem x l) eqn:E.
  - apply mem_in in E. destruct (pop_split x l E) as (a & b & _ & _ & ->). reflexivity.
  - apply pop_false. intros H. apply mem_in in H. congruence.
Qed.
Lemma pop_other x y l : x <> y -> mem y (snd (pop x l)) = mem y l.
Proof.
  intros N. induction l as [|z l IH]; [reflexivity|]. cbn [pop]. destruct (String.eqb_spec x z) as [->|Nz].
  - cbn [snd mem existsb]. destruct (String.eqb_spec y z) as [->|]; [now elim N|reflexivity].
  - destruct (pop x l) as [b r]. cbn [snd] in *. cbn [mem existsb]. unfold mem in IH. now rewrite IH.
Qed.

Theorem table_rows {P} (calc : P -> list string -> res (list xr)) gss imgs metrics : scores_each gss imgs ->
  let t := metric_cmd calc gss imgs metrics in
  let ms := other_metrics metrics in
  t_exn t = None ->
  t_names t = Some (ms ++ (if asked "gss" metrics then ["gss"] else []) ++ (if asked "gssnb" metrics then ["gssnb"] else []))%list%string /\
  map fst (t_rows t) = imgs /\
  forall k img row, nth_error (t_rows t) k = Some (img, row) ->
    nth_error imgs k = Some img /\
    exists vals g1 g2, row = (vals ++ g1 ++ g2)%list /\ (if ms then vals = [] else calc img ms = Ok vals) /\
      score_entry gss imgs false (asked "gss" metrics) k g1 /\ score_entry gss imgs true (asked "gssnb" metrics) k g2.
Proof.
  intros Hg t ms. unfold t, metric_cmd. rewrite !asked_mem. clear t.
  assert (mem "gssnb" metrics = fst (pop "gssnb" (snd (pop "gss" metrics)))) as Eb.
  { rewrite pop_fst. symmetry. apply pop_other. discriminate. }
  rewrite Eb. rewrite <- (pop_fst "gss" metrics). subst ms. replace (other_metrics metrics) with (snd (pop "gssnb" (snd (pop "gss" metrics)))) by (unfold other_metrics; now rewrite !pop_without).
  destruct (pop "gss" metrics) as [g m1] eqn:E1. cbn [fst snd] in *. destruct (pop "gssnb" m1) as [gnb m2] eqn:E2. cbn [fst snd] in *.
  clear Eb E1 E2.
  (* the results of imgmetric *)
  assert (forall r0, (match m2 with [] => Ok None | _ => bind (each (fun i => calc i m2) imgs) (fun r => Ok (Some r)) end) = Ok r0 ->
    (forall rows, r0 = Some rows -> length rows = length imgs /\ forall k img row, nth_error imgs k = Some img -> nth_error rows k = Some row ->
        m2 <> [] /\ calc img m2 = Ok row) /\ (r0 = None -> m2 = [])) as S0.
  { intros r0. destruct m2 as [|a m2]; [intros [= <-]; split; [discriminate|reflexivity]|].
    destruct (each (fun i => calc i (a :: m2)) imgs) as [r|] eqn:Ee; cbn [bind]; [|discriminate]. intros [= <-].
    apply each_ok in Ee. split; [|discriminate]. intros rows [= <-]. split; [now apply forall2_length in Ee|]. intros k img row Hi Hr. split; [discriminate|].
    exact (forall2_nth _ _ _ k img row Ee Hi Hr). }
  destruct (match m2 with [] => Ok None | _ => _ end) as [r0|]; cbn [bind]; [|discriminate].
  destruct (S0 r0 eq_refl) as [A0 B0]. clear S0.
  (* entries of a line so far *)
  set (line := fun (rows : list (list xr)) (a1 a2 : bool) => length rows = length imgs /\
     forall k img row, nth_error imgs k = Some img -> nth_error rows k = Some row ->
       exists vals g1 g2, row = (vals ++ g1 ++ g2)%list /\ (if m2 then vals = [] else calc img m2 = Ok vals) /\
         score_entry gss imgs false a1 k g1 /\ score_entry gss imgs true a2 k g2).
  assert (forall rows, r0 = Some rows -> line rows false false) as L0.
  { intros rows E. destruct (A0 rows E) as [Hl Hc]. split; [exact Hl|]. intros k img row Hi Hr. destruct (Hc k img row Hi Hr) as [Hm Hv].
    exists row, [], []. rewrite app_nil_r. split; [reflexivity|]. split; [destruct m2; [easy|exact Hv]|]. split; reflexivity. }
  destruct (if g then bind (gss false imgs) (fun c => Ok (Some (add_column r0 c))) else Ok r0) as [r1|] eqn:E1; cbn [bind]; [|discriminate].
  assert ((forall rows, r1 = Some rows -> line rows g false) /\ (r1 = None -> m2 = [] /\ g = false)) as [L1 B1].
  { destruct g; [|injection E1 as <-; split; [exact L0|intros E; split; [now apply B0|reflexivity]]].
    destruct (gss false imgs) as [c|] eqn:Ec; cbn [bind] in E1; [|discriminate]. injection E1 as <-. split; [|discriminate]. intros rows [= <-].
    pose proof (Hg _ _ Ec) as Hl. split.
    - rewrite add_length; [exact Hl|]. intros rows Er. destruct (L0 rows Er) as [X _]. congruence.
    - intros k img row Hi Hr. destruct r0 as [rows|].
      + destruct (L0 rows eq_refl) as [_ H0]. apply add_some in Hr as (r & x & Hr & Hx & ->). destruct (H0 k img r Hi Hr) as (vals & g1 & g2 & -> & Hv & S1 & S2).
        unfold score_entry in S1, S2. subst g1 g2. exists vals, [x], []. rewrite !app_nil_r. split; [reflexivity|]. split; [exact Hv|]. split; [exists c, x; auto|reflexivity].
      + apply add_none in Hr as (x & Hx & ->). exists [], [x], []. split; [reflexivity|]. rewrite (B0 eq_refl). split; [reflexivity|]. split; [exists c, x; auto|reflexivity]. }
  clear E1 L0 A0 B0.
  destruct (if gnb then bind (gss true imgs) (fun c => Ok (Some (add_column r1 c))) else Ok r1) as [r2|] eqn:E2; [|discriminate].
  destruct r2 as [rows|]; [|discriminate]. cbn [t_exn t_names t_rows]. intros _. split; [reflexivity|].
  assert (line rows g gnb) as [Hl L2].
  { destruct gnb; [|injection E2 as ->; now apply L1].
    destruct (gss true imgs) as [c|] eqn:Ec; cbn [bind] in E2; [|discriminate]. injection E2 as <-.
    pose proof (Hg _ _ Ec) as Hl. split.
    - rewrite add_length; [exact Hl|]. intros rows Er. destruct (L1 rows Er) as [X _]. congruence.
    - intros k img row Hi Hr. destruct r1 as [rows|].
      + destruct (L1 rows eq_refl) as [_ H0]. apply add_some in Hr as (r & x & Hr & Hx & ->). destruct (H0 k img r Hi Hr) as (vals & g1 & g2 & -> & Hv & S1 & S2).
        unfold score_entry in S2. subst g2. exists vals, g1, [x]. rewrite !app_nil_r. split; [now rewrite <- app_assoc|]. split; [exact Hv|]. split; [exact S1|exists c, x; auto].
      + apply add_none in Hr as (x & Hx & ->). destruct (B1 eq_refl) as [-> ->]. exists [], [], [x]. split; [reflexivity|]. split; [reflexivity|]. split; [reflexivity|exists c, x; auto]. }
  split; [now apply combine_fst|]. intros k img row H. apply combine_nth_error in H as [Hi Hr]. split; [exact Hi|]. exact (L2 k img row Hi Hr).
Qed.
(** a successful command prints as many values as names, and two more for each irradiance *)
Theorem table_width {P} (calc : P -> list string -> res (list xr)) gss imgs metrics names : scores_each gss imgs ->
  (forall img ms vals, calc img ms = Ok vals -> length vals = (length ms + 2 * count "irradiance" ms)%nat) ->
  let t := metric_cmd calc gss imgs metrics in t_exn t = None -> t_names t = Some names ->
  Forall (fun r => length (snd r) = (length names + 2 * count "irradiance" metrics)%nat) (t_rows t).
Proof.
  intros Hg Hc. cbv zeta. intros Ht Hn. destruct (table_rows calc gss imgs metrics Hg Ht) as (En & _ & Hr). rewrite Hn in En. injection En as ->.
  apply Forall_forall. intros [img row] Hin. apply In_nth_error in Hin as [k Hk]. destruct (Hr k img row Hk) as (_ & vals & g1 & g2 & -> & Hv & S1 & S2).
  cbn [snd]. rewrite !app_length.
  assert (length g1 = length (if asked "gss" metrics then ["gss"%string] else [])) as ->.
  { unfold score_entry in S1. destruct (asked "gss" metrics); [destruct S1 as (l & x & _ & _ & ->); reflexivity|now subst]. }
  assert (length g2 = length (if asked "gssnb" metrics then ["gssnb"%string] else [])) as ->.
  { unfold score_entry in S2. destruct (asked "gssnb" metrics); [destruct S2 as (l & x & _ & _ & ->); reflexivity|now subst]. }
  assert (forall x l, x <> "irradiance"%string -> count "irradiance" (snd (pop x l)) = count "irradiance" l) as Cp.
  { intros x l N. unfold count. induction l as [|z l IH]; [reflexivity|]. cbn [pop]. destruct (String.eqb_spec x z) as [->|Nz]; cbn [snd].
    - cbn [count_occ]. destruct (string_dec z "irradiance"); [now elim N|reflexivity].
    - destruct (pop x l) as [b r]. cbn [snd] in *. cbn [count_occ]. now rewrite IH. }
  assert (length vals = (length (other_metrics metrics) + 2 * count "irradiance" metrics)%nat) as ->.
  { assert (count "irradiance" (other_metrics metrics) = count "irradiance" metrics) as <-.
    { unfold other_metrics. rewrite <- !pop_without, !Cp; [reflexivity|discriminate|discriminate]. }
    destruct (other_metrics metrics) as [|a ms]; [now subst|]. now apply Hc in Hv. }
  lia.
Qed.
(** no metrics: the names are printed and the command fails *)
Lemma table_empty {P} (calc : P -> list string -> res (list xr)) gss imgs :
  metric_cmd calc gss imgs [] = Table (Some []) [] (Some TypeError).
Proof. reflexivity. Qed.
(** gss or gssnb asked for twice: the second one reaches imgmetric, which does not know it *)
Lemma table_twice {P} (calc : P -> list string -> res (list xr)) gss img imgs metrics n :
  n = "gss"%string \/ n = "gssnb"%string -> (1 < count n metrics)%nat ->
  (forall img ms, In n ms -> exists e, calc img ms = Raise e) ->
  exists e, metric_cmd calc gss (img :: imgs) metrics = Table None [] (Some e).
Proof.
  intros Hn Hc He.
  assert (forall x l, (0 < count n (snd (pop x l)))%nat \/ (count n l <= (if String.eqb x n then 1 else 0))%nat) as Cp.
  { intros x l. unfold count. induction l as [|z l IH]; [right; cbn; lia|]. cbn [pop]. destruct (String.eqb_spec x z) as [->|Nz]; cbn [snd].
    - cbn [count_occ]. destruct (string_dec z n) as [->|N].
      + rewrite String.eqb_refl. destruct (Nat.eq_dec (count_occ string_dec l n) 0); [right|left]; lia.
      + destruct (Nat.eq_dec (count_occ string_dec l n) 0); [right|left]; lia.
    - destruct (pop x l) as [b r]. cbn [snd] in *. cbn [count_occ]. destruct (string_dec z n); [left; lia|exact IH]. }
  assert (forall x l, x <> n -> count n (snd (pop x l)) = count n l) as Cq.
  { intros x l N. unfold count. induction l as [|z l IH]; [reflexivity|]. cbn [pop]. destruct (String.eqb_spec x z) as [->|Nz]; cbn [snd].
    - cbn [count_occ]. destruct (string_dec z n); [now elim N|reflexivity].
    - destruct (pop x l) as [b r]. cbn [snd] in *. cbn [count_occ]. now rewrite IH. }
  assert (In n (other_metrics metrics)) as Hin.
  { unfold other_metrics. rewrite <- !pop_without. apply (count_occ_In string_dec). destruct Hn as [->| ->].
    - fold (count "gss" (snd (pop "gssnb" (snd (pop "gss" metrics))))). rewrite Cq by discriminate.
      destruct (Cp "gss"%string metrics) as [H|H]; [exact H|]. cbn in H. lia.
    - destruct (Cp "gssnb"%string (snd (pop "gss" metrics))) as [H|H]; [exact H|]. rewrite Cq in H by discriminate. cbn in H. lia. }
  unfold metric_cmd. unfold other_metrics in Hin. rewrite <- !pop_without in Hin. destruct (pop "gss" metrics) as [g m1]. cbn [snd] in Hin. destruct (pop "gssnb" m1) as [gnb m2]. cbn [snd] in Hin.
  destruct m2 as [|a m2]; [easy|]. cbn [each]. destruct (He img (a :: m2) Hin) as [e ->]. cbn [bind]. eauto.
Qed.
