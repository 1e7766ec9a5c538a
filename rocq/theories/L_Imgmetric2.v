From Coq Require Import String Lra Lia.
From Verif Require Import Base BaseX L_Base M_Translate M_Mapper S_Mapper L_Mapper L_Draw M_Io L_Io M_Header M_Metric M_Peak M_Imgmetric S_Imgmetric L_Imgmetric.
Import ListNotations.
Local Open Scope R_scope.

(** ** columns of a result *)
Definition width (m : string) : nat := if String.eqb m "irradiance" then 3 else 1.
Lemma name_prop m : In m (allmetrics KColor) -> exists p, prop_of_name m = Some p /\
  (m = "irradiance"%string -> p = Pirradiance) /\
  (m <> "irradiance"%string -> p <> Pirradiance /\ forall k ms v, k <> KBase -> prop_value k ms p = Ok v -> exists x, v = VX x).
Proof.
  intros H. cbn in H.
  repeat (destruct H as [<-|H];
    [eexists; split; [reflexivity|]; split; [intros X; try discriminate X; reflexivity|
     intros X; try (exfalso; now apply X); split; [discriminate|];
     intros k ms v Hk; destruct k; [now elim Hk| |]; cbn; intros [= <-]; eexists; reflexivity]|]).
  destruct H as [<-|[]]. eexists; split; [reflexivity|]; split; [reflexivity|]. intros X. exfalso. now apply X.
Qed.
Lemma value_width k m n v : k <> KBase -> In n (allmetrics KColor) -> (k = KColor -> ms_channels m = 3%nat) ->
  (exists p, prop_of_name n = Some p /\ prop_value k m p = Ok v) -> length (flatten_value v) = width n.
Proof.
  intros Hk Hn Hc (p & Ep & Ev). destruct (name_prop n Hn) as (q & Eq & H1 & H2). rewrite Ep in Eq. injection Eq as <-. unfold width.
  destruct (String.eqb_spec n "irradiance") as [E|N].
  - rewrite (H1 E) in Ev. destruct k; [now elim Hk|discriminate|]. cbn in Ev. injection Ev as <-. cbn. unfold irradiance.
    now rewrite !map_length, seq_length, Hc.
  - destruct (H2 N) as [_ X]. destruct (X k m v Hk Ev) as [x ->]. reflexivity.
Qed.
Lemma call_forall2 read ns vs : call_values read ns = Ok vs ->
  Forall2 (fun n v => exists p, prop_of_name n = Some p /\ read p = Ok v) ns vs.
Proof.
  revert vs. induction ns as [|n ns IH]; intros vs; cbn [call_values]; [intros [= <-]; constructor|].
  destruct (prop_of_name n) as [p|] eqn:E; [|discriminate]. destruct (read p) as [v|] eqn:Er; cbn [bind]; [|discriminate].
  destruct (call_values read ns) as [r|]; cbn [bind]; [|discriminate]. intros [= <-]. constructor; [eauto|now apply IH].
Qed.
Lemma check_inv k ns r : check_metrics k ns true = Ok r -> Forall (fun n => In n (allmetrics k)) ns.
Proof.
  intros H. apply Forall_forall. intros m Hm. destruct (in_dec string_dec m (allmetrics k)) as [|N]; [assumption|].
  rewrite (check_bad k ns m Hm N) in H. discriminate.
Qed.
Lemma metric_color n : In n (allmetrics KMetric) -> In n (allmetrics KColor).
Proof. intros H. change (In n (all_metric ++ ["illum"%string; "irradiance"%string])%list). apply in_or_app. now left. Qed.
Lemma total_width ns : list_sum (map width ns) = (length ns + 2 * count "irradiance" ns)%nat.
Proof.
  unfold count. induction ns as [|n ns IH]; [reflexivity|]. change (list_sum (map width (n :: ns))) with (width n + list_sum (map width ns))%nat. rewrite IH. cbn [count_occ length].
  unfold width. destruct (String.eqb_spec n "irradiance"), (string_dec n "irradiance"); try easy; lia.
Qed.
Lemma call_width k m ns vals : k <> KBase -> (k = KColor -> ms_channels m = 3%nat) -> call k m ns = Ok vals ->
  length vals = (length ns + 2 * count "irradiance" ns)%nat.
Proof.
  intros Hk Hc. unfold call. destruct (check_metrics k ns true) as [r|] eqn:Ek; cbn [bind]; [|discriminate].
  destruct (call_values (prop_value k m) ns) as [vs|] eqn:Ev; cbn [bind]; [|discriminate]. intros [= <-].
  apply check_inv in Ek. apply call_forall2 in Ev. rewrite <- total_width. clear r. induction Ev as [|n v ns vs H _ IH]; [reflexivity|].
  inversion Ek as [|? ? Hn Hns]; subst. cbn [map concat]. rewrite app_length.
  change (list_sum (width n :: map width ns)) with (width n + list_sum (map width ns))%nat. rewrite (IH Hns). f_equal.
  apply (value_width k m n v Hk); [|exact Hc|exact H]. destruct k; [now elim Hk|now apply metric_color|exact Hn].
Qed.
(** values of metrics other than irradiance come one per name, in the order of the names *)
Lemma call_each m ns vals : call KMetric m ns = Ok vals ->
  Forall2 (fun n x => call KMetric m [n] = Ok [x]) ns vals.
Proof.
  unfold call. destruct (check_metrics KMetric ns true) as [r|] eqn:Ek; cbn [bind]; [|discriminate].
  destruct (call_values (prop_value KMetric m) ns) as [vs|] eqn:Ev; cbn [bind]; [|discriminate]. intros [= <-].
  apply check_inv in Ek. apply call_forall2 in Ev. clear r. induction Ev as [|n v ns vs H _ IH]; [constructor|].
  inversion Ek as [|? ? Hn Hns]; subst. cbn [map concat]. destruct H as (p & Ep & Er).
  destruct (name_prop n (metric_color n Hn)) as (q & Eq & _ & H2). rewrite Ep in Eq. injection Eq as <-.
  assert (n <> "irradiance"%string) as N by (intros ->; now apply irradiance_unknown).
  destruct (H2 N) as [_ X]. destruct (X KMetric m v ltac:(discriminate) Er) as [x ->]. cbn [flatten_value app]. constructor; [|now apply IH].
  rewrite (check_ok KMetric [n]) by (constructor; [exact Hn|constructor]). cbn [bind call_values]. rewrite Ep, Er. reflexivity.
Qed.
Lemma imgmetric_width parse order blur fuel o file metrics vals : imgmetric parse order blur fuel o file metrics = Some (Ok vals) ->
  length vals = (length metrics + 2 * count "irradiance" metrics)%nat.
Proof.
  unfold imgmetric. destruct (if_vm file) as [v|]; [|discriminate]. fold (view_of v).
  destruct (choose_lumrgb parse (needs_color metrics) (mo_lumrgb o) (if_item file)) as [c|]; [|discriminate].
  destruct (match c with Some w => negb (length w =? 3)%nat | None => false end) eqn:L; [discriminate|].
  destruct (needs_color metrics).
  - destruct (volume _ _ _) as [rays|]; [|discriminate]. destruct (if mo_peakn o then _ else _) as [rays'|]; [|discriminate].
    destruct c as [w|]; [|discriminate]. destruct (check_metrics KColor metrics true); [|discriminate].
    destruct (construct_color fuel (opts_of o) (view_of v) w _) as [[m om]|] eqn:E; [|discriminate]. intros [= H].
    destruct (construct_same _ _ _ _ _ _ _ E) as (_ & _ & _ & C). apply (call_width KColor m metrics vals); [discriminate| |exact H].
    intros _. rewrite C. apply Bool.negb_false_iff, Nat.eqb_eq in L. exact L.
  - destruct (volume _ _ _) as [rays|]; [|discriminate]. destruct (if mo_peakn o then _ else _) as [rays'|]; [|discriminate].
    destruct (construct fuel _ _ _) as [[m om]|] eqn:E; [|discriminate]. intros [= H].
    apply (call_width KMetric m metrics vals); [discriminate|discriminate|exact H].
Qed.
(** the values of a metric do not depend on the other metrics asked for (without irradiance) *)
Lemma imgmetric_each parse order blur fuel o file metrics vals : mono_names metrics ->
  imgmetric parse order blur fuel o file metrics = Some (Ok vals) ->
  Forall2 (fun n x => imgmetric parse order blur fuel o file [n] = Some (Ok [x])) metrics vals.
Proof.
  intros Hm H.
  assert (forall n, In n metrics -> mono_names [n]) as H1.
  { intros n Hn. constructor; [|constructor]. unfold mono_names in Hm. rewrite Forall_forall in Hm. now apply Hm. }
  revert H. unfold imgmetric. destruct (if_vm file) as [v|]; [|discriminate]. fold (view_of v). rewrite (mono_needs _ Hm).
  destruct (choose_lumrgb parse false (mo_lumrgb o) (if_item file)) as [c|] eqn:Ec; [|discriminate].
  destruct (match c with Some w => negb (length w =? 3)%nat | None => false end) eqn:L; [discriminate|].
  set (w := match c with Some w => w | None => pvalue_weights end).
  destruct (volume (view_of v) (if_im file) (fun px => [rgb2rad w px])) as [rays|] eqn:Ev; [|discriminate].
  destruct (if mo_peakn o then _ else _) as [rays'|] eqn:En; [|discriminate].
  destruct (construct fuel _ _ _) as [[m om]|] eqn:E; [|discriminate]. intros [= H]. apply call_each in H. clear Hm.
  induction H as [|n x ns xs Hx _ IH]; constructor; [|apply IH; intros; apply H1; now right].
  rewrite (mono_needs [n]) by (apply H1; now left). rewrite Ec, L. fold w. rewrite Ev, En, E. now rewrite Hx.
Qed.

(** * the metric command *)
Lemma each_ok {P B} (f : P -> res B) l r : each f l = Ok r <-> Forall2 (fun x b => f x = Ok b) l r.
Proof.
  revert r. induction l as [|x l IH]; intros r; cbn [each].
  - split; intros H; [injection H as <-; constructor|inversion H; reflexivity].
  - destruct (f x) as [b|e] eqn:E; cbn [bind].
    + destruct (each f l) as [bs|e] eqn:F; cbn [bind].
      * split; intros H; [injection H as <-; constructor; [exact E|now apply IH]|].
        inversion H as [|? y ? r' H1 H2]; subst. rewrite H1 in E. injection E as <-. apply IH in H2. now injection H2 as <-.
      * split; intros H; [discriminate|]. inversion H as [|? y ? r' H1 H2]; subst. apply IH in H2. discriminate.
    + split; intros H; [discriminate|]. inversion H; subst. congruence.
Qed.
Lemma pop_false x l : fst (pop x l) = false <-> ~ In x l.
Proof.
  induction l as [|y l IH]; cbn [pop]; [split; [intros _ []|reflexivity]|]. destruct (String.eqb_spec x y) as [->|N].
  - split; [discriminate|]. intros H. exfalso. apply H. now left.
  - destruct (pop x l) as [b r]. cbn [fst] in *. rewrite IH. split; [intros H [->|H']; [now apply N|now apply H]|intros H H'; apply H; now right].
Qed.
Lemma pop_split x l : In x l -> exists a b, l = a ++ x :: b /\ ~ In x a /\ pop x l = (true, a ++ b).
Proof.
  induction l as [|y l IH]; [easy|]. cbn [pop]. destruct (String.eqb_spec x y) as [->|N].
  - exists [], l. repeat split. easy.
  - intros [E|Hin]; [now elim N|]. destruct (IH Hin) as (a & b & -> & Ha & ->). exists (y :: a), b. repeat split.
    intros [E|H]; [now apply N|now apply Ha].
Qed.
Lemma pop_none x l : ~ In x l -> pop x l = (false, l).
Proof.
  induction l as [|y l IH]; [reflexivity|]. cbn [pop]. intros H. destruct (String.eqb_spec x y) as [->|N]; [exfalso; apply H; now left|].
  rewrite IH; [reflexivity|]. intros X. apply H. now right.
Qed.

Lemma pop_without x l : snd (pop x l) = without_first x l.
Proof.
  induction l as [|y l IH]; [reflexivity|]. cbn [pop without_first]. destruct (String.eqb_spec x y), (string_dec x y); try easy.
  destruct (pop x l). cbn [snd] in *. now rewrite IH.
Qed.
Lemma asked_mem x l : asked x l = mem x l.
Proof. unfold asked. destruct (in_dec string_dec x l) as [H|H]; [symmetry; now apply mem_in|]. destruct (mem x l) eqn:E; [|reflexivity]. apply mem_in in E. easy. Qed.
