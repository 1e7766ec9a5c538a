From Coq Require Import Ascii String Lia.
From Verif Require Import Base L_Base M_Translate M_Mapper M_Utility M_Header S_Header L_Header L_Header2.
Import ListNotations.
Local Open Scope list_scope.

(** * the printed lines *)
Definition out_ok (l : str) : Prop := one_line l /\ l <> [] /\ ((exists a, l = a ++ s ":") \/ forall key val, entry (strip l) key val -> ~ In key banned).
Lemma clean_item_ok t : forall depth da, item_ok ok_text t -> Forall out_ok (clean_item depth da t).
Proof.
  induction t as [l|i n d c IH] using item_ind'; intros depth da H; cbn [clean_item].
  - constructor; [|constructor]. apply line_ok in H. destruct H as [O G]. cbn [fst snd] in *. specialize (G eq_refl).
    destruct (tabs_blank (depth + 1 - da)) as [T1 T2]. split; [now apply one_line_app|]. destruct (good_first l G) as [F N].
    split; [intros E; apply app_eq_nil in E; tauto|]. right. intros key val E. apply split_key_of_entry in E; [|apply strip_ends].
    destruct E as [<- _]. now apply good_reparse.
  - apply file_ok in H. destruct H as [[Hn _] Hc]. cbn [snd] in Hn. assert (forall x y, Forall out_ok (flat_map (clean_item x y) c)) as FM.
    { intros x y. apply Forall_flat_map. unfold data_ok in Hc. rewrite Forall_forall in *. intros t T. apply IH; auto. }
    destruct (length c =? 0)%nat; [constructor|]. destruct (forallb is_dict c); [apply FM|]. constructor; [|apply FM].
    split; [apply one_line_app; split; [apply tabs_blank|apply one_line_app; split; [exact Hn|repeat constructor]]|].
    split; [intros E; apply app_eq_nil in E; destruct E as [_ E]; apply app_eq_nil in E; destruct E; discriminate|].
    left. exists (tabs (Z.of_nat d - da) ++ n). now rewrite app_assoc.
Qed.
Lemma clean_no_banned (fill : nat -> str -> str -> str) header out :
  (forall l i, fill 150%nat l i = l) -> Forall (fun h => line_text h <> []) (splitlines (join newline header)) ->
  clean_header fill header = Ok out ->
  exists body view, out = body ++ view /\ (view = [] \/ exists v, view = [s "VIEW=" ++ v]) /\
    Forall (fun l => (exists a, l = a ++ s ":") \/ forall key val, entry (strip l) key val -> ~ In key [s "pvalue"; s "FORMAT"; s "VIEW"]) body.
Proof.
  intros F N H. unfold clean_header, clean_text, preprocess in H. destruct (preprocess_from h_init (splitlines (join newline header))) as [st|] eqn:E; [|discriminate].
  cbn [bind] in H. inversion H; subst out; clear H. assert (st_ok st) as [S _].
  { eapply preprocess_ok; [| | |exact E]; [apply splitlines_one; constructor|exact N|]. unfold st_ok. split; constructor. }
  assert (Forall out_ok (clean_up (h_files st))) as O.
  { unfold clean_up. apply Forall_flat_map. eapply Forall_impl; [|exact S]. intros t. apply clean_item_ok. }
  assert (map (fun i => fill 150%nat i (wrap_indent i)) (clean_up (h_files st)) = clean_up (h_files st)) as M.
  { rewrite <- (map_id (clean_up (h_files st))) at 2. apply map_ext. intros i. apply F. }
  rewrite M. rewrite splitlines_join.
  - eexists. eexists. split; [reflexivity|]. split; [destruct (h_view st) as [v|]; [right; now exists v|now left]|]. eapply Forall_impl; [|exact O]. intros l (_ & _ & X). exact X.
  - eapply Forall_impl; [|exact O]. now intros l (X & _).
  - eapply Forall_impl; [|exact O]. now intros l (_ & X & _).
Qed.

(** * headers without file blocks *)
Definition plain_line (p : str * str) : str := fst p ++ s "=" ++ snd p.
Lemma wf_text h : wf_hline h -> line_text (print_hline h) = print_hline h /\ is_file (print_hline h) = false.
Proof.
  intros (_ & T & C & _). unfold line_text. rewrite (strip_trimmed _ T), (sub_clasp_none _ C). split; [reflexivity|now apply trimmed_not_file].
Qed.
Definition key_of (h : hline) : str := match h with HPlain k _ => k | HView _ => s "VIEW" | HFormat _ => s "FORMAT" | HPvalue _ => s "pvalue" end.
Lemma wf_split h : wf_hline h -> exists sep, split_key (print_hline h) = (key_of h, sep, match h with HPlain _ v => v | HView v => v | HFormat v => v | HPvalue a => snd (split_key (print_hline h)) end) /\
  match h with HPlain _ _ => sep = s "=" | _ => True end.
Proof.
  intros W. destruct h as [k v|v|v|a]; cbn [print_hline key_of].
  - destruct W as (_ & _ & _ & N & _). exists (s "="). split; [now apply split_key_eq|reflexivity].
  - exists (s "="). split; [|exact I]. change (s "VIEW=" ++ v) with (s "VIEW" ++ s "=" ++ v). apply split_key_eq. cbn. intuition discriminate.
  - exists (s "="). split; [|exact I]. change (s "FORMAT=" ++ v) with (s "FORMAT" ++ s "=" ++ v). apply split_key_eq. cbn. intuition discriminate.
  - destruct W as (_ & T & _ & N). cbn [print_hline] in *. assert (~ In "="%char (s "pvalue " ++ a)) as NE.
    { intros H. cbn in H. repeat (destruct H as [H|H]; [discriminate H|]). contradiction. }
    unfold split_key. rewrite no_eq_existsb by exact NE. change (lstrip (s "pvalue " ++ a)) with (s "pvalue " ++ a).
    change (drop_while (fun c => negb (is_space c)) (s "pvalue " ++ a)) with (s " " ++ a). change (lstrip (s " " ++ a)) with (lstrip a).
    change (take_while (fun c => negb (is_space c)) (s "pvalue " ++ a)) with (s "pvalue").
    destruct (lstrip a) as [|c v] eqn:E.
    + exfalso. destruct T as [_ T]. assert (forall l, lstrip l = [] -> forall c, In c l -> is_space c = true) as LB.
      { induction l as [|d l IH]; intros Q c H; [destruct H|]. cbn [lstrip] in Q. destruct (is_space d) eqn:D; [|discriminate]. destruct H as [->|H]; auto. }
      assert (Forall (fun c => is_space c = true) (rev a)) as FA by (apply Forall_rev, Forall_forall; now apply LB).
      rewrite rev_app_distr in T. destruct (rev a) as [|d r]; [cbn in T; destruct T; discriminate|]. inversion FA; subst. cbn [app] in T. destruct T. congruence.
    + eexists. split; [|exact I]. reflexivity.
Qed.

Definition flat (L : list str) (st : hstate) : Prop :=
  h_files st = map Line L /\ h_vals st = L /\ h_cs st = [].
Lemma promote_flat x L : In x L -> promote x (map Line L) = Ok (map Line L).
Proof.
  intros H. unfold promote. cbn [pop_promote].
  match goal with |- context [fst (?f 0%nat (map Line L))] => assert (forall j, f j (map Line L) = (map Line L, None)) as G end.
  { induction L as [|y L IH]; intros j; [destruct H|]. cbn [map]. destruct (str_eqb y x) eqn:E; [reflexivity|]. apply str_eqb_false in E.
    destruct H as [H|H]; [contradiction|]. now rewrite (IH H). }
  rewrite (G 0%nat). reflexivity.
Qed.
Definition snoc_new (L : list str) (x : str) : list str := if in_strs x L then L else L ++ [x].
Lemma step_flat L st h : flat L st -> wf_hline h -> (match h with HPlain k _ => k <> h_lastkey st \/ L = [] | _ => True end) ->
  exists st', step_line st (print_hline h) = Ok st' /\
    match h with
    | HPlain k v => flat (snoc_new L (plain_line (k, v))) st' /\ h_lastkey st' = k /\ h_view st' = h_view st
    | HView v => flat L st' /\ h_lastkey st' = h_lastkey st /\ h_view st' = Some v
    | _ => flat L st' /\ h_lastkey st' = h_lastkey st /\ h_view st' = h_view st
    end.
Proof.
  intros (Hf & Hv & Hc) W K. unfold step_line. fold (line_text (print_hline h)). destruct (wf_text h W) as [-> ->]. destruct (wf_split h W) as (sep & -> & SEP).
  destruct h as [k v|v|v|a]; cbn [key_of].
  - subst sep. destruct W as (_ & _ & _ & _ & NB). assert (in_strs k [s "pvalue"; s "FORMAT"] = false) as ->.
    { destruct (in_strs k [s "pvalue"; s "FORMAT"]) eqn:E; [|reflexivity]. apply in_strs_true in E. exfalso. apply NB. destruct E as [E|[E|[]]]; [now left|right; now left]. }
    replace (str_eqb k (s "VIEW")) with false by (symmetry; apply str_eqb_false; intros ->; apply NB; right; right; now left).
    replace (str_eqb k (s "...")) with false by (symmetry; apply str_eqb_false; intros ->; apply NB; right; right; right; now left).
    rewrite Hc. cbn [top_id rev content_of orb]. rewrite Hf, map_length, Hv.
    assert (str_eqb k (h_lastkey st) && (0 <? length L)%nat = false) as ->.
    { destruct K as [K| ->]; [now rewrite (proj2 (str_eqb_false _ _) K)|]. cbn [length]. change (0 <? 0)%nat with false. apply andb_false_r. }
    cbn [print_hline]. unfold snoc_new, plain_line. cbn [fst snd]. destruct (in_strs (k ++ s "=" ++ v) L) eqn:E.
    + apply in_strs_true in E. rewrite (promote_flat _ _ E). cbn [bind]. eexists. split; [reflexivity|]. repeat split.
    + eexists. split; [reflexivity|]. change (0 <? @length (nat * nat) [])%nat with false. cbn [andb top_id rev update]. repeat split. cbn [h_files]. now rewrite map_app.
  - eexists. split; [reflexivity|]. repeat split; assumption.
  - eexists. split; [reflexivity|]. repeat split; assumption.
  - eexists. split; [reflexivity|]. repeat split; assumption.
Qed.
Lemma last_of_cons {A} (x : A) l : l <> [] -> last_of (x :: l) = last_of l.
Proof.
  intros H. unfold last_of. cbn [rev]. destruct (rev l) as [|y r] eqn:E; [|reflexivity]. exfalso. apply H. rewrite <- (rev_involutive l), E. reflexivity.
Qed.
Definition view_list (o : option str) : list str := match o with Some v => [v] | None => [] end.
Lemma preprocess_flat hs : forall L st, flat L st -> Forall wf_hline hs -> adjacent_distinct (map fst (plains hs)) ->
  (match plains hs with (k, _) :: _ => k <> h_lastkey st \/ L = [] | [] => True end) ->
  exists st', preprocess_from st (map print_hline hs) = Ok st' /\ flat (fold_left snoc_new (map plain_line (plains hs)) L) st' /\
    view_list (h_view st') = match views hs with [] => view_list (h_view st) | l => last_of l end.
Proof.
  induction hs as [|h hs IH]; intros L st F W A K; cbn [map preprocess_from].
  - exists st. split; [reflexivity|]. split; [exact F|reflexivity].
  - inversion W as [|? ? W1 W2]; subst.
    destruct (step_flat L st h F W1) as (st1 & -> & H). { destruct h; auto. }
    cbn [bind]. destruct h as [k v|v|v|a]; destruct H as (F1 & LK & V); cbn [plains flat_map app map fold_left views] in A, K |- *; fold (plains hs) in A, K |- *; fold (views hs) in *.
    + destruct (IH (snoc_new L (plain_line (k, v))) st1 F1 W2) as (st' & E & F2 & V2).
      * destruct (plains hs) as [|[k2 v2] ps]; [exact I|]. exact (proj2 A).
      * destruct (plains hs) as [|[k2 v2] ps]; [exact I|]. left. rewrite LK. apply not_eq_sym. exact (proj1 A).
      * exists st'. split; [exact E|]. split; [exact F2|]. rewrite V2, V. reflexivity.
    + destruct (IH L st1 F1 W2 A) as (st' & E & F2 & V2). { rewrite LK. exact K. }
      exists st'. split; [exact E|]. split; [exact F2|]. rewrite V2, V. destruct (views hs) eqn:Q; [reflexivity|]. symmetry. apply last_of_cons. discriminate.
    + destruct (IH L st1 F1 W2 A) as (st' & E & F2 & V2). { rewrite LK. exact K. }
      exists st'. split; [exact E|]. split; [exact F2|]. rewrite V2, V. reflexivity.
    + destruct (IH L st1 F1 W2 A) as (st' & E & F2 & V2). { rewrite LK. exact K. }
      exists st'. split; [exact E|]. split; [exact F2|]. rewrite V2, V. reflexivity.
Qed.
Lemma dedup_snoc l x : dedup (l ++ [x]) = snoc_new (dedup l) x.
Proof.
  unfold dedup, snoc_new. rewrite rev_app_distr. cbn [rev app nodup].
  assert (in_strs x (rev (nodup (list_eq_dec ascii_dec) (rev l))) = if in_dec (list_eq_dec ascii_dec) x (rev l) then true else false) as ->.
  { destruct (in_dec (list_eq_dec ascii_dec) x (rev l)) as [H|H].
    - apply in_strs_true. apply in_rev. rewrite rev_involutive. now apply nodup_In.
    - apply in_strs_false. intros Q. apply H. apply in_rev in Q. now apply nodup_In in Q. }
  destruct (in_dec (list_eq_dec ascii_dec) x (rev l)); reflexivity.
Qed.
Lemma dedup_fold l : fold_left snoc_new l [] = dedup l.
Proof.
  rewrite <- (rev_involutive l). generalize (rev l) as r. induction r as [|x r IH]; [reflexivity|]. cbn [rev]. rewrite fold_left_app. cbn [fold_left]. now rewrite IH, dedup_snoc.
Qed.
Lemma dedup_in l x : In x (dedup l) <-> In x l.
Proof. unfold dedup. rewrite <- in_rev, nodup_In, <- in_rev. reflexivity. Qed.
Lemma clean_up_flat L : clean_up (map Line L) = L.
Proof. unfold clean_up. induction L as [|x L IH]; [reflexivity|]. cbn [map flat_map clean_item app]. now rewrite IH. Qed.
Lemma print_nonempty h : wf_hline h -> print_hline h <> [].
Proof. intros (_ & [T _] & _) E. rewrite E in T. exact T. Qed.
Lemma plains_in hs p : In p (plains hs) -> In (HPlain (fst p) (snd p)) hs.
Proof. unfold plains. rewrite in_flat_map. intros (h & H & Q). destruct h; cbn in Q; try contradiction. destruct Q as [<-|[]]. exact H. Qed.
Lemma clean_flat_text (fill : nat -> str -> str -> str) width hs :
  fills fill -> Forall wf_hline hs -> Forall (fun p => (length (fst p ++ s "=" ++ snd p) <= width)%nat) (plains hs) -> adjacent_distinct (map fst (plains hs)) ->
  clean_text fill width (join newline (map print_hline hs)) =
  Ok (dedup (map (fun p => fst p ++ s "=" ++ snd p) (plains hs)) ++ map (fun v => s "VIEW=" ++ v) (last_of (views hs))).
Proof.
  intros F W N A. unfold clean_text, preprocess. rewrite splitlines_join.
  2:{ apply Forall_map. eapply Forall_impl; [|exact W]. intros h H. apply H. }
  2:{ apply Forall_map. eapply Forall_impl; [|exact W]. intros h H. now apply print_nonempty. }
  destruct (preprocess_flat hs [] h_init) as (st & -> & (Hf & _ & _) & V); auto.
  { repeat split. } { destruct (plains hs) as [|[k v] ps]; auto. }
  cbn [bind]. rewrite Hf, dedup_fold, clean_up_flat.
  fold plain_line. change (fun p : str * str => fst p ++ s "=" ++ snd p) with plain_line.
  assert (forall x, In x (dedup (map plain_line (plains hs))) -> exists h, In h hs /\ x = print_hline h /\ (length x <= width)%nat) as P.
  { intros x X. apply dedup_in, in_map_iff in X. destruct X as (p & <- & X). rewrite Forall_forall in N. specialize (N p X).
    apply plains_in in X. exists (HPlain (fst p) (snd p)). auto. }
  assert (map (fun i => fill width i (wrap_indent i)) (dedup (map plain_line (plains hs))) = dedup (map plain_line (plains hs))) as ->.
  { rewrite <- (map_id (dedup _)) at 2. apply map_ext_in. intros x X. destruct (P x X) as (h & _ & _ & B). now apply F. }
  rewrite splitlines_join.
  - f_equal. f_equal. cbn [h_view h_init view_list] in V. destruct (h_view st) as [v|]; cbn [view_list] in V; destruct (views hs) as [|w ws]; try discriminate.
    + now rewrite <- V.
    + reflexivity.
    + rewrite <- V. reflexivity.
  - apply Forall_forall. intros x X. destruct (P x X) as (h & H & -> & _). rewrite Forall_forall in W. apply (W h H).
  - apply Forall_forall. intros x X. destruct (P x X) as (h & H & -> & _). rewrite Forall_forall in W. apply print_nonempty, (W h H).
Qed.
Lemma dedup_nodup l : NoDup l -> dedup l = l.
Proof. intros H. unfold dedup. rewrite nodup_fixed_point by now apply NoDup_rev. apply rev_involutive. Qed.
