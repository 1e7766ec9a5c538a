From Coq Require Import Ascii String Lia.
From Verif Require Import Base L_Base M_Translate M_Mapper M_Utility M_Header S_Header L_Header L_Header2 L_Header3.
Import ListNotations.
Local Open Scope list_scope.

(** * headers with file blocks one level deep *)
Definition shallow (b : nat) (t : item) : Prop :=
  match t with Line _ => True | File i _ _ c => (0 < i < b)%nat /\ exists L, c = map Line L end.
Lemma on_content_lines id f L : map (on_content id f) (map Line L) = map Line L.
Proof. rewrite map_map. reflexivity. Qed.
Lemma on_content_shallow id f F : Forall (shallow id) F -> map (on_content id f) F = F.
Proof.
  intros H. rewrite <- (map_id F) at 2. apply map_ext_in. intros t T. rewrite Forall_forall in H. specialize (H t T). destruct t as [l|i n d c]; [reflexivity|].
  destruct H as [B [L ->]]. cbn [on_content]. replace (i =? id)%nat with false by (symmetry; apply Nat.eqb_neq; lia). now rewrite on_content_lines.
Qed.
Lemma shallow_le a b t : (a <= b)%nat -> shallow a t -> shallow b t.
Proof. intros H. destruct t; [auto|]. intros [B L]. split; [lia|exact L]. Qed.
Lemma find_lines id L : (fix go l := match l with [] => None | t :: l => match find_content id t with Some c => Some c | None => go l end end) (map Line L) = None.
Proof. induction L as [|x L IH]; [reflexivity|]. exact IH. Qed.
Lemma content_last F id n L : Forall (shallow id) F -> (0 < id)%nat ->
  content_of (Some id) (F ++ [File id n 0 (map Line L)]) = map Line L.
Proof.
  intros H P. unfold content_of. cbn [find_content]. replace (0 =? id)%nat with false by (symmetry; apply Nat.eqb_neq; lia).
  match goal with |- context [?f (F ++ ?l)] => assert (f (F ++ l) = Some (map Line L)) as E end.
  { induction F as [|t F IH]; cbn [app].
    - cbn [find_content]. now rewrite Nat.eqb_refl.
    - inversion H as [|? ? H1 H2]; subst. destruct t as [l|i n' d c]; [apply IH, H2|]. destruct H1 as [B [L' ->]]. cbn [find_content].
      replace (i =? id)%nat with false by (symmetry; apply Nat.eqb_neq; lia). rewrite find_lines. apply IH, H2. }
  rewrite E. reflexivity.
Qed.

(** the state: the outer list, and the open block when there is one *)
Definition opened (F : list item) (cur : option (nat * str * list str)) (st : hstate) : Prop :=
  match cur with
  | None => h_files st = F /\ h_cs st = [] /\ Forall (shallow (h_next st)) F
  | Some (id, n, L) => h_files st = F ++ [File id n 0 (map Line L)] /\ h_cs st = [(id, 0%nat)] /\ Forall (shallow id) F /\ (0 < id < h_next st)%nat
  end /\ (0 < h_next st)%nat.
Definition cur_len (F : list item) (cur : option (nat * str * list str)) : nat := match cur with None => length F | Some (_, _, L) => length L end.
Lemma opened_content F cur st : opened F cur st -> length (content_of (top_id (h_cs st)) (h_files st)) = cur_len F cur.
Proof.
  destruct cur as [[[id n] L]|]; intros [H _].
  - destruct H as (-> & -> & S & B). cbn [top_id rev fst app]. rewrite content_last by (auto; lia). cbn [cur_len]. apply map_length.
  - destruct H as (-> & -> & _). reflexivity.
Qed.

Definition printed (inner : bool) (h : hline) : str := (if inner then tab else []) ++ print_hline h.
Lemma trimmed_first l : trimmed l -> exists c r, l = c :: r /\ is_space c = false.
Proof. intros [T _]. destruct l as [|c r]; [destruct T|]. eauto. Qed.
Lemma printed_text inner h : wf_hline h -> line_text (printed inner h) = print_hline h /\ depth_of (printed inner h) = if inner then 1%nat else 0%nat.
Proof.
  intros W. pose proof W as (_ & T & _). destruct (wf_text h W) as [E _]. destruct (trimmed_first _ T) as (c & r & Q & C). split.
  - unfold printed. destruct inner; [|exact E]. unfold line_text in *. rewrite <- E at 2. f_equal.
  - unfold printed, depth_of. destruct inner; cbn [app tab]; rewrite Q.
    + cbn [take_while]. change (is_space "009") with true. cbv iota. rewrite C. reflexivity.
    + cbn [take_while]. now rewrite C.
Qed.
Definition same_rest (st st' : hstate) : Prop := h_lastkey st' = h_lastkey st /\ h_vals st' = h_vals st /\ h_next st' = h_next st /\ h_files st' = h_files st /\ h_cs st' = h_cs st.
Lemma step_section F cur st inner h : opened F cur st -> wf_hline h -> (inner = true -> cur <> None) ->
  (match h with HPlain k v => (k <> h_lastkey st \/ cur_len F cur = 0%nat) /\ ~ In (pair_line (k, v)) (h_vals st) | _ => True end) ->
  exists st', step_line st (printed inner h) = Ok st' /\
    match h with
    | HPlain k v => h_lastkey st' = k /\ h_vals st' = h_vals st ++ [pair_line (k, v)] /\ h_view st' = h_view st /\
        (if inner then match cur with Some (id, n, L) => opened F (Some (id, n, L ++ [pair_line (k, v)])) st' | None => False end
         else opened (h_files st ++ [Line (pair_line (k, v))]) None st')
    | HView v => same_rest st st' /\ h_view st' = Some v
    | _ => same_rest st st' /\ h_view st' = h_view st
    end.
Proof.
  intros O W I K. unfold step_line. fold (line_text (printed inner h)). destruct (printed_text inner h W) as [-> ->]. destruct (wf_text h W) as [_ ->]. destruct (wf_split h W) as (sep & -> & SEP).
  destruct h as [k v|v|v|a]; cbn [key_of].
  - subst sep. destruct W as (_ & _ & _ & _ & NB). assert (in_strs k [s "pvalue"; s "FORMAT"] = false) as ->.
    { destruct (in_strs k [s "pvalue"; s "FORMAT"]) eqn:E; [|reflexivity]. apply in_strs_true in E. exfalso. apply NB. destruct E as [E|[E|[]]]; [now left|right; now left]. }
    replace (str_eqb k (s "VIEW")) with false by (symmetry; apply str_eqb_false; intros ->; apply NB; right; right; now left).
    replace (str_eqb k (s "...")) with false by (symmetry; apply str_eqb_false; intros ->; apply NB; right; right; right; now left).
    cbn [orb print_hline]. rewrite (opened_content F cur st O). destruct K as [K NV].
    assert (str_eqb k (h_lastkey st) && (0 <? cur_len F cur)%nat = false) as ->.
    { destruct K as [K| ->]; [now rewrite (proj2 (str_eqb_false _ _) K)|]. change (0 <? 0)%nat with false. apply andb_false_r. }
    unfold pair_line in *. cbn [fst snd] in *. rewrite (proj2 (in_strs_false _ _) NV). eexists. split; [reflexivity|]. cbn [h_lastkey h_vals h_view]. repeat (split; [reflexivity|]).
    destruct O as [O P]. destruct cur as [[[id n] L]|].
    + destruct O as (Hf & Hc & S & B). rewrite Hf, Hc. change (0 <? length [(id, 0)])%nat with true. cbn [andb top_depth rev app snd]. destruct inner.
      * change (1 <=? 0)%nat with false. cbv iota. cbn [top_id rev app fst update]. split; [|exact P]. cbn [h_files h_cs h_next]. split; [|auto].
        rewrite map_app, on_content_shallow by exact S. cbn [map on_content]. rewrite Nat.eqb_refl, map_app. reflexivity.
      * change (0 <=? 0)%nat with true. cbv iota. change (slice_to (- (Z.of_nat 0 - Z.of_nat 0 + 1)) [(id, 0%nat)]) with (@nil (nat * nat)).
        cbn [top_id rev update]. split; [|exact P]. cbn [h_files h_cs h_next]. split; [reflexivity|]. split; [reflexivity|].
        apply Forall_app. split; [apply Forall_app; split|].
        -- eapply Forall_impl; [|exact S]. intros t. apply shallow_le. lia.
        -- constructor; [|constructor]. split; [lia|]. now exists L.
        -- constructor; [exact Logic.I|constructor].
    + destruct inner; [exfalso; now apply I|]. destruct O as (Hf & Hc & S). rewrite Hf, Hc. cbn [length andb top_id rev update].
      change (0 <? 0)%nat with false. cbn [andb top_id rev update]. split; [|exact P]. cbn [h_files h_cs h_next]. split; [reflexivity|]. split; [reflexivity|].
      apply Forall_app. split; [exact S|]. constructor; [exact Logic.I|constructor].
  - eexists. split; [reflexivity|]. repeat split.
  - eexists. split; [reflexivity|]. repeat split.
  - eexists. split; [reflexivity|]. repeat split.
Qed.
Lemma opened_same F cur st st' : same_rest st st' -> opened F cur st -> opened F cur st'.
Proof. intros (_ & _ & N & A & B). unfold opened. destruct cur as [[[id n] L]|]; rewrite N, A, B; auto. Qed.

(** a file line *)
Lemma step_name F cur st n : opened F cur st -> wf_name n ->
  exists st', step_line st (n ++ s ":") = Ok st' /\ opened (h_files st) (Some (h_next st, n, [])) st' /\
    h_lastkey st' = h_lastkey st /\ h_vals st' = h_vals st /\ h_view st' = h_view st.
Proof.
  intros O (_ & T & C & NS). destruct (trimmed_first n T) as (c & r & Q & SP). unfold step_line.
  assert (strip (n ++ s ":") = n ++ s ":") as ->.
  { unfold strip. rewrite Q. cbn [app]. rewrite lstrip_nonblank by exact SP. change (c :: r ++ s ":") with ((c :: r) ++ s ":").
    rewrite rev_app_distr. cbn [rev app list_ascii_of_string]. rewrite lstrip_nonblank by reflexivity. cbn [rev]. rewrite rev_app_distr, rev_involutive. reflexivity. }
  rewrite (sub_clasp_none _ C).
  assert (is_file (n ++ s ":") = true) as ->.
  { unfold is_file. rewrite rev_app_distr. cbn [rev app list_ascii_of_string]. destruct (rev n) as [|d l] eqn:E; [|reflexivity]. exfalso.
    apply (f_equal (@rev ascii)) in E. rewrite rev_involutive in E. subst. discriminate. }
  assert (depth_of (n ++ s ":") = 0%nat) as -> by (unfold depth_of; rewrite Q; cbn [app take_while]; now rewrite SP).
  assert (file_name (n ++ s ":") = n) as FN.
  { unfold file_name. rewrite rev_app_distr. change (rev (s ":") ++ rev n) with (":"%char :: rev n). cbn [take_while]. change (negb (char_eqb ":" "/")) with true. cbv iota.
    assert (take_while (fun c => negb (char_eqb c "/")) (rev n) = rev n) as ->.
    { assert (Forall (fun c => negb (char_eqb c "/") = true) (rev n)) as A.
      { apply Forall_forall. intros d D. apply in_rev in D. apply negb_true_iff, char_eqb_false. intros ->. contradiction. }
      pose proof (take_while_app _ (rev n) [] A Logic.I) as [E _]. now rewrite app_nil_r in E. }
    cbn [rev]. rewrite rev_involutive. apply removelast_last. }
  eexists. split; [reflexivity|]. unfold step_file. rewrite FN. cbn [h_lastkey h_vals h_view]. split; [|auto].
  destruct O as [O P]. assert ((if (length (h_cs st) =? 0)%nat then h_cs st else if (top_depth (h_cs st) <? 0)%nat then h_cs st else slice_to (- (Z.of_nat 0 - Z.of_nat (top_depth (h_cs st)) + 1)) (h_cs st)) = []) as ->.
  { destruct cur as [[[id n'] L]|]; destruct O as (_ & -> & _); reflexivity. }
  cbn [top_id rev update app]. split; [|cbn [h_next]; lia]. cbn [h_files h_cs h_next]. split; [reflexivity|]. split; [reflexivity|]. split; [|lia].
  destruct cur as [[[id n'] L]|].
  - destruct O as (-> & _ & S & B). apply Forall_app. split; [eapply Forall_impl; [|exact S]; intros t; apply shallow_le; lia|]. constructor; [|constructor]. split; [lia|now exists L].
  - destruct O as (-> & _ & S). exact S.
Qed.

Lemma plains_cons h ls : plains (h :: ls) = plains [h] ++ plains ls.
Proof. unfold plains. cbn [flat_map]. now rewrite app_nil_r. Qed.
Lemma views_cons h ls : views (h :: ls) = views [h] ++ views ls.
Proof. unfold views. cbn [flat_map]. now rewrite app_nil_r. Qed.
Definition next_view (o : option str) (vs : list str) : list str := last_of (view_list o ++ vs).
Lemma next_view_cons o v vs : next_view o (v :: vs) = next_view (Some v) vs.
Proof. unfold next_view. destruct o as [w|]; [|reflexivity]. cbn [view_list app]. apply last_of_cons. discriminate. Qed.

(** the lines of a block *)
Lemma block_lines ls : forall F id n L st, opened F (Some (id, n, L)) st -> Forall wf_hline ls -> adjacent_distinct (map fst (plains ls)) ->
  (match plains ls with (k, _) :: _ => k <> h_lastkey st \/ L = [] | [] => True end) -> NoDup (h_vals st ++ map pair_line (plains ls)) ->
  exists st', preprocess_from st (map (fun h => tab ++ print_hline h) ls) = Ok st' /\ opened F (Some (id, n, L ++ map pair_line (plains ls))) st' /\
    h_vals st' = h_vals st ++ map pair_line (plains ls) /\ view_list (h_view st') = next_view (h_view st) (views ls) /\
    h_lastkey st' = last (map fst (plains ls)) (h_lastkey st).
Proof.
  induction ls as [|h ls IH]; intros F id n L st O W A K ND.
  - exists st. cbn [map preprocess_from plains flat_map views last]. rewrite !app_nil_r. repeat split; try apply O; auto. unfold next_view. cbn [views flat_map]. rewrite app_nil_r. destruct (h_view st); reflexivity.
  - inversion W as [|? ? W1 W2]; subst. cbn [map preprocess_from].
    destruct (step_section F (Some (id, n, L)) st true h O W1) as (st1 & E & H); [discriminate| |].
    { destruct h as [k v| | |]; auto. cbn [plains flat_map app] in K, ND. split.
      - destruct K as [K| ->]; [now left|right; reflexivity].
      - cbn [map] in ND. apply NoDup_remove_2 in ND. intros Q. apply ND, in_or_app. now left. }
    change (tab ++ print_hline h) with (printed true h). rewrite E. cbn [bind]. rewrite plains_cons, views_cons. rewrite plains_cons in A, K, ND.
    destruct h as [k v|v|v|a]; cbn [plains views flat_map app] in *; fold (plains ls) in *; fold (views ls) in *.
    + destruct H as (LK & V & VW & O1). destruct (IH F id n _ st1 O1 W2) as (st' & E' & O2 & V2 & VW2 & LK2).
      * destruct (plains ls) as [|[k2 v2] ps]; [exact Logic.I|]. exact (proj2 A).
      * destruct (plains ls) as [|[k2 v2] ps]; [exact Logic.I|]. left. rewrite LK. apply not_eq_sym. exact (proj1 A).
      * rewrite V, <- app_assoc. exact ND.
      * exists st'. split; [exact E'|]. cbn [map]. rewrite <- app_assoc in O2. split; [exact O2|]. rewrite V2, V, <- app_assoc. split; [reflexivity|].
        rewrite VW2, VW. split; [reflexivity|]. rewrite LK2, LK. cbn [fst]. destruct (map fst (plains ls)) as [|x l]; [reflexivity|].
        clear. revert x. induction l as [|y l IH]; intros x; [reflexivity|]. exact (IH y).
    + destruct H as (SR & VW). pose proof (opened_same _ _ _ _ SR O) as O1. destruct SR as (LK & V & _). destruct (IH F id n L st1 O1 W2 A) as (st' & E' & O2 & V2 & VW2 & LK2).
      * rewrite LK. exact K.
      * rewrite V. exact ND.
      * exists st'. rewrite V in V2. rewrite LK in LK2. split; [exact E'|]. split; [exact O2|]. split; [exact V2|]. split; [|exact LK2]. rewrite VW2, VW. symmetry. apply next_view_cons.
    + destruct H as (SR & VW). pose proof (opened_same _ _ _ _ SR O) as O1. destruct SR as (LK & V & _). destruct (IH F id n L st1 O1 W2 A) as (st' & E' & O2 & V2 & VW2 & LK2).
      * rewrite LK. exact K.
      * rewrite V. exact ND.
      * exists st'. rewrite V in V2. rewrite LK in LK2. split; [exact E'|]. split; [exact O2|]. split; [exact V2|]. split; [|exact LK2]. now rewrite VW2, VW.
    + destruct H as (SR & VW). pose proof (opened_same _ _ _ _ SR O) as O1. destruct SR as (LK & V & _). destruct (IH F id n L st1 O1 W2 A) as (st' & E' & O2 & V2 & VW2 & LK2).
      * rewrite LK. exact K.
      * rewrite V. exact ND.
      * exists st'. rewrite V in V2. rewrite LK in LK2. split; [exact E'|]. split; [exact O2|]. split; [exact V2|]. split; [|exact LK2]. now rewrite VW2, VW.
Qed.
Lemma last_last_of {A} (l : list A) d : l <> [] -> last_of l = [last l d].
Proof.
  intros H. destruct (exists_last H) as (l' & x & ->). rewrite last_last. unfold last_of. rewrite rev_app_distr. reflexivity.
Qed.
Lemma clean_block id n L : clean_item (-1) 0 (File id n 0 (map Line L)) = match L with [] => [] | _ => (n ++ s ":") :: map (fun x => tab ++ x) L end.
Proof.
  cbn [clean_item]. destruct L as [|x L]; [reflexivity|]. cbn [map length Nat.eqb forallb is_dict andb]. f_equal.
  cbn [flat_map clean_item app]. f_equal. induction L as [|y L IH]; [reflexivity|]. cbn [map flat_map clean_item app]. f_equal. exact IH.
Qed.
Lemma clean_up_app a b : clean_up (a ++ b) = clean_up a ++ clean_up b.
Proof. apply flat_map_app. Qed.

Definition key_inv (last : option str) F cur st : Prop := match last with Some k => h_lastkey st = k | None => cur_len F cur = 0%nat end.
Lemma preprocess_sections secs : forall F cur last st, opened F cur st -> Forall wf_section secs -> fresh_keys last secs -> key_inv last F cur st ->
  NoDup (h_vals st ++ map pair_line (plains (flat_map lines_of secs))) ->
  exists st', preprocess_from st (flat_map print_section secs) = Ok st' /\
    clean_up (h_files st') = clean_up (h_files st) ++ flat_map kept_section secs /\
    view_list (h_view st') = next_view (h_view st) (views (flat_map lines_of secs)).
Proof.
  assert (forall a b, plains (a ++ b) = plains a ++ plains b) as PA by (intros; apply flat_map_app).
  assert (forall a b, views (a ++ b) = views a ++ views b) as VA by (intros; apply flat_map_app).
  assert (forall a b st, preprocess_from st (a ++ b) = bind (preprocess_from st a) (fun st => preprocess_from st b)) as PP.
  { intros a. induction a as [|x a IH]; intros b st; cbn [app preprocess_from bind]; [reflexivity|]. destruct (step_line st x); cbn [bind]; auto. }
  induction secs as [|x secs IH]; intros F cur lst st O W FK KI ND.
  - exists st. cbn [flat_map preprocess_from]. rewrite app_nil_r. repeat split. unfold next_view. cbn [views flat_map]. rewrite app_nil_r. destruct (h_view st); reflexivity.
  - inversion W as [|? ? W1 W2]; subst. cbn [flat_map] in *. rewrite PP. rewrite PA in ND. rewrite VA. destruct x as [h|n ls]; cbn [print_section lines_of wf_section] in *.
    + destruct (step_section F cur st false h O W1) as (st1 & E & H); [discriminate| |].
      { destruct h as [k v| | |]; auto. cbn [plains flat_map app map] in ND. split.
        - unfold key_inv in KI. destruct lst as [k0|]; [left|now right]. destruct FK as [FK _]. congruence.
        - apply NoDup_remove_2 in ND. intros Q. apply ND, in_or_app. now left. }
      cbn [preprocess_from]. change (print_hline h) with (printed false h). rewrite E. cbn [bind].
      destruct h as [k v|v|v|a]; cbn [plains views flat_map app kept_section map fresh_keys] in *; fold (plains (flat_map lines_of secs)) in *; fold (views (flat_map lines_of secs)) in *.
      * destruct H as (LK & V & VW & O1). destruct FK as [_ FK]. destruct (IH _ None (Some k) st1 O1 W2 FK) as (st' & E' & C & VW2).
        -- exact LK.
        -- rewrite V, <- app_assoc. exact ND.
        -- exists st'. split; [exact E'|]. split.
           ++ rewrite C. destruct O1 as [(-> & _) _]. rewrite clean_up_app, <- app_assoc. reflexivity.
           ++ now rewrite VW2, VW.
      * destruct H as (SR & VW). pose proof (opened_same _ _ _ _ SR O) as O1. pose proof SR as (LK & V & _ & HF & _). destruct (IH F cur lst st1 O1 W2 FK) as (st' & E' & C & VW2).
        -- unfold key_inv in *. destruct lst; [now rewrite LK|exact KI].
        -- rewrite V. exact ND.
        -- exists st'. rewrite HF in C. split; [exact E'|]. split; [exact C|]. rewrite VW2, VW. symmetry. apply next_view_cons.
      * destruct H as (SR & VW). pose proof (opened_same _ _ _ _ SR O) as O1. pose proof SR as (LK & V & _ & HF & _). destruct (IH F cur lst st1 O1 W2 FK) as (st' & E' & C & VW2).
        -- unfold key_inv in *. destruct lst; [now rewrite LK|exact KI].
        -- rewrite V. exact ND.
        -- exists st'. rewrite HF in C. split; [exact E'|]. split; [exact C|]. now rewrite VW2, VW.
      * destruct H as (SR & VW). pose proof (opened_same _ _ _ _ SR O) as O1. pose proof SR as (LK & V & _ & HF & _). destruct (IH F cur lst st1 O1 W2 FK) as (st' & E' & C & VW2).
        -- unfold key_inv in *. destruct lst; [now rewrite LK|exact KI].
        -- rewrite V. exact ND.
        -- exists st'. rewrite HF in C. split; [exact E'|]. split; [exact C|]. now rewrite VW2, VW.
    + destruct W1 as [WN WL]. destruct FK as [AD FK]. destruct (step_name F cur st n O WN) as (st1 & E & O1 & LK & V & VW). cbn [preprocess_from]. rewrite E. cbn [bind].
      rewrite map_app, app_assoc in ND.
      destruct (block_lines ls _ _ _ _ st1 O1 WL AD) as (st2 & E2 & O2 & V2 & VW2 & LK2).
      { destruct (plains ls) as [|[k v] ps]; auto. }
      { rewrite V. clear -ND. revert ND. generalize (h_vals st ++ map pair_line (plains ls)) as a. generalize (map pair_line (plains (flat_map lines_of secs))) as b. clear. intros b a. induction a as [|x a IHa]; intros ND; [constructor|]. inversion ND; subst. constructor; [intros Q; apply H1, in_or_app; now left|auto]. }
      rewrite E2. cbn [bind]. cbn [app] in O2. destruct (IH _ _ _ st2 O2 W2 FK) as (st' & E' & C & VW3).
      * unfold key_inv. destruct (plains ls) as [|p ps] eqn:Q; [reflexivity|]. rewrite (last_last_of (map fst (p :: ps)) (h_lastkey st1)) by discriminate. exact LK2.
      * rewrite V2, V. exact ND.
      * exists st'. split; [exact E'|]. split.
        -- rewrite C. destruct O2 as [(-> & _) _]. rewrite clean_up_app, <- app_assoc. f_equal. f_equal. unfold clean_up. cbn [flat_map]. rewrite app_nil_r, clean_block.
           cbn [kept_section]. destruct (plains ls) as [|p ps]; [reflexivity|]. cbn [map]. f_equal. f_equal. now rewrite map_map.
        -- rewrite VW3. unfold next_view. rewrite VW2, VW. unfold next_view. rewrite app_assoc. clear. generalize (views (flat_map lines_of secs)) as b. generalize (view_list (h_view st) ++ views ls) as a.
           intros a b. destruct b as [|y b].
           ++ rewrite !app_nil_r. unfold last_of. destruct (rev a); reflexivity.
           ++ assert (forall a, last_of (a ++ y :: b) = last_of (y :: b)) as L. { induction a0 as [|z a0 IH]; [reflexivity|]. cbn [app]. rewrite last_of_cons; [exact IH|]. intros Q. apply app_eq_nil in Q. destruct Q; discriminate. }
              now rewrite !L.
Qed.
Lemma sections_lines secs : Forall wf_section secs -> Forall one_line (flat_map print_section secs) /\ Forall (fun l => l <> []) (flat_map print_section secs).
Proof.
  intros W. rewrite !Forall_flat_map. split; (eapply Forall_impl; [|exact W]); intros x X; destruct x as [h|n ls]; cbn [print_section wf_section] in *.
  - constructor; [apply X|constructor].
  - destruct X as [(N & _) L]. constructor; [apply one_line_app; split; [exact N|repeat constructor]|]. apply Forall_map. eapply Forall_impl; [|exact L]. intros h H. apply one_line_app. split; [repeat constructor|apply H].
  - constructor; [now apply print_nonempty|constructor].
  - constructor; [destruct n; discriminate|]. apply Forall_map, Forall_forall. discriminate.
Qed.
Lemma clean_sections (fill : nat -> str -> str -> str) secs : fills fill -> Forall wf_section secs -> fresh_keys None secs ->
  NoDup (map pair_line (plains (flat_map lines_of secs))) -> Forall (fun l => (length l <= 150)%nat) (flat_map kept_section secs) ->
  clean_header fill (flat_map print_section secs) =
  Ok (flat_map kept_section secs ++ map (fun v => s "VIEW=" ++ v) (last_of (views (flat_map lines_of secs)))).
Proof.
  intros F W K ND N. unfold clean_header, clean_text, preprocess. destruct (sections_lines secs W) as [O1 O2]. rewrite splitlines_join by assumption.
  destruct (preprocess_sections secs [] None None h_init) as (st & -> & C & V); auto.
  { split; [|cbn; lia]. repeat split. constructor. }
  { reflexivity. }
  cbn [bind]. change (clean_up (h_files h_init)) with (@nil str) in C. cbn [app] in C. rewrite C.
  assert (map (fun i => fill 150%nat i (wrap_indent i)) (flat_map kept_section secs) = flat_map kept_section secs) as ->.
  { rewrite <- (map_id (flat_map kept_section secs)) at 2. apply map_ext_in. intros x X. apply F. rewrite Forall_forall in N. now apply N. }
  assert (forall x, In x (flat_map kept_section secs) -> In x (flat_map print_section secs)) as SUB.
  { intros x X. apply in_flat_map in X. destruct X as (e & E & X). apply in_flat_map. exists e. split; [exact E|]. destruct e as [h|n ls]; cbn [kept_section print_section] in *.
    - apply in_map_iff in X. destruct X as (p & <- & P). apply plains_in in P. destruct P as [P|[]]. left. rewrite P. reflexivity.
    - destruct (plains ls) as [|p ps] eqn:Q; [destruct X|]. rewrite <- Q in X. destruct X as [<-|X]; [now left|]. right. apply in_map_iff in X. destruct X as (q & <- & P).
      apply plains_in in P. apply in_map_iff. exists (HPlain (fst q) (snd q)). auto. }
  rewrite splitlines_join.
  - f_equal. f_equal. unfold next_view in V. cbn [h_view h_init view_list app] in V. destruct (h_view st) as [v|]; cbn [view_list] in V; rewrite <- V; reflexivity.
  - apply Forall_forall. intros x X. rewrite Forall_forall in O1. now apply O1, SUB.
  - apply Forall_forall. intros x X. rewrite Forall_forall in O2. now apply O2, SUB.
Qed.
