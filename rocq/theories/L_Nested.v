From Coq Require Import Ascii String Lia.
From Verif Require Import Base L_Base M_Translate M_Mapper M_Utility M_Header S_Header L_Header L_Header2 L_Header3 L_Header5 S_Nested.
Import ListNotations.
Local Open Scope list_scope.

Fixpoint hnode_ind' (P : hnode -> Prop) (HE : forall h, P (Entry h)) (HC : forall p a, P (Command p a))
  (HN : forall n c, Forall P c -> P (Nested n c)) (x : hnode) : P x :=
  match x with
  | Entry h => HE h
  | Command p a => HC p a
  | Nested n c => HN n c ((fix go l : Forall P l := match l with [] => Forall_nil P | y :: l => Forall_cons y (hnode_ind' P HE HC HN y) (go l) end) c)
  end.

(** * the open files as a path *)
Fixpoint below (b : nat) (t : item) : Prop :=
  match t with Line _ => True | File i _ _ c => (0 < i < b)%nat /\ fold_right (fun t P => below b t /\ P) True c end.
Lemma fold_below b c : fold_right (fun t P => below b t /\ P) True c <-> Forall (below b) c.
Proof. induction c as [|t c IH]; cbn [fold_right]; [split; auto|]. rewrite IH. split; [intros [A B]; now constructor|intros H; now inversion H]. Qed.
Lemma below_le a b t : (a <= b)%nat -> below a t -> below b t.
Proof.
  intros L. induction t as [l|i n d c IH] using item_ind'; [auto|]. cbn [below]. rewrite !fold_below. intros [B F]. split; [lia|].
  rewrite Forall_forall in *. intros t T. apply IH; auto.
Qed.
Lemma belows_le a b F : (a <= b)%nat -> Forall (below a) F -> Forall (below b) F.
Proof. intros L. apply Forall_impl. intros t. now apply below_le. Qed.
Lemma on_content_below id f t : below id t -> on_content id f t = t.
Proof.
  induction t as [l|i n d c IH] using item_ind'; [reflexivity|]. cbn [below on_content]. rewrite fold_below. intros [B F].
  replace (i =? id)%nat with false by (symmetry; apply Nat.eqb_neq; lia). f_equal. rewrite <- (map_id c) at 2. apply map_ext_in. intros t T.
  rewrite Forall_forall in *. apply IH; auto.
Qed.
Lemma on_contents_below id f F : Forall (below id) F -> map (on_content id f) F = F.
Proof. intros H. rewrite <- (map_id F) at 2. apply map_ext_in. intros t T. rewrite Forall_forall in H. now apply on_content_below, H. Qed.
Fixpoint find_list (id : nat) (l : list item) : option (list item) :=
  match l with [] => None | t :: l => match find_content id t with Some c => Some c | None => find_list id l end end.
Lemma find_file id i n d c : find_content id (File i n d c) = if (i =? id)%nat then Some c else find_list id c.
Proof. cbn [find_content]. destruct (i =? id)%nat; [reflexivity|]. induction c as [|t c IH]; [reflexivity|]. cbn [find_list]. destruct (find_content id t); [reflexivity|exact IH]. Qed.
Lemma find_below id t : below id t -> find_content id t = None.
Proof.
  induction t as [l|i n d c IH] using item_ind'; [reflexivity|]. rewrite find_file. cbn [below]. rewrite fold_below. intros [B F].
  replace (i =? id)%nat with false by (symmetry; apply Nat.eqb_neq; lia). induction F as [|t c T F IHF]; [reflexivity|]. inversion IH; subst. cbn [find_list]. rewrite H1 by exact T. auto.
Qed.
Lemma find_skip id F l : Forall (below id) F -> find_list id (F ++ l) = find_list id l.
Proof. induction 1 as [|t F T H IH]; [reflexivity|]. cbn [app find_list]. now rewrite find_below. Qed.

Definition frame := (list item * nat * str)%type.
Fixpoint close (C : list item) (Z : list frame) : list item :=
  match Z with [] => C | (F, id, n) :: Z => close (F ++ [File id n (length Z) C]) Z end.
Fixpoint stack (Z : list frame) : list (nat * nat) := match Z with [] => [] | (_, id, _) :: Z => stack Z ++ [(id, length Z)] end.
Fixpoint good_zip (b : nat) (C : list item) (Z : list frame) : Prop :=
  Forall (below b) C /\ match Z with [] => True | (F, id, _) :: Z => (0 < id < b)%nat /\ good_zip id F Z end.
Definition frames_below (b : nat) (Z : list frame) : Prop := Forall (fun f => Forall (below b) (fst (fst f)) /\ (0 < snd (fst f) < b)%nat) Z.
Lemma good_frames Z : forall b C, good_zip b C Z -> frames_below b Z.
Proof.
  induction Z as [|[[F id] n] Z IH]; intros b C G; [constructor|]. destruct G as (_ & B & G). cbn in B. constructor.
  - cbn [fst snd]. split; [|exact B]. apply (belows_le id b); [lia|]. destruct Z; apply G.
  - eapply Forall_impl; [|eapply IH, G]. intros f [A Q]. split; [eapply belows_le; [|exact A]; lia|lia].
Qed.
Lemma on_close id f Z : forall G, frames_below id Z -> map (on_content id f) (close G Z) = close (map (on_content id f) G) Z.
Proof.
  induction Z as [|[[F i] n] Z IH]; intros G H; [reflexivity|]. inversion H as [|? ? [A B] H2]; subst. cbn [fst snd] in *. cbn [close]. rewrite IH by exact H2. f_equal.
  rewrite map_app, on_contents_below by exact A. cbn [map on_content]. now replace (i =? id)%nat with false by (symmetry; apply Nat.eqb_neq; lia).
Qed.
Lemma find_close id Z : forall G, frames_below id Z -> find_list id (close G Z) = find_list id G.
Proof.
  induction Z as [|[[F i] n] Z IH]; intros G H; [reflexivity|]. inversion H as [|? ? [A B] H2]; subst. cbn [fst snd] in *. cbn [close]. rewrite IH by exact H2.
  rewrite find_skip by exact A. cbn [find_list]. rewrite find_file. replace (i =? id)%nat with false by (symmetry; apply Nat.eqb_neq; lia). now destruct (find_list id G).
Qed.

(** the state: content of the innermost open file, and the path to it *)
Definition inz (C : list item) (Z : list frame) (st : hstate) : Prop :=
  h_files st = close C Z /\ h_cs st = stack Z /\ good_zip (h_next st) C Z /\ (0 < h_next st)%nat.
Lemma top_id_stack F id n (Z : list frame) : top_id (stack ((F, id, n) :: Z)) = Some id.
Proof. unfold top_id. cbn [stack]. now rewrite rev_app_distr. Qed.
Lemma top_depth_stack F id n (Z : list frame) : top_depth (stack ((F, id, n) :: Z)) = length Z.
Proof. unfold top_depth. cbn [stack]. now rewrite rev_app_distr. Qed.
Lemma update_top b f C Z : good_zip b C Z -> update (top_id (stack Z)) f (close C Z) = close (f C) Z.
Proof.
  destruct Z as [|[[F id] n] Z]; intros G; [reflexivity|]. rewrite top_id_stack. cbn [update close]. destruct G as (_ & B & G). cbn in B.
  rewrite on_close by (eapply good_frames, G). f_equal. rewrite map_app. f_equal; [apply on_contents_below; destruct Z; apply G|]. cbn [map on_content]. now rewrite Nat.eqb_refl.
Qed.
Lemma content_top b C Z : good_zip b C Z -> content_of (top_id (stack Z)) (close C Z) = C.
Proof.
  destruct Z as [|[[F id] n] Z]; intros G; [reflexivity|]. rewrite top_id_stack. unfold content_of. destruct G as (_ & B & G). cbn in B.
  rewrite find_file. replace (0 =? id)%nat with false by (symmetry; apply Nat.eqb_neq; lia). cbn [close]. rewrite find_close by (eapply good_frames, G).
  rewrite find_skip by (destruct Z; apply G). cbn [find_list]. rewrite find_file, Nat.eqb_refl. reflexivity.
Qed.
Lemma slice_last {A} (l : list A) x : slice_to (- 1) (l ++ [x]) = l.
Proof.
  unfold slice_to. change (- 1 <? 0)%Z with true. cbv iota. rewrite app_length. cbn [length]. replace (Z.to_nat (Z.of_nat (length l + 1) + -1)) with (length l) by lia.
  rewrite firstn_app, Nat.sub_diag, firstn_all. cbn [firstn]. apply app_nil_r.
Qed.
Definition openfile := option (nat * str * list item).
Definition here (d : nat) (C : list item) (cur : openfile) (Z : list frame) (st : hstate) : Prop :=
  length Z = d /\ match cur with None => inz C Z st | Some (id, n, c) => inz c ((C, id, n) :: Z) st end.
Definition all_items (d : nat) (C : list item) (cur : openfile) : list item :=
  C ++ match cur with None => [] | Some (id, n, c) => [File id n d c] end.
Definition top_len (C : list item) (cur : openfile) : nat := match cur with None => length C | Some (_, _, c) => length c end.
Lemma here_content d C cur Z st : here d C cur Z st -> length (content_of (top_id (h_cs st)) (h_files st)) = top_len C cur.
Proof.
  intros [_ H]. destruct cur as [[[id n] c]|]; destruct H as (-> & -> & G & _); rewrite (content_top _ _ _ G); reflexivity.
Qed.
Lemma good_grow b C Z x : good_zip b C Z -> below b x -> good_zip b (C ++ [x]) Z.
Proof. intros G X. destruct Z as [|[[F id] n] Z]; destruct G as [A G]; split; try exact G; apply Forall_app; split; auto. Qed.
Lemma good_mono a b C Z : (a <= b)%nat -> good_zip a C Z -> good_zip b C Z.
Proof. intros L G. destruct Z as [|[[F id] n] Z]; destruct G as [A G]; (split; [now apply (belows_le a)|]); [exact I|]. destruct G as [B G]. split; [lia|exact G]. Qed.
Lemma good_fold b C id n (Z : list frame) c : good_zip b c ((C, id, n) :: Z) -> good_zip b (C ++ [File id n (length Z) c]) Z.
Proof.
  intros (A & B & G). apply good_grow; [apply (good_mono id); [lia|exact G]|]. cbn [below]. rewrite fold_below. split; [exact B|exact A].
Qed.

Lemma print_depth d t : trimmed t -> depth_of (indent d ++ t) = d.
Proof.
  intros T. destruct (trimmed_first _ T) as (c & r & -> & C). unfold depth_of.
  assert (take_while is_space (indent d ++ c :: r) = indent d) as ->.
  { induction d as [|d IH]; cbn [indent repeat app take_while]; [now rewrite C|]. change (is_space "009") with true. cbv iota. now f_equal. }
  induction d as [|d IH]; [reflexivity|]. cbn [indent repeat inset_depth]. change (char_eqb "009" " ") with false. cbv iota. f_equal. exact IH.
Qed.
Lemma strip_indent d t : strip (indent d ++ t) = strip t.
Proof. unfold strip. f_equal. f_equal. f_equal. induction d as [|d IH]; [reflexivity|]. exact IH. Qed.
(** a line that stays *)
Lemma step_kept d C cur Z st t key sep val : here d C cur Z st -> trimmed t -> ~ occurs (s "clasp_tmp") t -> split_key t = (key, sep, val) -> t = key ++ sep ++ val ->
  ~ In key [s "pvalue"; s "FORMAT"; s "VIEW"; s "..."] -> key <> h_lastkey st \/ top_len C cur = 0%nat -> ~ In t (h_vals st) ->
  exists st', step_line st (indent d ++ t) = Ok st' /\ here d (all_items d C cur ++ [Line t]) None Z st' /\ h_vals st' = h_vals st ++ [t] /\ h_view st' = h_view st /\ h_lastkey st' = key.
Proof.
  intros H T CL SK E NB K NV. unfold step_line. rewrite strip_indent, (strip_trimmed _ T), (sub_clasp_none _ CL), (print_depth _ _ T), (trimmed_not_file _ T), SK.
  assert (in_strs key [s "pvalue"; s "FORMAT"] = false) as -> by (apply in_strs_false; intros [Q|[Q|[]]]; apply NB; [now left|right; now left]).
  replace (str_eqb key (s "VIEW")) with false by (symmetry; apply str_eqb_false; intros ->; apply NB; right; right; now left).
  replace (str_eqb key (s "...")) with false by (symmetry; apply str_eqb_false; intros ->; apply NB; right; right; right; now left).
  cbn [orb]. rewrite (here_content _ _ _ _ _ H).
  assert (str_eqb key (h_lastkey st) && (0 <? top_len C cur)%nat = false) as ->.
  { destruct K as [K| ->]; [now rewrite (proj2 (str_eqb_false _ _) K)|]. change (0 <? 0)%nat with false. apply andb_false_r. }
  rewrite (proj2 (in_strs_false _ _) NV), <- E. eexists. split; [reflexivity|]. cbn [h_vals h_view h_lastkey]. split; [|auto].
  destruct H as [LZ H]. split; [exact LZ|]. destruct cur as [[[id n] c]|]; destruct H as (HF & HC & G & P); rewrite HF, HC; unfold all_items.
  - rewrite top_depth_stack, LZ, Nat.leb_refl. cbn [stack]. rewrite app_length. cbn [length]. replace (0 <? length (stack Z) + 1)%nat with true by (symmetry; apply Nat.ltb_lt; lia). cbn [andb].
    replace (- (Z.of_nat d - Z.of_nat d + 1))%Z with (-1)%Z by lia. rewrite slice_last. pose proof (good_fold _ _ _ _ _ _ G) as G2. cbn [close].
    split; [|split; [reflexivity|split; [|exact P]]]; cbn [h_files h_next h_cs].
    + rewrite (update_top _ _ _ _ G2). now rewrite LZ.
    + rewrite <- LZ. apply good_grow; [exact G2|exact I].
  - assert ((0 <? length (stack Z))%nat && (d <=? top_depth (stack Z))%nat = false) as ->.
    { destruct Z as [|[[F id] n] Z]; [reflexivity|]. rewrite top_depth_stack. cbn [length] in LZ. replace (d <=? length Z)%nat with false by (symmetry; apply Nat.leb_gt; lia). apply andb_false_r. }
    rewrite app_nil_r. split; [|split; [reflexivity|split; [|exact P]]]; cbn [h_files h_next h_cs].
    + apply (update_top _ (fun c => c ++ [Line t]) _ _ G).
    + apply good_grow; [exact G|exact I].
Qed.
(** a line that goes *)
Lemma step_dropped d C cur Z st h : here d C cur Z st -> wf_hline h -> dropped (Entry h) ->
  exists st', step_line st (indent d ++ print_hline h) = Ok st' /\ here d C cur Z st' /\ h_vals st' = h_vals st /\ h_lastkey st' = h_lastkey st /\
    view_list (h_view st') = next_view (h_view st) (views [h]).
Proof.
  intros H W D. pose proof W as (_ & T & CL & _). unfold step_line. rewrite strip_indent, (strip_trimmed _ T), (sub_clasp_none _ CL), (print_depth _ _ T), (trimmed_not_file _ T).
  destruct (wf_split h W) as (sep & -> & _).
  assert (forall st', h_files st' = h_files st -> h_cs st' = h_cs st -> h_next st' = h_next st -> here d C cur Z st') as SAME.
  { intros st' A B N. destruct H as [LZ H]. split; [exact LZ|]. destruct cur as [[[id n] c]|]; unfold inz in *; now rewrite A, B, N. }
  assert (view_list (h_view st) = next_view (h_view st) []) as NV by (unfold next_view; rewrite app_nil_r; destruct (h_view st); reflexivity).
  destruct h as [k v|v|v|a]; [destruct D| | |]; cbn [key_of].
  - eexists. split; [reflexivity|]. split; [now apply SAME|]. split; [reflexivity|]. split; [reflexivity|]. cbn [h_view views flat_map app]. rewrite next_view_cons. reflexivity.
  - eexists. split; [reflexivity|]. split; [exact H|]. split; [reflexivity|]. split; [reflexivity|]. exact NV.
  - eexists. split; [reflexivity|]. split; [exact H|]. split; [reflexivity|]. split; [reflexivity|]. exact NV.
Qed.
(** the start of a file *)
Lemma step_open d C cur Z st n : here d C cur Z st -> wf_name n ->
  exists st', step_line st (indent d ++ n ++ s ":") = Ok st' /\ here (S d) [] None ((all_items d C cur, h_next st, n) :: Z) st' /\
    h_lastkey st' = h_lastkey st /\ h_vals st' = h_vals st /\ h_view st' = h_view st.
Proof.
  intros H (_ & T & CL & NS). destruct (trimmed_first n T) as (c & r & Q & SP). unfold step_line.
  assert (strip (indent d ++ n ++ s ":") = n ++ s ":") as ->.
  { rewrite strip_indent. unfold strip. rewrite Q. cbn [app]. rewrite lstrip_nonblank by exact SP. change (c :: r ++ s ":") with ((c :: r) ++ s ":").
    rewrite rev_app_distr. cbn [rev app list_ascii_of_string]. rewrite lstrip_nonblank by reflexivity. cbn [rev]. rewrite rev_app_distr, rev_involutive. reflexivity. }
  rewrite (sub_clasp_none _ CL).
  assert (is_file (n ++ s ":") = true) as ->.
  { unfold is_file. rewrite rev_app_distr. cbn [rev app list_ascii_of_string]. destruct (rev n) as [|e l] eqn:E; [|reflexivity]. exfalso.
    apply (f_equal (@rev ascii)) in E. rewrite rev_involutive in E. subst. discriminate. }
  assert (depth_of (indent d ++ n ++ s ":") = d) as ->.
  { unfold depth_of. rewrite Q. cbn [app]. assert (take_while is_space (indent d ++ c :: r ++ s ":") = indent d) as ->.
    { clear -SP. induction d as [|d IH]; cbn [indent repeat app take_while]; [now rewrite SP|]. change (is_space "009") with true. cbv iota. now f_equal. }
    clear. induction d as [|d IH]; [reflexivity|]. cbn [indent repeat inset_depth]. change (char_eqb "009" " ") with false. cbv iota. f_equal. exact IH. }
  assert (file_name (n ++ s ":") = n) as FN.
  { unfold file_name. rewrite rev_app_distr. change (rev (s ":") ++ rev n) with (":"%char :: rev n). cbn [take_while]. change (negb (char_eqb ":" "/")) with true. cbv iota.
    assert (take_while (fun c => negb (char_eqb c "/")) (rev n) = rev n) as ->.
    { assert (Forall (fun c => negb (char_eqb c "/") = true) (rev n)) as A.
      { apply Forall_forall. intros e D. apply in_rev in D. apply negb_true_iff, char_eqb_false. intros ->. contradiction. }
      pose proof (take_while_app _ (rev n) [] A Logic.I) as [E _]. now rewrite app_nil_r in E. }
    cbn [rev]. rewrite rev_involutive. apply removelast_last. }
  eexists. split; [reflexivity|]. unfold step_file. rewrite FN. cbn [h_lastkey h_vals h_view]. split; [|auto].
  destruct H as [LZ H]. split; [cbn [length]; now rewrite LZ|].
  assert (exists G, all_items d C cur = G /\ good_zip (h_next st) G Z /\ h_files st = close G Z /\ (0 < h_next st)%nat /\
    (if (length (h_cs st) =? 0)%nat then h_cs st else if (top_depth (h_cs st) <? d)%nat then h_cs st else slice_to (- (Z.of_nat d - Z.of_nat (top_depth (h_cs st)) + 1)) (h_cs st)) = stack Z) as (G & EG & GZ & HF & P & ->).
  { exists (all_items d C cur). split; [reflexivity|]. unfold all_items. destruct cur as [[[id n'] c']|]; destruct H as (HF & HC & G & P); rewrite HF, HC.
    - pose proof (good_fold _ _ _ _ _ _ G) as G2. rewrite LZ in G2. split; [exact G2|]. cbn [close]. rewrite LZ. split; [reflexivity|]. split; [exact P|].
      rewrite top_depth_stack, LZ, Nat.ltb_irrefl. cbn [stack]. rewrite app_length. cbn [length]. replace (length (stack Z) + 1 =? 0)%nat with false by (symmetry; apply Nat.eqb_neq; lia).
      replace (- (Z.of_nat d - Z.of_nat d + 1))%Z with (-1)%Z by lia. apply slice_last.
    - rewrite app_nil_r. split; [exact G|]. split; [reflexivity|]. split; [exact P|]. destruct Z as [|[[F id] n'] Z]; [reflexivity|]. rewrite top_depth_stack. cbn [length] in LZ.
      replace (length Z <? d)%nat with true by (symmetry; apply Nat.ltb_lt; lia). now destruct (length _ =? 0)%nat. }
  rewrite EG, HF. split; cbn [h_files h_cs h_next].
  - rewrite (update_top _ _ _ _ GZ). cbn [close]. now rewrite LZ.
  - split; [cbn [stack]; now rewrite LZ|]. split; [|lia]. split; [constructor|]. split; [lia|exact GZ].
Qed.

Lemma preprocess_app a : forall b st, preprocess_from st (a ++ b) = bind (preprocess_from st a) (fun st => preprocess_from st b).
Proof. induction a as [|x a IH]; intros b st; cbn [app preprocess_from bind]; [reflexivity|]. destruct (step_line st x); cbn [bind]; auto. Qed.
Definition cleaned (d : nat) (C : list item) (cur : openfile) : list str := flat_map (clean_item (Z.of_nat d - 1) 0) (all_items d C cur).
Definition key_ok (lst : option str) C (cur : openfile) st : Prop := match lst with Some k => h_lastkey st = k | None => top_len C cur = 0%nat end.
Lemma no_repeat_app l : forall o r, no_repeat (o :: l ++ r) -> no_repeat (o :: l) /\ no_repeat (List.last (o :: l) None :: r).
Proof.
  induction l as [|a l IH]; intros o r H; [split; [split; [destruct o; exact I|exact I]|exact H]|]. cbn [app] in H. destruct H as [A H]. destruct (IH a r H) as [B C]. split; [split; [exact A|exact B]|exact C].
Qed.
Lemma last_cons_app {A} (o : A) l r d : List.last (List.last (o :: l) d :: r) d = List.last (o :: l ++ r) d.
Proof. revert o. induction l as [|a l IH]; intros o; [reflexivity|]. change (List.last (o :: a :: l) d) with (List.last (a :: l) d). rewrite IH. reflexivity. Qed.
Lemma next_view_app o a b w : view_list w = next_view o a -> next_view w b = next_view o (a ++ b).
Proof.
  intros H. unfold next_view in *. rewrite H, app_assoc. generalize (view_list o ++ a) as x. clear. intros x. destruct b as [|y b].
  - rewrite !app_nil_r. unfold last_of. destruct (rev x); reflexivity.
  - assert (forall a, last_of (a ++ y :: b) = last_of (y :: b)) as L. { induction a as [|z a IH]; [reflexivity|]. cbn [app]. rewrite last_of_cons; [exact IH|]. intros Q. apply app_eq_nil in Q. destruct Q; discriminate. }
    now rewrite !L.
Qed.
Lemma nodup_left {A} (a b : list A) : NoDup (a ++ b) -> NoDup a.
Proof. induction a as [|x a IH]; intros N; [constructor|]. inversion N; subst. constructor; [intros Q; apply H1, in_or_app; now left|auto]. Qed.

Definition runs (x : hnode) : Prop := forall d C cur Z st lst, wf_node x -> here d C cur Z st -> no_repeat (lst :: keys_in x) -> key_ok lst C cur st -> NoDup (h_vals st ++ texts_in x) ->
  exists st' C' cur', preprocess_from st (print_node d x) = Ok st' /\ here d C' cur' Z st' /\ cleaned d C' cur' = cleaned d C cur ++ flat_map (print_node d) (kept_part x) /\
    h_vals st' = h_vals st ++ texts_in x /\ view_list (h_view st') = next_view (h_view st) (views_in x) /\ key_ok (List.last (lst :: keys_in x) None) C' cur' st' /\
    (dropped x -> C' = C /\ cur' = cur) /\ (own_line x -> cur' = None /\ exists l, In (Line l) C').
Lemma runs_list ns : Forall runs ns -> forall d C cur Z st lst, Forall wf_node ns -> here d C cur Z st -> no_repeat (lst :: flat_map keys_in ns) -> key_ok lst C cur st ->
  NoDup (h_vals st ++ flat_map texts_in ns) ->
  exists st' C' cur', preprocess_from st (flat_map (print_node d) ns) = Ok st' /\ here d C' cur' Z st' /\ cleaned d C' cur' = cleaned d C cur ++ flat_map (print_node d) (flat_map kept_part ns) /\
    h_vals st' = h_vals st ++ flat_map texts_in ns /\ view_list (h_view st') = next_view (h_view st) (flat_map views_in ns) /\ key_ok (List.last (lst :: flat_map keys_in ns) None) C' cur' st' /\
    (Forall dropped ns -> C' = C /\ cur' = cur) /\
    ((exists a x b, ns = a ++ x :: b /\ own_line x /\ Forall dropped b) -> cur' = None /\ exists l, In (Line l) C').
Proof.
  induction 1 as [|x ns R RS IH]; intros d C cur Z st lst W H NR K ND.
  - exists st, C, cur. cbn [flat_map preprocess_from]. rewrite !app_nil_r. do 4 (split; [auto|]). split.
    + unfold next_view. rewrite app_nil_r. destruct (h_view st); reflexivity.
    + split; [exact K|]. split; [auto|]. intros (a & x & b & Q & _). destruct a; discriminate.
  - inversion W as [|? ? W1 W2]; subst. cbn [flat_map] in *. destruct (no_repeat_app _ _ _ NR) as [NR1 NR2]. rewrite app_assoc in ND.
    destruct (R d C cur Z st lst W1 H NR1 K (nodup_left _ _ ND)) as (st1 & C1 & cur1 & E1 & H1 & CL1 & V1 & VW1 & K1 & D1 & O1).
    rewrite <- V1 in ND. destruct (IH d C1 cur1 Z st1 _ W2 H1 NR2 K1 ND) as (st2 & C2 & cur2 & E2 & H2 & CL2 & V2 & VW2 & K2 & D2 & O2).
    exists st2, C2, cur2. rewrite preprocess_app, E1. cbn [bind]. split; [exact E2|]. split; [exact H2|]. split; [rewrite CL2, CL1, flat_map_app; symmetry; apply app_assoc|].
    split; [rewrite V2, V1; symmetry; apply app_assoc|]. split; [rewrite VW2; now apply next_view_app|]. split; [now rewrite last_cons_app in K2|]. split.
    + intros Q. inversion Q as [|? ? Q1 Q2]; subst. destruct (D1 Q1) as [-> ->]. now apply D2.
    + intros (a & y & b & Q & OL & DB). destruct a as [|a0 a]; cbn [app] in Q; injection Q as -> ->.
      * destruct (O1 OL) as [-> L]. destruct (D2 DB) as [-> ->]. auto.
      * apply O2. exists a, y, b. auto.
Qed.
Lemma tabs_indent d : tabs (Z.of_nat d) = indent d.
Proof. unfold tabs, indent. now rewrite Nat2Z.id. Qed.
Lemma runs_kept x : own_line x -> runs x.
Proof.
  intros OL d C cur Z st lst W H NR K ND.
  assert (exists t key sep val, print_node d x = [indent d ++ t] /\ kept_part x = [x] /\ texts_in x = [t] /\ keys_in x = [Some key] /\ views_in x = [] /\ trimmed t /\ ~ occurs (s "clasp_tmp") t /\ split_key t = (key, sep, val) /\ t = key ++ sep ++ val /\
    ~ In key [s "pvalue"; s "FORMAT"; s "VIEW"; s "..."]) as (t & key & sep & val & E1 & E2 & E3 & E4 & E5 & T & CL & SK & TE & NB).
  { destruct x as [[k v|v|v|a]|p a|n c]; try destruct OL.
    - inversion W as [h WH| |]; subst. pose proof WH as (_ & T & CL & NE & NB). exists (print_hline (HPlain k v)), k, (s "="), v. do 5 (split; [reflexivity|]). split; [exact T|]. split; [exact CL|]. cbn [print_hline]. split; [now apply split_key_eq|]. split; [reflexivity|exact NB].
    - inversion W as [|? ? WC|]; subst. destruct WC as (_ & T & CL & NE & NS & AB & NB). exists (command_line p a), p, (s " "), a. do 5 (split; [reflexivity|]). split; [exact T|]. split; [exact CL|]. split; [|split; [reflexivity|exact NB]].
      destruct a as [|c a]; [destruct AB|]. change (command_line p (c :: a)) with (p ++ " "%char :: [] ++ c :: a) in *. apply split_key_blank; first [reflexivity|exact NE|exact NS|exact AB|constructor|idtac]. intros ->. destruct T as [T _]. discriminate T. }
  rewrite E3 in *. rewrite E4 in *. destruct (step_kept d C cur Z st t key sep val H T CL SK TE NB) as (st' & E & H' & V & VW & LK).
  - destruct NR as [NR _]. unfold key_ok in K. destruct lst as [k|]; [left; congruence|now right].
  - apply NoDup_remove_2 in ND. intros Q. apply ND, in_or_app. now left.
  - exists st', (all_items d C cur ++ [Line t]), None. rewrite E1, E2, E5. cbn [flat_map preprocess_from]. rewrite E, E1. cbn [bind]. split; [reflexivity|]. split; [exact H'|]. split.
    { unfold cleaned. unfold all_items at 1. rewrite app_nil_r, flat_map_app. f_equal. cbn [flat_map clean_item app]. rewrite <- tabs_indent. repeat f_equal. lia. }
    split; [exact V|]. split; [rewrite VW; unfold next_view; rewrite app_nil_r; destruct (h_view st); reflexivity|]. split; [exact LK|]. split.
    + intros D. destruct x as [[]| |]; destruct OL; destruct D.
    + intros _. split; [reflexivity|]. exists t. apply in_or_app. right. now left.
Qed.
Lemma runs_all x : runs x.
Proof.
  induction x as [h|p a|n c IH] using hnode_ind'.
  - destruct (match h with HPlain _ _ => true | _ => false end) eqn:B; [apply runs_kept; destruct h; try discriminate; exact I|].
    assert (dropped (Entry h)) as D by (destruct h; [discriminate|exact I|exact I|exact I]).
    intros d C cur Z st lst W H NR K ND. inversion W as [? WH| |]; subst. destruct (step_dropped d C cur Z st h H WH D) as (st' & E & H' & V & LK & VW).
    exists st', C, cur. assert (texts_in (Entry h) = []) as -> by (destruct h; [destruct D|reflexivity|reflexivity|reflexivity]).
    assert (keys_in (Entry h) = []) as -> by (destruct h; [destruct D|reflexivity|reflexivity|reflexivity]). assert (kept_part (Entry h) = []) as -> by (destruct h; [destruct D|reflexivity|reflexivity|reflexivity]).
    cbn [print_node preprocess_from flat_map]. rewrite E, !app_nil_r. cbn [bind]. split; [reflexivity|]. split; [exact H'|]. split; [reflexivity|]. split; [exact V|]. split; [exact VW|]. split.
    + unfold key_ok in *. cbn [List.last]. destruct lst; [now rewrite LK|exact K].
    + split; [auto|]. intros O. destruct h; [discriminate|destruct O|destruct O|destruct O].
  - apply runs_kept. exact I.
  - intros d C cur Z st lst W H NR K ND. inversion W as [| |? ? WN OL WC]; subst. destruct (step_open d C cur Z st n H WN) as (st1 & E1 & H1 & LK1 & V1 & VW1).
    cbn [keys_in texts_in] in *. rewrite <- V1 in ND. destruct (runs_list c IH (S d) [] None _ st1 None WC H1 (proj2 NR) eq_refl ND) as (st2 & C2 & cur2 & E2 & H2 & CL2 & V2 & VW2 & K2 & D2 & O2).
    assert (cur2 = None /\ (C2 = [] \/ exists l, In (Line l) C2)) as [-> LC].
    { destruct OL as [OL|OL]; [destruct (D2 OL) as [-> ->]; auto|destruct (O2 OL) as [-> L]; auto]. }
    exists st2, (all_items d C cur), (Some (h_next st, n, C2)). cbn [print_node preprocess_from]. rewrite E1. cbn [bind]. split; [exact E2|]. split.
    { destruct H2 as [LZ H2]. split; [apply H|exact H2]. }
    split.
    { unfold cleaned at 1. unfold all_items at 1. rewrite flat_map_app. fold (cleaned d C cur). f_equal. cbn [flat_map]. rewrite app_nil_r.
      unfold cleaned, all_items in CL2. cbn [app flat_map] in CL2. rewrite app_nil_r in CL2. replace (Z.of_nat (S d) - 1)%Z with (Z.of_nat d) in CL2 by lia. cbn [clean_item kept_part].
      destruct LC as [-> | [l L]].
      - cbn [length Nat.eqb flat_map] in *. destruct (flat_map kept_part c) as [|y ys]; [reflexivity|]. exfalso. cbn [flat_map] in CL2. destruct y; discriminate CL2.
      - assert (length C2 <> 0%nat) as NE by (destruct C2; [destruct L|discriminate]). apply Nat.eqb_neq in NE. rewrite NE.
        assert (forallb is_dict C2 = false) as ->. { destruct (forallb is_dict C2) eqn:B; [|reflexivity]. rewrite forallb_forall in B. specialize (B _ L). discriminate. }
        rewrite CL2. replace (Z.of_nat d - 0)%Z with (Z.of_nat d) by lia. rewrite tabs_indent.
        destruct (flat_map kept_part c) as [|y ys] eqn:Q; [|cbn [flat_map print_node]; now rewrite app_nil_r]. exfalso.
        assert (In (tabs (Z.of_nat d + 1 - 0) ++ l) (flat_map (clean_item (Z.of_nat d) 0) C2)) as IN by (apply in_flat_map; exists (Line l); split; [exact L|now left]). rewrite CL2 in IN. destruct IN. }
    split; [rewrite V2, V1; reflexivity|]. split; [rewrite VW2, VW1; reflexivity|]. split; [exact K2|]. split; intros [].
Qed.
