From Coq Require Import Ascii String Lia Reals Lra.
From Verif Require Import Base L_Base M_Translate M_Mapper M_Utility M_Header S_Header S_Mapper L_Angles L_Mapper L_Header L_Header2 L_Header3.
Import ListNotations.
Local Open Scope list_scope.

(** * header_items *)
Lemma set_nth_length {A} i (x : A) l : (i < length l)%nat -> length (set_nth i x l) = length l.
Proof. intros H. unfold set_nth. rewrite app_length, firstn_length. cbn [length]. rewrite skipn_length. lia. Qed.
Lemma index_of_lt x l : in_strs x l = true -> (index_of x l < length l)%nat.
Proof.
  induction l as [|y l IH]; [discriminate|]. unfold in_strs. cbn [existsb index_of length]. destruct (str_eqb x y); [lia|]. cbn [orb]. intros H. specialize (IH H). lia.
Qed.
Lemma item_step_length items out l : length out = length items -> length (item_step items out l) = length items.
Proof.
  intros H. unfold item_step. destruct (is_file _); [exact H|]. destruct (split_key _) as [[k sep] v]. destruct (in_strs _ items) eqn:E; [|exact H].
  rewrite set_nth_length; [exact H|]. rewrite H. now apply index_of_lt.
Qed.
Lemma header_items_length (fill : nat -> str -> str -> str) header items out : header_items fill header items = Ok out -> length out = length items.
Proof.
  unfold header_items. destruct (clean_text _ _ _) as [h|]; [|discriminate]. cbn [bind]. intros E. inversion E; subst.
  rewrite <- (map_length lower items). assert (length (map (fun _ : str => @nil ascii) (map lower items)) = length (map lower items)) as L by apply map_length.
  revert L. generalize (map (fun _ : str => @nil ascii) (map lower items)) as o. clear E. induction h as [|l h IH]; intros o L; [exact L|].
  cbn [fold_left]. apply IH. now apply item_step_length.
Qed.
Lemma set_index_forall2 (P P' : str -> str -> Prop) x y items : forall out, NoDup (map lower items) -> in_strs x (map lower items) = true ->
  (forall key, lower key = x -> P' key y) -> (forall key o, lower key <> x -> P key o -> P' key o) ->
  Forall2 P items out -> Forall2 P' items (set_nth (index_of x (map lower items)) y out).
Proof.
  induction items as [|k items IH]; intros out ND I H1 H2 F; [discriminate|]. inversion F as [|? o ? out' F1 F2]; subst. cbn [map] in *. inversion ND; subst.
  cbn [index_of]. unfold in_strs in I. cbn [existsb] in I. destruct (str_eqb x (lower k)) eqn:E.
  - apply str_eqb_true in E. subst x. unfold set_nth. cbn [firstn skipn app]. constructor; [now apply H1|].
    clear -F2 H2 H3. revert out' F2. induction items as [|k2 items IH]; intros out' F; inversion F; subst; constructor.
    + apply H2; [|assumption]. intros Q. apply H3. cbn [map]. now left.
    + apply IH; [intros Q; apply H3; cbn [map]; now right|assumption].
  - cbn [orb] in I. apply str_eqb_false in E. unfold set_nth. cbn [firstn skipn app]. constructor; [apply H2; auto|]. apply (IH out'); auto.
Qed.
Lemma last_value_new ps k v key : lower key = lower k -> last_value key (ps ++ [(k, v)]) (strip v).
Proof. intros H. left. exists ps, k, v, []. repeat split; auto. Qed.
Lemma last_value_skip ps k v key o : lower key <> lower k -> last_value key ps o -> last_value key (ps ++ [(k, v)]) o.
Proof.
  intros N [(b & k' & v' & a & -> & K & O & A)|[A O]].
  - left. exists b, k', v', (a ++ [(k, v)]). rewrite <- app_assoc. repeat split; auto. apply Forall_app. split; [exact A|]. constructor; [|constructor]. cbn [fst]. congruence.
  - right. split; [|exact O]. apply Forall_app. split; [exact A|]. constructor; [|constructor]. cbn [fst]. congruence.
Qed.
Definition clean_pair (p : str * str) : Prop := trimmed (plain_line p) /\ ~ In "="%char (fst p).
Lemma items_fold items ps : NoDup (map lower items) -> Forall clean_pair ps ->
  Forall2 (fun key o => last_value key ps o) items
    (fold_left (item_step (map lower items)) (map plain_line ps) (map (fun _ => []) (map lower items))).
Proof.
  intros ND. rewrite <- (rev_involutive ps). generalize (rev ps) as r. induction r as [|[k v] r IH]; intros W.
  - cbn [rev map fold_left]. clear. induction items; cbn [map]; constructor; auto. right. split; [constructor|reflexivity].
  - cbn [rev] in *. apply Forall_app in W. destruct W as [W1 W2]. inversion W2 as [|? ? [T NE] _]; subst. specialize (IH W1). rewrite map_app, fold_left_app.
    cbn [map fold_left]. set (o := fold_left _ _ _) in *. unfold item_step. rewrite (strip_trimmed _ T), (trimmed_not_file _ T). unfold plain_line. cbn [fst snd] in *.
    rewrite (split_key_eq k v NE). destruct (in_strs (lower k) (map lower items)) eqn:E.
    + eapply set_index_forall2; [exact ND|exact E| | |exact IH].
      * intros key K. now apply last_value_new.
      * intros key o' K P. now apply last_value_skip.
    + apply in_strs_false in E. clear -IH E. revert IH. generalize o. clear o. induction items as [|k2 items IHi]; intros o F; inversion F; subst; constructor.
      * apply last_value_skip; [|assumption]. intros Q. apply E. cbn [map]. now left.
      * apply IHi; [intros Q; apply E; cbn [map]; now right|assumption].
Qed.
Lemma header_items_flat (fill : nat -> str -> str -> str) hs items :
  fills fill -> Forall wf_hline hs -> Forall (fun p => (length (fst p ++ s "=" ++ snd p) <= 4096)%nat) (plains hs) -> adjacent_distinct (map fst (plains hs)) ->
  NoDup (plains hs) -> NoDup (map lower items) ->
  exists out, header_items fill (map print_hline hs) items = Ok out /\
    Forall2 (fun key o => last_value key (plains hs ++ map (fun v => (s "VIEW", v)) (last_of (views hs))) o) items out.
Proof.
  intros F W N A ND NI. unfold header_items. rewrite (clean_flat_text fill 4096 hs F W N A). cbn [bind]. eexists. split; [reflexivity|].
  change (fun p : str * str => fst p ++ s "=" ++ snd p) with plain_line.
  rewrite dedup_nodup.
  - replace (map (fun v => s "VIEW=" ++ v) (last_of (views hs))) with (map plain_line (map (fun v => (s "VIEW", v)) (last_of (views hs)))) by (rewrite map_map; reflexivity).
    rewrite <- map_app. apply items_fold; [exact NI|]. apply Forall_app. split.
    + apply Forall_forall. intros p P. apply plains_in in P. rewrite Forall_forall in W. destruct (W _ P) as (_ & T & _ & E & _). now split.
    + apply Forall_map, Forall_forall. intros v V. assert (In v (views hs)) as V'.
      { unfold last_of in V. destruct (rev (views hs)) as [|x r] eqn:Q; [destruct V|]. destruct V as [->|[]]. apply in_rev. rewrite Q. now left. }
      unfold views in V'. apply in_flat_map in V'. destruct V' as (h & H & Q). destruct h; cbn in Q; try contradiction. destruct Q as [->|[]].
      rewrite Forall_forall in W. destruct (W _ H) as (_ & T & _). split; [exact T|]. cbn. intuition discriminate.
  - assert (forall p, In p (plains hs) -> ~ In "="%char (fst p)) as NE.
    { intros p P. apply plains_in in P. rewrite Forall_forall in W. now destruct (W _ P) as (_ & _ & _ & E & _). }
    clear -ND NE. induction (plains hs) as [|p ps IH]; [constructor|]. inversion ND; subst. cbn [map]. constructor; [|apply IH; auto; intros q Q; apply NE; now right].
    intros H. apply in_map_iff in H. destruct H as (q & E & Q). apply H1. replace p with q; [exact Q|].
    pose proof (split_key_eq (fst q) (snd q) (NE q (or_intror Q))) as S1. pose proof (split_key_eq (fst p) (snd p) (NE p (or_introl eq_refl))) as S2.
    assert ((fst q, s "=", snd q) = (fst p, s "=", snd p)) as S.
    { etransitivity; [symmetry; exact S1|]. etransitivity; [|exact S2]. f_equal. exact E. }
    clear -S. destruct p as [pk pv], q as [qk qv]. cbn [fst snd] in S. inversion S. reflexivity.
Qed.

(** * the view written to a header and read back *)
Lemma words_run w : forall acc l, Forall (fun c => is_space c = false) w -> words_from acc (w ++ l) = words_from (rev w ++ acc) l.
Proof.
  induction w as [|c w IH]; intros acc l H; [reflexivity|]. inversion H; subst. cbn [app words_from rev]. rewrite H2. rewrite IH by assumption. now rewrite <- app_assoc.
Qed.
Lemma words_word w l : w <> [] -> Forall (fun c => is_space c = false) w -> split_words (w ++ s " " ++ l) = w :: split_words l.
Proof.
  intros N H. unfold split_words. rewrite words_run, app_nil_r by exact H. cbn [app words_from list_ascii_of_string].
  change (is_space " ") with true. cbv iota. destruct (rev w) as [|c r] eqn:E.
  - exfalso. apply N. rewrite <- (rev_involutive w), E. reflexivity.
  - rewrite <- E, rev_involutive. reflexivity.
Qed.
Lemma words_blank l : split_words (s " " ++ l) = split_words l.
Proof. reflexivity. Qed.
Lemma words_end w : w <> [] -> Forall (fun c => is_space c = false) w -> split_words w = [w].
Proof.
  intros N H. unfold split_words. rewrite <- (app_nil_r w) at 1. rewrite words_run, app_nil_r by exact H. cbn [words_from]. destruct (rev w) as [|c r] eqn:E.
  - exfalso. apply N. rewrite <- (rev_involutive w), E. reflexivity.
  - rewrite <- E, rev_involutive. reflexivity.
Qed.

Lemma mk_view_idem d va va' : d <> vzero -> mk_view (vm_dxyz (mk_view d va)) va' = mk_view d va'.
Proof.
  intros N. rewrite mk_view_dxyz by exact N. unfold mk_view. rewrite (norm1_nonzero d) by exact N.
  rewrite norm1_nonzero, norm_idem by (try exact N; intros E; pose proof (norm_dot d N) as Q; rewrite E in Q; unfold dot, vzero in Q; cbn [vx vy vz] in Q; lra).
  reflexivity.
Qed.
Lemma list_index_at x pre post : ~ In x pre -> list_index x (pre ++ x :: post) = Ok (length pre).
Proof.
  intros N. unfold list_index. assert (in_strs x (pre ++ x :: post) = true) as -> by (apply in_strs_true, in_or_app; right; now left).
  f_equal. induction pre as [|y pre IH]; cbn [app index_of length].
  - destruct (str_eqb x x) eqn:E; [reflexivity|]. apply str_eqb_false in E. contradiction.
  - destruct (str_eqb x y) eqn:E; [apply str_eqb_true in E; subst; exfalso; apply N; now left|]. f_equal. apply IH. intros H. apply N. now right.
Qed.
Lemma occurs_skip c p a b : ~ In c a -> occurs (c :: p) (a ++ b) -> occurs (c :: p) b.
Proof.
  intros N (x & y & E). revert a N E. induction x as [|d x IH]; intros a N E.
  - destruct a as [|e a]; [exists [], y; exact E|]. inversion E; subst. exfalso. apply N. now left.
  - destruct a as [|e a]; [exists (d :: x), y; exact E|]. inversion E; subst. apply (IH a); [|assumption]. intros H. apply N. now right.
Qed.
Lemma nonblank_one w : Forall (fun c => is_space c = false) w -> one_line w.
Proof.
  apply Forall_impl. intros c H. destruct (is_break c) eqn:E; [|reflexivity]. exfalso. revert H E. unfold is_space, is_break.
  destruct c as [[] [] [] [] [] [] [] []]; vm_compute; discriminate.
Qed.
Definition tail_of (tail : str) : Prop := tail = [] \/ exists post, tail = newline ++ post /\ ~ occurs (s "VIEW= -vta") post.
Lemma words_lead w l : split_words (s " " ++ w ++ l) = split_words (w ++ l).
Proof. reflexivity. Qed.
Definition word (w : str) : Prop := w <> [] /\ Forall (fun c => is_space c = false) w.
Lemma words_cons w l : word w -> split_words (w ++ s " " ++ l) = w :: split_words l.
Proof. intros [N H]. now apply words_word. Qed.
Definition spaced (ws : list str) (u : str) : str := flat_map (fun w => w ++ s " ") ws ++ u.
Lemma words_spaced ws u : Forall word ws -> split_words (spaced ws u) = ws ++ split_words u.
Proof.
  intros H. unfold spaced. induction H as [|w ws W _ IH]; [reflexivity|]. cbn [flat_map]. rewrite <- !app_assoc. rewrite words_cons by exact W. cbn [app]. f_equal. exact IH.
Qed.

Lemma float_at_nth parse l i t x : nth_error l i = Some t -> parse t = Some x -> float_at parse l i = Ok x.
Proof. intros A B. unfold float_at. now rewrite A, B. Qed.
Lemma splitlines_head a tail : one_line a -> a <> [] -> tail_of tail -> exists ls, splitlines (a ++ tail) = a :: ls.
Proof.
  intros O N T. unfold splitlines. rewrite splitlines_run, app_nil_r by exact O. destruct T as [->|(post & -> & _)].
  - cbn [splitlines_from]. destruct (rev a) eqn:E; [exfalso; apply N; rewrite <- (rev_involutive a), E; reflexivity|]. rewrite <- E, rev_involutive. eauto.
  - cbn [newline app splitlines_from]. change (is_break "010") with true. cbv iota. rewrite rev_involutive. eauto.
Qed.
Section View.
Variables (num : R -> Prop) (show : R -> str) (parse : str -> option R).
Hypothesis NF : number_format num show parse.
Lemma show_word x : num x -> word (show x).
Proof. intros H. destruct (NF x H) as (_ & A & B & _). now split. Qed.
Lemma show_not x w : num x -> In "v"%char w -> show x <> w.
Proof. intros H V <-. destruct (NF x H) as (_ & _ & _ & _ & B). contradiction. Qed.
Lemma hdr2vm_view vm pt pre tail x y : num (vm_viewangle vm) -> num3 num (vm_dxyz vm) -> num3 num pt -> tail_of tail ->
  hdr2vm parse (pre ++ vm_header show vm pt ++ tail) x y = Ok (Some (mk_view (vm_dxyz vm) (vm_viewangle vm * IZR x / IZR y)%R, pt)).
Proof.
  intros Na (Nd1 & Nd2 & Nd3) (Np1 & Np2 & Np3) T.
  set (a := show (vm_viewangle vm)). set (d := vm_dxyz vm) in *.
  set (u := if near_z d then s "0 1 0" else s "0 0 1").
  set (ws := [s "-vv"; a; s "-vh"; a; s "-vd"; show (vx d); show (vy d); show (vz d); s "-vp"; show (vx pt); show (vy pt); show (vz pt); s "-vu"]).
  set (body := s " " ++ spaced ws u).
  assert (vm_header show vm pt = s "VIEW= -vta" ++ body) as E.
  { unfold vm_header, body, spaced, ws. fold a d u. cbn [flat_map list_ascii_of_string]. cbn [app]. repeat (rewrite <- app_assoc; cbn [app]). reflexivity. }
  assert (Forall word ws) as W.
  { unfold ws. repeat (apply Forall_cons; [first [now apply show_word | split; [discriminate|repeat constructor]]|]). constructor. }
  assert (Forall (fun w => forall c, In c w -> c <> "V"%char) ws) as NV.
  { unfold ws. repeat (apply Forall_cons; [first [intros c C ->; destruct (NF (vm_viewangle vm) Na) as (_ & _ & _ & Q & _); contradiction
      | intros c C ->; match type of C with In _ (show ?z) => destruct (NF z ltac:(assumption)) as (_ & _ & _ & Q & _); contradiction end
      | intros c C ->; cbn in C; intuition discriminate]|]). constructor. }
  assert (one_line body) as O.
  { unfold body, spaced. apply one_line_app. split; [repeat constructor|]. apply one_line_app. split.
    - apply Forall_flat_map. eapply Forall_impl; [|exact W]. intros w [_ B]. apply one_line_app. split; [now apply nonblank_one|repeat constructor].
    - unfold u. destruct (near_z d); repeat constructor. }
  assert (~ In "V"%char (s "IEW= -vta" ++ body)) as NB.
  { intros H. apply in_app_or in H. destruct H as [H|H]; [cbn in H; intuition discriminate|]. unfold body, spaced in H. apply in_app_or in H.
    destruct H as [H|H]; [cbn in H; intuition discriminate|]. apply in_app_or in H. destruct H as [H|H].
    - apply in_flat_map in H. destruct H as (w & A & B). apply in_app_or in B. destruct B as [B|B]; [|cbn in B; intuition discriminate].
      rewrite Forall_forall in NV. exact (NV w A _ B eq_refl).
    - unfold u in H. destruct (near_z d); cbn in H; intuition discriminate. }
  assert (last_after (s "VIEW= -vta") (pre ++ vm_header show vm pt ++ tail) = Some (body ++ tail)) as LA.
  { rewrite E, <- app_assoc. change (s "VIEW= -vta") with ("V"%char :: s "IEW= -vta"). apply last_after_at. intros Q. rewrite app_assoc in Q.
    apply occurs_skip in Q; [|exact NB]. destruct T as [->|(post & -> & NP)].
    - destruct Q as (x0 & y0 & Q). destruct x0; discriminate.
    - change (newline ++ post) with (["010"%char] ++ post) in Q. apply occurs_skip in Q; [contradiction|]. cbn. intuition discriminate. }
  destruct (splitlines_head body tail O) as [ls SL]; [discriminate|exact T|].
  assert (split_words body = ws ++ split_words u) as SW by (unfold body; exact (words_spaced ws u W)).
  unfold hdr2vm. rewrite LA, SL, SW. cbn [bind].
  assert (list_index (s "-vh") (ws ++ split_words u) = Ok 2%nat) as ->.
  { change (ws ++ split_words u) with ([s "-vv"; a] ++ s "-vh" :: (skipn 3 ws ++ split_words u)). rewrite list_index_at; [reflexivity|].
    intros [H|[H|[]]]; [discriminate|]. revert H. unfold a. apply show_not; [exact Na|cbn; tauto]. }
  assert (list_index (s "-vd") (ws ++ split_words u) = Ok 4%nat) as ->.
  { change (ws ++ split_words u) with ([s "-vv"; a; s "-vh"; a] ++ s "-vd" :: (skipn 5 ws ++ split_words u)). rewrite list_index_at; [reflexivity|].
    intros [H|[H|[H|[H|[]]]]]; try discriminate; revert H; unfold a; apply show_not; try exact Na; cbn; tauto. }
  assert (list_index (s "-vp") (ws ++ split_words u) = Ok 8%nat) as ->.
  { change (ws ++ split_words u) with ([s "-vv"; a; s "-vh"; a; s "-vd"; show (vx d); show (vy d); show (vz d)] ++ s "-vp" :: (skipn 9 ws ++ split_words u)).
    rewrite list_index_at; [reflexivity|]. intros [H|[H|[H|[H|[H|[H|[H|[H|[]]]]]]]]]; try discriminate; revert H; unfold a; apply show_not; try assumption; cbn; tauto. }
  cbn [bind]. rewrite (float_at_nth parse _ (2 + 1) a (vm_viewangle vm)); [|reflexivity|apply (NF _ Na)]. cbn [bind]. unfold float3_at.
  rewrite (float_at_nth parse _ (4 + 1) (show (vx d)) (vx d)); [|reflexivity|apply (NF _ Nd1)]. cbn [bind].
  rewrite (float_at_nth parse _ (4 + 1 + 1) (show (vy d)) (vy d)); [|reflexivity|apply (NF _ Nd2)]. cbn [bind].
  rewrite (float_at_nth parse _ (4 + 1 + 2) (show (vz d)) (vz d)); [|reflexivity|apply (NF _ Nd3)]. cbn [bind].
  rewrite (float_at_nth parse _ (8 + 1) (show (vx pt)) (vx pt)); [|reflexivity|apply (NF _ Np1)]. cbn [bind].
  rewrite (float_at_nth parse _ (8 + 1 + 1) (show (vy pt)) (vy pt)); [|reflexivity|apply (NF _ Np2)]. cbn [bind].
  rewrite (float_at_nth parse _ (8 + 1 + 2) (show (vz pt)) (vz pt)); [|reflexivity|apply (NF _ Np3)]. cbn [bind].
  destruct d as [d1 d2 d3], pt as [p1 p2 p3]. reflexivity.
Qed.
Lemma hdr2vm_roundtrip d va pt pre tail x y : d <> vzero ->
  (hemi_angle va /\ x = y \/ va = 360%R /\ x = (2 * y)%Z) -> (0 < y)%Z ->
  num (vm_viewangle (mk_view d va)) -> num3 num (vm_dxyz (mk_view d va)) -> num3 num pt -> 
  (tail = [] \/ exists post, tail = newline ++ post /\ ~ occurs (s "VIEW= -vta") post) ->
  hdr2vm parse (pre ++ vm_header show (mk_view d va) pt ++ tail) x y = Ok (Some (mk_view d va, pt)).
Proof.
  intros N C Y N1 N2 N3 T. rewrite hdr2vm_view by assumption. rewrite mk_view_idem by exact N. do 4 f_equal.
  assert (IZR y <> 0)%R as Y' by (apply IZR_lt in Y; lra). destruct C as [[H ->]|[-> ->]].
  - rewrite mk_view_hemi_va by exact H. field. exact Y'.
  - destruct (mk_view_360 d) as [-> _]. rewrite mult_IZR. field. exact Y'.
Qed.
End View.
