From Coq Require Import Ascii String Lia.
From Verif Require Import Base L_Base M_Translate M_Mapper M_Utility M_Header S_Header L_Header L_Header2 L_Header3 L_Header5 S_Nested L_Nested L_Nested2 M_Wrap S_Wrap L_Wrap L_Wrap2 L_Wrap3 L_Wrap4 L_Wrap5 L_Wrap6 L_Wrap7.
Import ListNotations.
Local Open Scope list_scope.

Lemma textwrap_fills fuel : fills (textwrap_fill (S fuel)).
Proof.
  intros width l i L. unfold textwrap_fill. destruct l as [|c l]; [now rewrite wrap_nil|]. rewrite wrap_short by (try exact L; discriminate). reflexivity.
Qed.
Lemma clean_run_text fuel width text r : clean_run fuel width text = Some r -> clean_text (textwrap_fill fuel) width text = r.
Proof.
  unfold clean_run, clean_text. destruct (preprocess text) as [st|e]; cbn [bind]; [|congruence]. destruct (wrap_all fuel width (clean_up (h_files st))) as [hdr|] eqn:W; [|discriminate]. intros E. injection E as <-.
  f_equal. f_equal. f_equal. f_equal. revert hdr W. generalize (clean_up (h_files st)) as lines. induction lines as [|i lines IH]; intros hdr W; cbn [wrap_all map] in *; [now injection W as <-|].
  unfold textwrap_fill at 1. destruct (wrap fuel width i (wrap_indent i)) as [a|]; [|discriminate]. destruct (wrap_all fuel width lines) as [b|]; [|discriminate]. injection W as <-. f_equal. now apply IH.
Qed.
Lemma header_lines ns : Forall wf_node ns -> no_repeat (flat_map keys_in ns) -> NoDup (flat_map texts_in ns) -> Forall (roomy 150) (flat_map (places 0) (flat_map kept_part ns)) ->
  exists n parts, Forall2 (broken 150) (flat_map (places 0) (flat_map kept_part ns)) parts /\
    forall fuel, (n <= fuel)%nat -> clean_header_run fuel (flat_map (print_node 0) ns) = Some (Ok (concat parts ++ map (fun v => s "VIEW=" ++ v) (last_of (flat_map views_in ns)))).
Proof.
  intros W NR ND R. destruct (clean_wrapped 150 ns (enough ns) W NR ND R (le_n _)) as (parts & B & E). exists (enough ns), parts. split; [exact B|]. intros fuel F. exact (clean_run_mono _ _ _ _ _ F E).
Qed.
Lemma header_again ns fuel out : Forall wf_node ns -> no_repeat (flat_map keys_in ns) -> no_repeat (flat_map keys_in (flat_map kept_part ns)) -> NoDup (flat_map texts_in ns) -> prefix_free (flat_map texts_in ns) ->
  Forall (breakable 150) (flat_map (places 0) (flat_map kept_part ns)) -> clean_header_run fuel (flat_map (print_node 0) ns) = Some (Ok out) ->
  clean_header_run fuel out = Some (Ok out) /\ forall n items, header_items_run n out items = header_items_run n (flat_map (print_node 0) ns) items.
Proof.
  intros W NR NR2 ND PF B E. pose proof (clean_run_mono _ (Nat.max fuel (enough ns)) _ _ _ (Nat.le_max_l _ _) E) as E2.
  pose proof (clean_again 150 _ ns out W NR NR2 ND PF B (Nat.le_max_r _ _) E2) as A. split.
  - unfold clean_header_run. rewrite A. exact E.
  - intros n items. unfold header_items_run. now rewrite A.
Qed.
(** checks that compute *)
Lemma no_break l : forallb (fun c => negb (is_break c)) l = true -> one_line l.
Proof. intros A. apply Forall_forall. intros c Q. rewrite forallb_forall in A. specialize (A c Q). now apply negb_true_iff in A. Qed.
Lemma not_in_chars c l : in_strs [c] (map (fun c => [c]) l) = false -> ~ In c l.
Proof. intros A Q. apply in_strs_false in A. apply A, in_map_iff. eauto. Qed.
Lemma wf_plain k v : let l := k ++ s "=" ++ v in forallb (fun c => negb (is_break c)) l = true -> trimmed l -> last_after (s "clasp_tmp") l = None -> in_strs ["="%char] (map (fun c => [c]) k) = false ->
  in_strs k [s "pvalue"; s "FORMAT"; s "VIEW"; s "..."] = false -> wf_hline (HPlain k v).
Proof. intros l A B C D E. split; [now apply no_break|]. split; [exact B|]. split; [now apply last_after_none|]. split; [now apply not_in_chars|now apply in_strs_false]. Qed.
Lemma wf_view v : let l := s "VIEW=" ++ v in forallb (fun c => negb (is_break c)) l = true -> trimmed l -> last_after (s "clasp_tmp") l = None -> wf_hline (HView v).
Proof. intros l A B C. split; [now apply no_break|]. split; [exact B|]. split; [now apply last_after_none|exact I]. Qed.
Lemma wf_cmd_b p a : let l := command_line p a in forallb (fun c => negb (is_break c)) l = true -> trimmed l -> last_after (s "clasp_tmp") l = None -> in_strs ["="%char] (map (fun c => [c]) l) = false ->
  forallb (fun c => negb (is_space c)) p = true -> match a with c :: _ => is_space c = false | [] => False end -> in_strs p [s "pvalue"; s "FORMAT"; s "VIEW"; s "..."] = false -> wf_node (Command p a).
Proof.
  intros l A B C D E F G. constructor. split; [now apply no_break|]. split; [exact B|]. split; [now apply last_after_none|]. split; [now apply not_in_chars|]. split; [|split; [exact F|now apply in_strs_false]].
  apply Forall_forall. intros c Q. rewrite forallb_forall in E. specialize (E c Q). now apply negb_true_iff in E.
Qed.
Definition plain_word (u : str) : bool :=
  (negb (str_eqb u []) && forallb (fun c => negb (is_space c)) u && negb (char_eqb (List.last u " "%char) ":") && negb (existsb (fun c => char_eqb "-" c) (tl u)))%bool.
Lemma plain_unbroken u : plain_word u = true -> unbroken u.
Proof.
  unfold plain_word. rewrite !andb_true_iff, !negb_true_iff. intros [[[A B] C] D]. split; [intros ->; discriminate A|]. split.
  - apply Forall_forall. intros c Q. rewrite forallb_forall in B. specialize (B c Q). now apply negb_true_iff in B.
  - split; [intros E; rewrite E in C; discriminate C|]. intros a b E. left. destruct a as [|x a]; [constructor|]. exfalso. rewrite E in D. cbn [tl app] in D.
    assert (existsb (fun c => char_eqb "-" c) (a ++ "-"%char :: b) = true) as Q by (apply existsb_exists; exists "-"%char; split; [apply in_or_app; right; now left|reflexivity]). congruence.
Qed.
(** the program that renders, and a long entry *)
Definition rpict_args : str := s "-vtv -vp 2.5 1.5 1.2 -vd 0.8 0.6 0 -vu 0 0 1 -vh 60 -vv 40 -x 2048 -y 1536 -ab 6 -ad 4096 -as 2048 -aa 0.1 -ar 512 -lw 0.0001 -ps 1 -pt 0.05 -dj 0.9 scene.oct".
Definition rpict_words : list str := map list_ascii_of_string (["rpict"; "-vtv"; "-vp"; "2.5"; "1.5"; "1.2"; "-vd"; "0.8"; "0.6"; "0"; "-vu"; "0"; "0"; "1"; "-vh"; "60"; "-vv"; "40"; "-x"; "2048"; "-y"; "1536"; "-ab"; "6"; "-ad"; "4096"; "-as"; "2048"; "-aa"; "0.1"; "-ar"; "512"; "-lw"; "0.0001"; "-ps"; "1"; "-pt"; "0.05"; "-dj"; "0.9"; "scene.oct"])%string.
Definition long_value : str := s " the office on the third floor in the morning of the first of march under a clear sky with the blinds of the south window half closed and all of the lamps on".
Definition value_words : list str := map list_ascii_of_string (["COMMENT="; "the"; "office"; "on"; "the"; "third"; "floor"; "in"; "the"; "morning"; "of"; "the"; "first"; "of"; "march"; "under"; "a"; "clear"; "sky"; "with"; "the"; "blinds"; "of"; "the"; "south"; "window"; "half"; "closed"; "and"; "all"; "of"; "the"; "lamps"; "on"])%string.
Definition long_header : list hnode := [Nested (s "a.hdr") [Command (s "rpict") rpict_args; Entry (HView (s " -vtv"))]; Entry (HPlain (s "COMMENT") long_value); Entry (HPlain (s "EXPOSURE") (s "2"))].
Lemma long_header_wf : Forall wf_node long_header.
Proof.
  apply Forall_cons; [|apply Forall_cons; [|apply Forall_cons; [|apply Forall_nil]]].
  - constructor.
    + split; [now apply no_break|]. split; [vm_compute; repeat split; discriminate|]. split; [now apply last_after_none|now apply not_in_chars].
    + right. exists [], (Command (s "rpict") rpict_args), [Entry (HView (s " -vtv"))]. split; [reflexivity|]. split; [exact I|]. constructor; [exact I|constructor].
    + apply Forall_cons; [apply wf_cmd_b; vm_compute; repeat split; discriminate|]. apply Forall_cons; [|apply Forall_nil]. constructor. apply wf_view; vm_compute; repeat split; discriminate.
  - constructor. apply wf_plain; vm_compute; repeat split; discriminate.
  - constructor. apply wf_plain; vm_compute; repeat split; discriminate.
Qed.
Lemma plain_words (l : list str) : forallb plain_word l = true -> Forall unbroken l.
Proof. intros H. apply Forall_forall. intros u U. apply plain_unbroken. exact (proj1 (forallb_forall _ _) H u U). Qed.
Lemma short_words n m (l : list str) : forallb (fun u : str => (n + length u + 1 <=? m)%nat) l = true -> Forall (fun u => (n + length u + 1 <= m)%nat) l.
Proof. intros H. apply Forall_forall. intros u U. apply Nat.leb_le. exact (proj1 (forallb_forall _ _) H u U). Qed.
Lemma long_header_breakable : Forall (breakable 150) (flat_map (places 0) (flat_map kept_part long_header)).
Proof.
  apply Forall_cons; [left; apply Nat.leb_le; vm_compute; reflexivity|]. apply Forall_cons; [right|apply Forall_cons; [right|apply Forall_cons; [left; apply Nat.leb_le; vm_compute; reflexivity|apply Forall_nil]]].
  - split; [exact I|]. exists (s "rpict"), (tl rpict_words). split; [vm_compute; reflexivity|]. split; [apply plain_words; vm_compute; reflexivity|]. split; [apply Nat.leb_le; vm_compute; reflexivity|]. apply short_words. vm_compute. reflexivity.
  - split; [exact I|]. exists (s "COMMENT="), (tl value_words). split; [vm_compute; reflexivity|]. split; [apply plain_words; vm_compute; reflexivity|]. split; [apply Nat.leb_le; vm_compute; reflexivity|]. apply short_words. vm_compute. reflexivity.
Qed.
Fixpoint starts (a l : str) : bool := match a, l with [], _ => true | x :: a, y :: l => (char_eqb x y && starts a l)%bool | _, _ => false end.
Lemma starts_app a b : starts a (a ++ b) = true.
Proof. induction a as [|c a IH]; [reflexivity|]. cbn [app starts]. rewrite IH, andb_true_r. destruct (char_eqb c c) eqn:E; [reflexivity|]. apply char_eqb_false in E. contradiction. Qed.
Lemma prefix_free_b l : NoDup l -> forallb (fun a => forallb (fun b => (str_eqb a b || negb (starts a b))%bool) l) l = true -> prefix_free l.
Proof.
  intros ND H a b A B. pose proof (proj1 (forallb_forall _ _) H a A) as H1. cbv beta in H1. pose proof (proj1 (forallb_forall _ _) H1 _ B) as H2. cbv beta in H2. rewrite starts_app in H2. cbn [negb] in H2. rewrite orb_false_r in H2.
  destruct (str_eqb a (a ++ b)) eqn:Q; [|discriminate]. apply str_eqb_true in Q. apply (f_equal (@length _)) in Q. rewrite app_length in Q. destruct b; [reflexivity|cbn in Q; lia].
Qed.
Lemma long_header_texts : NoDup (flat_map texts_in long_header) /\ prefix_free (flat_map texts_in long_header).
Proof.
  assert (NoDup (flat_map texts_in long_header)) as ND by (vm_compute; repeat (constructor; [cbn; intros Q; repeat (destruct Q as [Q|Q]; [discriminate|]); exact Q|]); constructor).
  split; [exact ND|]. apply prefix_free_b; [exact ND|]. vm_compute. reflexivity.
Qed.
Lemma long_header_out : clean_header_run 1000 (flat_map (print_node 0) long_header) =
  Some (Ok [s "a.hdr:"; tab ++ s "rpict -vtv -vp 2.5 1.5 1.2 -vd 0.8 0.6 0 -vu 0 0 1 -vh 60 -vv 40 -x 2048 -y 1536 -ab 6 -ad 4096 -as 2048 -aa 0.1 -ar 512 -lw 0.0001 -ps 1 -pt 0.05 "; tab ++ s "   ...  -dj 0.9 scene.oct";
    s "COMMENT= the office on the third floor in the morning of the first of march under a clear sky with the blinds of the south window half closed and all "; s "COMMENT= of the lamps on"; s "EXPOSURE=2"; s "VIEW= -vtv"]).
Proof. vm_compute. reflexivity. Qed.
(** what goes wrong *)
Definition pcomb_args : str := s "-s 0.5 /projects/lighting-study/renderings/january/big_main_office_a.hdr -s 0.5 /projects/lighting-study/renderings/january/big_main_office_a.hdr /projects/lighting-study/renderings/january/office_c.hdr".
Definition pcomb_read : str := s "-s 0.5 /projects/lighting-study/renderings/january/big_main_office_a.hdr -s 0.5 /projects/lighting- study/renderings/january/big_main_office_a.hdr /projects/lighting-study/renderings/january/office_c.hdr".
Lemma hyphens : exists args out, wf_node (Command (s "pcomb") args) /\ roomy 150 (0%nat, Command (s "pcomb") args) /\
  (forall fuel, (300 <= fuel)%nat -> clean_header_run fuel [command_line (s "pcomb") args] = Some (Ok out) /\ header_items_run fuel [command_line (s "pcomb") args] [s "pcomb"] = Some (Ok [args])) /\
  exists args', args' <> args /\ forall fuel, (300 <= fuel)%nat -> header_items_run fuel out [s "pcomb"] = Some (Ok [args']).
Proof.
  exists pcomb_args, [s "pcomb -s 0.5 /projects/lighting-study/renderings/january/big_main_office_a.hdr -s 0.5 /projects/lighting-"; s "   ...  study/renderings/january/big_main_office_a.hdr /projects/lighting-study/renderings/january/office_c.hdr"].
  assert (forall a b r fuel, (300 <= fuel)%nat -> header_items_run 300 a b = Some r -> header_items_run fuel a b = Some r) as M.
  { intros a b r fuel F. unfold header_items_run. destruct (clean_run 300 4096 (join newline a)) as [q|] eqn:Q; [|discriminate]. rewrite (clean_run_mono _ _ _ _ _ F Q). auto. }
  split; [apply wf_cmd_b; vm_compute; repeat split; discriminate|]. split; [right; split; [exact I|apply Nat.leb_le; vm_compute; reflexivity]|]. split.
  - intros fuel F. split; [eapply (clean_run_mono 300 fuel); [exact F|vm_compute; reflexivity]|]. apply M; [exact F|]. vm_compute. reflexivity.
  - exists pcomb_read. split; [vm_compute; discriminate|]. intros fuel F. apply M; [exact F|]. vm_compute. reflexivity.
Qed.
Lemma too_wide : exists k v out, wf_hline (HPlain k v) /\ clean_header_run 300 [k ++ s "=" ++ v] = Some (Ok out) /\ exists l, In l out /\ (150 < length l)%nat.
Proof.
  exists (repeat "k"%char 148), (s " on"). eexists. split; [apply wf_plain; vm_compute; repeat split; discriminate|]. split; [vm_compute; reflexivity|]. eexists. split; [right; left; reflexivity|]. apply Nat.ltb_lt. vm_compute. reflexivity.
Qed.
Lemma long_view : exists v, wf_hline (HView v) /\ (150 < length (s "VIEW=" ++ v))%nat /\ forall fuel, clean_header_run fuel [s "VIEW=" ++ v] = Some (Ok [s "VIEW=" ++ v]).
Proof.
  exists (s " " ++ rpict_args). split; [apply wf_view; vm_compute; repeat split; discriminate|]. split; [apply Nat.ltb_lt; vm_compute; reflexivity|]. intros fuel. vm_compute. reflexivity.
Qed.
Lemma never : exists k v, wf_hline (HPlain k v) /\ (149 <= length k)%nat /\ (150 < length (k ++ s "=" ++ v))%nat.
Proof. exists (repeat "k"%char 149), (s "on"). split; [apply wf_plain; vm_compute; repeat split; discriminate|]. split; [reflexivity|]. apply Nat.ltb_lt. vm_compute. reflexivity. Qed.
