From Coq Require Import Ascii String Lia.
From Verif Require Import Base L_Base M_Translate M_Mapper M_Utility M_Header S_Header L_Header L_Header2 L_Header3 L_Header4 L_Header5 L_Header6 S_Nested L_Nested.
Import ListNotations.
Local Open Scope list_scope.

Lemma indent_line d : one_line (indent d).
Proof. induction d as [|d IH]; [constructor|]. constructor; [reflexivity|exact IH]. Qed.
Lemma nonempty_app {A} (a b : list A) : b <> [] -> a ++ b <> [].
Proof. intros H Q. apply app_eq_nil in Q. now apply H. Qed.
Lemma node_lines x : forall d, wf_node x -> Forall (fun l => one_line l /\ l <> []) (print_node d x).
Proof.
  induction x as [h|p a|n c IH] using hnode_ind'; intros d W; inversion W; subst; cbn [print_node].
  - constructor; [|constructor]. split; [apply one_line_app; split; [apply indent_line|apply H0]|now apply nonempty_app, print_nonempty].
  - match goal with K : wf_command p a |- _ => destruct K as (O & T & _) end. constructor; [|constructor]. split; [apply one_line_app; split; [apply indent_line|exact O]|]. apply nonempty_app. intros Q. rewrite Q in T. now destruct T.
  - match goal with K : wf_name n |- _ => destruct K as (O & _) end. constructor.
    + split; [apply one_line_app; split; [apply indent_line|apply one_line_app; split; [exact O|repeat constructor]]|]. apply nonempty_app, nonempty_app. discriminate.
    + rewrite Forall_flat_map. rewrite Forall_forall in *. intros y Y. now apply IH; auto.
Qed.
Lemma nodes_lines ns d : Forall wf_node ns -> Forall one_line (flat_map (print_node d) ns) /\ Forall (fun l => l <> []) (flat_map (print_node d) ns).
Proof.
  intros W. rewrite !Forall_flat_map. split; (eapply Forall_impl; [|exact W]); intros x X; (eapply Forall_impl; [|apply node_lines, X]); intros l L; apply L.
Qed.
(** the kept part *)
Lemma kept_dropped c : Forall dropped c -> flat_map kept_part c = [].
Proof. induction 1 as [|x c D H IH]; [reflexivity|]. cbn [flat_map]. rewrite IH. destruct x as [[]| |]; try destruct D; reflexivity. Qed.
Lemma kept_own x : own_line x -> kept_part x = [x].
Proof. destruct x as [[]| |]; intros []; reflexivity. Qed.
Lemma kept_wf x : wf_node x -> Forall wf_node (kept_part x).
Proof.
  induction x as [h|p a|n c IH] using hnode_ind'; intros W.
  - destruct h; cbn [kept_part]; [constructor; [exact W|constructor]|constructor|constructor|constructor].
  - constructor; [exact W|constructor].
  - inversion W as [| |? ? WN OL WC]; subst. cbn [kept_part]. assert (Forall wf_node (flat_map kept_part c)) as K.
    { rewrite Forall_flat_map. rewrite Forall_forall in *. intros y Y. apply IH; auto. }
    destruct (flat_map kept_part c) as [|y ys] eqn:Q; [constructor|]. constructor; [|constructor]. constructor; [exact WN| |exact K].
    destruct OL as [D|(a & x & b & -> & O & D)]; [rewrite (kept_dropped c D) in Q; discriminate|]. right. rewrite flat_map_app in Q. cbn [flat_map] in Q.
    rewrite (kept_own x O), (kept_dropped b D) in Q. exists (flat_map kept_part a), x, []. rewrite <- Q. split; [reflexivity|]. split; [exact O|constructor].
Qed.
Lemma kepts_wf ns : Forall wf_node ns -> Forall wf_node (flat_map kept_part ns).
Proof. intros W. rewrite Forall_flat_map. eapply Forall_impl; [|exact W]. intros x. apply kept_wf. Qed.
Lemma flat_map_kept {A} (f : hnode -> list A) ns : Forall (fun x => flat_map f (kept_part x) = f x) ns -> flat_map f (flat_map kept_part ns) = flat_map f ns.
Proof. induction 1 as [|x ns E H IH]; [reflexivity|]. cbn [flat_map]. rewrite flat_map_app, E. now f_equal. Qed.
Lemma kept_texts x : flat_map texts_in (kept_part x) = texts_in x.
Proof.
  induction x as [h|p a|n c IH] using hnode_ind'; [destruct h; reflexivity|reflexivity|]. cbn [kept_part texts_in]. rewrite <- (flat_map_kept texts_in c IH).
  destruct (flat_map kept_part c); [reflexivity|]. cbn [flat_map texts_in]. apply app_nil_r.
Qed.
Lemma kepts_texts ns : flat_map texts_in (flat_map kept_part ns) = flat_map texts_in ns.
Proof. apply flat_map_kept, Forall_forall. intros x _. apply kept_texts. Qed.
Lemma kept_pairs x : flat_map pairs_in (kept_part x) = pairs_in x.
Proof.
  induction x as [h|p a|n c IH] using hnode_ind'; [destruct h; reflexivity|reflexivity|]. cbn [kept_part pairs_in]. rewrite <- (flat_map_kept pairs_in c IH).
  destruct (flat_map kept_part c); [reflexivity|]. cbn [flat_map pairs_in]. apply app_nil_r.
Qed.
Lemma kepts_kept ns : Forall (fun x => flat_map kept_part (kept_part x) = kept_part x) ns -> flat_map kept_part (flat_map kept_part ns) = flat_map kept_part ns.
Proof. apply (flat_map_kept kept_part). Qed.
Lemma kept_kept x : flat_map kept_part (kept_part x) = kept_part x.
Proof.
  induction x as [h|p a|n c IH] using hnode_ind'; [destruct h; reflexivity|reflexivity|]. cbn [kept_part]. pose proof (kepts_kept c IH) as K.
  destruct (flat_map kept_part c) as [|y ys] eqn:Q; [reflexivity|]. cbn [flat_map kept_part app]. change (kept_part y ++ flat_map kept_part ys) with (flat_map kept_part (y :: ys)). rewrite K. reflexivity.
Qed.
Lemma kept_views x : flat_map views_in (kept_part x) = [].
Proof.
  induction x as [h|p a|n c IH] using hnode_ind'; [destruct h; reflexivity|reflexivity|]. cbn [kept_part].
  assert (flat_map views_in (flat_map kept_part c) = []) as K by (induction IH as [|x c E H IHc]; [reflexivity|]; cbn [flat_map]; now rewrite flat_map_app, E).
  destruct (flat_map kept_part c) as [|y ys]; [reflexivity|]. cbn [flat_map views_in]. rewrite app_nil_r. exact K.
Qed.
Lemma kepts_views ns : flat_map views_in (flat_map kept_part ns) = [].
Proof. induction ns as [|x ns IH]; [reflexivity|]. cbn [flat_map]. now rewrite flat_map_app, kept_views. Qed.
Lemma view_wf v x : wf_node x -> In v (views_in x) -> wf_hline (HView v).
Proof.
  induction x as [h|p a|n c IH] using hnode_ind'; intros W I.
  - inversion W; subst. destruct h; cbn in I; try contradiction. destruct I as [->|[]]. assumption.
  - destruct I.
  - inversion W; subst. cbn [views_in] in I. apply in_flat_map in I. destruct I as (y & Y & I). rewrite Forall_forall in *. now apply (IH y Y); auto.
Qed.
Lemma last_of_in {A} (l : list A) x : In x (last_of l) -> In x l.
Proof. unfold last_of. destruct (rev l) as [|y r] eqn:Q; [intros []|]. intros [->|[]]. apply in_rev. rewrite Q. now left. Qed.
Lemma last_of_last {A} (l : list A) : last_of (last_of l) = last_of l.
Proof. unfold last_of. destruct (rev l); reflexivity. Qed.

Lemma clean_nested_text (fill : nat -> str -> str -> str) width ns : fills fill -> Forall wf_node ns -> no_repeat (flat_map keys_in ns) -> NoDup (flat_map texts_in ns) ->
  Forall (fun l => (length l <= width)%nat) (flat_map (print_node 0) (flat_map kept_part ns)) ->
  clean_text fill width (join newline (flat_map (print_node 0) ns)) =
  Ok (flat_map (print_node 0) (flat_map kept_part ns) ++ map (fun v => s "VIEW=" ++ v) (last_of (flat_map views_in ns))).
Proof.
  intros F W NR ND N. unfold clean_text, preprocess. destruct (nodes_lines ns 0 W) as [O1 O2]. rewrite splitlines_join by assumption.
  assert (Forall runs ns) as R by (apply Forall_forall; intros x _; apply runs_all).
  destruct (runs_list ns R 0 [] None [] h_init None W) as (st & C & cur & E & H & CL & V & VW & _).
  { split; [reflexivity|]. repeat split; constructor. }
  { split; [exact I|exact NR]. }
  { reflexivity. }
  { exact ND. }
  rewrite E. cbn [bind]. assert (clean_up (h_files st) = flat_map (print_node 0) (flat_map kept_part ns)) as ->.
  { unfold clean_up. destruct H as [_ H]. change (cleaned 0 [] None) with (@nil str) in CL. cbn [app] in CL. rewrite <- CL. unfold cleaned, all_items.
    destruct cur as [[[id n] c]|]; destruct H as (-> & _); cbn [close length]; [|rewrite app_nil_r]; reflexivity. }
  assert (map (fun i => fill width i (wrap_indent i)) (flat_map (print_node 0) (flat_map kept_part ns)) = flat_map (print_node 0) (flat_map kept_part ns)) as ->.
  { match goal with |- map _ ?l = _ => rewrite <- (map_id l) at 2 end. apply map_ext_in. intros x X. apply F. rewrite Forall_forall in N. now apply N. }
  destruct (nodes_lines _ 0 (kepts_wf ns W)) as [K1 K2]. rewrite splitlines_join by assumption. f_equal. f_equal.
  unfold next_view in VW. cbn [h_view h_init view_list app] in VW. destruct (h_view st) as [v|]; cbn [view_list] in VW; rewrite <- VW; reflexivity.
Qed.
Lemma clean_nested (fill : nat -> str -> str -> str) ns : fills fill -> Forall wf_node ns -> no_repeat (flat_map keys_in ns) -> NoDup (flat_map texts_in ns) ->
  Forall (fun l => (length l <= 150)%nat) (flat_map (print_node 0) (flat_map kept_part ns)) ->
  clean_header fill (flat_map (print_node 0) ns) =
  Ok (flat_map (print_node 0) (flat_map kept_part ns) ++ map (fun v => s "VIEW=" ++ v) (last_of (flat_map views_in ns))).
Proof. apply clean_nested_text. Qed.
(** cleaning twice *)
Lemma clean_nested_idem (fill : nat -> str -> str -> str) ns out : fills fill -> Forall wf_node ns -> no_repeat (flat_map keys_in ns) -> no_repeat (flat_map keys_in (flat_map kept_part ns)) ->
  NoDup (flat_map texts_in ns) -> Forall (fun l => (length l <= 150)%nat) (flat_map (print_node 0) (flat_map kept_part ns)) ->
  clean_header fill (flat_map (print_node 0) ns) = Ok out -> clean_header fill out = Ok out.
Proof.
  intros F W NR NR2 ND N E. rewrite (clean_nested fill ns F W NR ND N) in E. injection E as <-.
  set (vs := last_of (flat_map views_in ns)). set (ns' := flat_map kept_part ns ++ map (fun v => Entry (HView v)) vs).
  assert (forall (A : Type) (f : hnode -> list A), (forall v, f (Entry (HView v)) = []) -> flat_map f ns' = flat_map f (flat_map kept_part ns)) as DR.
  { intros A f Z. unfold ns'. rewrite flat_map_app. assert (flat_map f (map (fun v => Entry (HView v)) vs) = []) as ->; [|apply app_nil_r].
    induction vs as [|v l IH]; [reflexivity|]. cbn [map flat_map]. now rewrite Z. }
  assert (flat_map (print_node 0) (flat_map kept_part ns) ++ map (fun v => s "VIEW=" ++ v) vs = flat_map (print_node 0) ns') as PR.
  { unfold ns'. rewrite flat_map_app. f_equal. clear. induction vs as [|v l IH]; [reflexivity|]. cbn [map flat_map]. now rewrite IH. }
  assert (flat_map kept_part ns' = flat_map kept_part ns) as KP.
  { rewrite DR by reflexivity. apply kepts_kept, Forall_forall. intros x _. apply kept_kept. }
  transitivity (clean_header fill (flat_map (print_node 0) ns')); [f_equal; exact PR|]. rewrite (clean_nested fill ns' F).
  - rewrite KP. f_equal. f_equal. f_equal. unfold ns'. rewrite flat_map_app, kepts_views. cbn [app].
    replace (flat_map views_in (map (fun v => Entry (HView v)) vs)) with vs; [unfold vs; apply last_of_last|].
    clear. induction vs as [|v l IH]; [reflexivity|]. cbn [map flat_map]. now rewrite <- IH.
  - unfold ns'. apply Forall_app. split; [now apply kepts_wf|]. apply Forall_map, Forall_forall. intros v V. constructor. apply last_of_in, in_flat_map in V. destruct V as (x & X & V).
    rewrite Forall_forall in W. apply (view_wf v x); auto.
  - rewrite DR by reflexivity. exact NR2.
  - rewrite DR by reflexivity. rewrite kepts_texts. exact ND.
  - rewrite KP. exact N.
Qed.
(** * header_items *)
Section Items.
Variable items : list str.
Hypothesis ND : NoDup (map lower items).
Definition found (ps : list (str * str)) (out : list str) : Prop := Forall2 (fun key o => last_value key ps o) items out.
Lemma item_one ps out l t k sep v : found ps out -> strip l = t -> is_file t = false -> split_key t = (k, sep, v) -> found (ps ++ [(k, v)]) (item_step (map lower items) out l).
Proof.
  intros IH T NF SK. unfold item_step. rewrite T, NF, SK. destruct (in_strs (lower k) (map lower items)) eqn:E.
  - eapply set_index_forall2; [exact ND|exact E| | |exact IH].
    + intros key K. now apply last_value_new.
    + intros key o' K P. now apply last_value_skip.
  - apply in_strs_false in E. unfold found in *. clear ND. revert out IH. induction items as [|k2 its IHi]; intros o F; inversion F; subst; constructor.
    + apply last_value_skip; [|assumption]. intros Q. apply E. cbn [map]. now left.
    + apply IHi; [intros Q; apply E; cbn [map]; now right|assumption].
Qed.
Lemma strip_name d n : trimmed n -> strip (indent d ++ n ++ s ":") = n ++ s ":" /\ is_file (n ++ s ":") = true.
Proof.
  intros T. destruct (trimmed_first n T) as (c & r & Q & SP). split.
  - rewrite strip_indent. unfold strip. rewrite Q. cbn [app]. rewrite lstrip_nonblank by exact SP. change (c :: r ++ s ":") with ((c :: r) ++ s ":").
    rewrite rev_app_distr. cbn [rev app list_ascii_of_string]. rewrite lstrip_nonblank by reflexivity. cbn [rev]. rewrite rev_app_distr, rev_involutive. reflexivity.
  - unfold is_file. rewrite rev_app_distr. cbn [rev app list_ascii_of_string]. destruct (rev n) as [|e l] eqn:E; [|reflexivity]. exfalso.
    apply (f_equal (@rev ascii)) in E. rewrite rev_involutive in E. subst. discriminate.
Qed.
Lemma items_node x : forall d ps out, wf_node x -> found ps out ->
  found (ps ++ pairs_in x) (fold_left (item_step (map lower items)) (flat_map (print_node d) (kept_part x)) out).
Proof.
  induction x as [h|p a|n c IH] using hnode_ind'; intros d ps out W H.
  - inversion W as [? WH| |]; subst. destruct h as [k v|v|v|a]; cbn [kept_part flat_map print_node app fold_left pairs_in plains]; rewrite ?app_nil_r; try exact H.
    destruct WH as (_ & T & _ & NE & _). cbn [print_hline] in T. eapply item_one; [exact H|rewrite strip_indent; apply strip_trimmed, T|now apply trimmed_not_file|now apply split_key_eq].
  - inversion W as [|? ? WC|]; subst. cbn [kept_part flat_map print_node app fold_left pairs_in]. destruct WC as (_ & T & _ & NE & NS & AB & _).
    eapply item_one; [exact H|rewrite strip_indent; apply strip_trimmed, T|now apply trimmed_not_file|].
    destruct a as [|c a]; [destruct AB|]. change (command_line p (c :: a)) with (p ++ " "%char :: [] ++ c :: a) in *. apply split_key_blank; first [reflexivity|exact NE|exact NS|exact AB|constructor|idtac]. intros ->. destruct T as [T _]. discriminate T.
  - inversion W as [| |? ? WN OL WC]; subst. cbn [kept_part pairs_in].
    assert (forall ps out, found ps out -> found (ps ++ flat_map pairs_in c) (fold_left (item_step (map lower items)) (flat_map (print_node (S d)) (flat_map kept_part c)) out)) as L.
    { clear -IH WC. induction IH as [|x c Hx Hc IHc]; intros ps out H; [cbn; now rewrite app_nil_r|]. inversion WC; subst. cbn [flat_map]. rewrite flat_map_app, fold_left_app, app_assoc.
      apply IHc; [assumption|]. now apply Hx. }
    specialize (L ps out H). destruct (flat_map kept_part c) as [|y ys]; [exact L|]. cbn [flat_map print_node]. rewrite app_nil_r. cbn [fold_left].
    replace (item_step (map lower items) out (indent d ++ n ++ s ":")) with out; [exact L|]. destruct WN as (_ & T & _). destruct (strip_name d n T) as [E1 E2]. unfold item_step. now rewrite E1, E2.
Qed.
End Items.
Lemma header_items_nested (fill : nat -> str -> str -> str) ns items : fills fill -> Forall wf_node ns -> no_repeat (flat_map keys_in ns) -> NoDup (flat_map texts_in ns) ->
  Forall (fun l => (length l <= 4096)%nat) (flat_map (print_node 0) (flat_map kept_part ns)) -> NoDup (map lower items) ->
  exists out, header_items fill (flat_map (print_node 0) ns) items = Ok out /\
    Forall2 (fun key o => last_value key (flat_map pairs_in ns ++ map (fun v => (s "VIEW", v)) (last_of (flat_map views_in ns))) o) items out.
Proof.
  intros F W NR ND N NI. unfold header_items. rewrite (clean_nested_text fill 4096 ns F W NR ND N). cbn [bind]. eexists. split; [reflexivity|].
  assert (forall l ps out, Forall wf_node l -> found items ps out -> found items (ps ++ flat_map pairs_in l) (fold_left (item_step (map lower items)) (flat_map (print_node 0) (flat_map kept_part l)) out)) as L.
  { induction l as [|x l IH]; intros ps out WL H; [cbn; now rewrite app_nil_r|]. inversion WL; subst. cbn [flat_map]. rewrite flat_map_app, fold_left_app, app_assoc. apply IH; [assumption|]. now apply items_node. }
  rewrite fold_left_app. assert (found items [] (map (fun _ => []) (map lower items))) as B.
  { unfold found. clear. induction items; cbn [map]; constructor; auto. right. split; [constructor|reflexivity]. }
  specialize (L ns [] _ W B). cbn [app] in L. set (o := fold_left _ _ _) in *. clearbody o.
  destruct (last_of (flat_map views_in ns)) as [|v vs] eqn:Q; [cbn [map fold_left]; now rewrite app_nil_r|].
  assert (vs = []) as -> by (unfold last_of in Q; destruct (rev (flat_map views_in ns)); [discriminate|now injection Q]). cbn [map fold_left].
  assert (wf_hline (HView v)) as WV.
  { assert (In v (last_of (flat_map views_in ns))) as V by (rewrite Q; now left). apply last_of_in, in_flat_map in V. destruct V as (x & X & V). rewrite Forall_forall in W. apply (view_wf v x); auto. }
  destruct WV as (_ & T & _). cbn [print_hline] in T. eapply (item_one items NI); [exact L|apply strip_trimmed, T|now apply trimmed_not_file|].
  change (s "VIEW=" ++ v) with (s "VIEW" ++ s "=" ++ v). apply split_key_eq. cbn. intuition discriminate.
Qed.
(** * concrete headers *)
Lemma clean_bad_program fill : fills fill ->
  clean_header fill [s "a.hdr:"; tab ++ s "pcomb x.hdr y.hdr"; s "pcomb -s 2 a.hdr"] = Ok [s "a.hdr:"; tab ++ s "pcomb x.hdr y.hdr -s 2 a.hdr"].
Proof. intros F. rewrite clean_run by (try exact F; vm_compute; reflexivity). vm_compute. reflexivity. Qed.
Lemma clean_bad_empty fill : fills fill -> exists out,
  clean_header fill [s "pcomb x.hdr"; s "a.hdr:"; s "pcomb a.hdr"] = Ok out /\ clean_header fill out = Ok [s "pcomb x.hdr a.hdr"] /\ out <> [s "pcomb x.hdr a.hdr"].
Proof.
  intros F. exists [s "pcomb x.hdr"; s "pcomb a.hdr"]. split; [|split; [|discriminate]]; (rewrite clean_run by (try exact F; vm_compute; reflexivity)); vm_compute; reflexivity.
Qed.
(** the header of a picture that pcomb made of a picture made by pcomb, and of another one *)
Definition pcomb_header : list hnode :=
  [Nested (s "a.hdr") [
     Nested (s "x.hdr") [Command (s "rpict") (s "-vp 0 0 0 x.oct"); Entry (HView (s " -vtv")); Entry (HPlain (s "EXPOSURE") (s "2"))];
     Nested (s "y.hdr") [Command (s "rpict") (s "-vp 0 0 0 y.oct"); Entry (HView (s " -vta")); Entry (HPlain (s "EXPOSURE") (s "3"))];
     Command (s "pcomb") (s "x.hdr y.hdr"); Entry (HFormat (s "32-bit_rle_rgbe"))];
   Nested (s "b.hdr") [Entry (HFormat (s "32-bit_rle_rgbe"))];
   Entry (HPlain (s "SOFTWARE") (s " RADIANCE")); Command (s "pcomb") (s "a.hdr b.hdr")].
