From Coq Require Import Ascii String Lia.
From Verif Require Import Base L_Base M_Translate M_Mapper M_Utility M_Header S_Header L_Header L_Header2 L_Header3 L_Header5 S_Nested L_Nested L_Nested2 M_Wrap S_Wrap L_Wrap.
Import ListNotations.
Local Open Scope list_scope.

Lemma preprocess_nested ns : Forall wf_node ns -> no_repeat (flat_map keys_in ns) -> NoDup (flat_map texts_in ns) ->
  exists st, preprocess (join newline (flat_map (print_node 0) ns)) = Ok st /\ clean_up (h_files st) = flat_map (print_node 0) (flat_map kept_part ns) /\
    view_list (h_view st) = last_of (flat_map views_in ns).
Proof.
  intros W NR ND. unfold preprocess. destruct (nodes_lines ns 0 W) as [O1 O2]. rewrite splitlines_join by assumption.
  assert (Forall runs ns) as R by (apply Forall_forall; intros x _; apply runs_all).
  destruct (runs_list ns R 0 [] None [] h_init None W) as (st & C & cur & E & H & CL & V & VW & _).
  { split; [reflexivity|]. repeat split; constructor. }
  { split; [exact I|exact NR]. }
  { reflexivity. }
  { exact ND. }
  exists st. split; [exact E|]. split; [|exact VW].
  unfold clean_up. destruct H as [_ H]. change (cleaned 0 [] None) with (@nil str) in CL. cbn [app] in CL. rewrite <- CL. unfold cleaned, all_items.
  destruct cur as [[[id n] c]|]; destruct H as (-> & _); cbn [close length]; [|rewrite app_nil_r]; reflexivity.
Qed.
(** the lines of a cleaned tree *)
Lemma print_places x : forall d, flat_map (print_node d) (kept_part x) = map (fun p => node_line (fst p) (snd p)) (flat_map (places d) (kept_part x)).
Proof.
  induction x as [h|p a|n c IH] using hnode_ind'; intros d; [destruct h; reflexivity|reflexivity|]. cbn [kept_part].
  assert (flat_map (print_node (S d)) (flat_map kept_part c) = map (fun p => node_line (fst p) (snd p)) (flat_map (places (S d)) (flat_map kept_part c))) as L.
  { induction IH as [|x c Hx Hc IHc]; [reflexivity|]. cbn [flat_map]. rewrite !flat_map_app, map_app. now rewrite Hx, IHc. }
  destruct (flat_map kept_part c) as [|y ys]; [reflexivity|]. cbn [flat_map print_node places]. rewrite !app_nil_r. cbn [map fst snd]. unfold node_line at 1. now f_equal.
Qed.
Lemma prints_places ns d : flat_map (print_node d) (flat_map kept_part ns) = map (fun p => node_line (fst p) (snd p)) (flat_map (places d) (flat_map kept_part ns)).
Proof. induction ns as [|x ns IH]; [reflexivity|]. cbn [flat_map]. rewrite !flat_map_app, map_app, IH. f_equal. apply print_places. Qed.
Lemma places_wf x : forall d, wf_node x -> Forall (fun p => wf_node (snd p)) (places d x).
Proof.
  induction x as [h|p a|n c IH] using hnode_ind'; intros d W; [constructor; [exact W|constructor]|constructor; [exact W|constructor]|]. cbn [places]. constructor; [exact W|].
  inversion W as [| |? ? WN OL WC]; subst. clear W OL. induction IH as [|x c Hx Hc IHc]; [constructor|]. inversion WC; subst. cbn [flat_map]. apply Forall_app. split; auto.
Qed.
Lemma places_wfs ns d : Forall wf_node ns -> Forall (fun p => wf_node (snd p)) (flat_map (places d) ns).
Proof. induction 1; [constructor|]. cbn [flat_map]. apply Forall_app. split; [now apply places_wf|assumption]. Qed.
Definition own_wf (x : hnode) (t key sep val : str) : Prop :=
  own_text x = t /\ trimmed t /\ one_line t /\ ~ occurs (s "clasp_tmp") t /\ split_key t = (key, sep, val) /\ t = key ++ sep ++ val /\ ~ In key [s "pvalue"; s "FORMAT"; s "VIEW"; s "..."].
Lemma own_ok x : own_line x -> wf_node x -> exists t key sep val, own_wf x t key sep val.
Proof.
  intros OL W. destruct x as [[k v|v|v|a]|p a|n c]; try destruct OL.
  - inversion W as [h WH| |]; subst. pose proof WH as (O & T & CL & NE & NB). exists (print_hline (HPlain k v)), k, (s "="), v. split; [reflexivity|]. split; [exact T|]. split; [exact O|]. split; [exact CL|]. cbn [print_hline]. split; [now apply split_key_eq|]. split; [reflexivity|exact NB].
  - inversion W as [|? ? WC|]; subst. destruct WC as (O & T & CL & NE & NS & AB & NB). exists (command_line p a), p, (s " "), a. split; [reflexivity|]. split; [exact T|]. split; [exact O|]. split; [exact CL|]. split; [|split; [reflexivity|exact NB]].
    destruct a as [|c a]; [destruct AB|]. change (command_line p (c :: a)) with (p ++ " "%char :: [] ++ c :: a) in *. apply split_key_blank; first [reflexivity|exact NE|exact NS|exact AB|constructor|idtac]. intros ->. destruct T as [T _]. discriminate T.
Qed.
Lemma lead_blank d t : trimmed t -> take_while is_space (indent d ++ t) = indent d.
Proof.
  intros T. destruct (trimmed_first _ T) as (c & r & -> & C). induction d as [|d IH]; cbn [indent repeat app take_while]; [now rewrite C|]. change (is_space "009") with true. cbv iota. now f_equal.
Qed.
Lemma wrap_indent_own d x : own_line x -> wf_node x -> wrap_indent (node_line d x) = hanging d x.
Proof.
  intros OL W. destruct (own_ok x OL W) as (t & key & sep & val & E & T & _).
  assert (node_line d x = indent d ++ t) as ->. { unfold node_line. destruct x; [now rewrite E|now rewrite E|destruct OL]. }
  unfold wrap_indent. rewrite strip_indent, (strip_trimmed _ T), (lead_blank d t T).
  destruct x as [[k v|v|v|a]|p a|n c]; try destruct OL; cbn [own_text] in E; subst t.
  - inversion W as [h WH| |]; subst. destruct WH as (_ & _ & _ & NE & _). assert (existsb (char_eqb "=") (k ++ s "=" ++ v) = true) as ->.
    { apply existsb_exists. exists "="%char. split; [apply in_or_app; right; now left|]. now apply char_eqb_true. }
    unfold hanging. f_equal. f_equal. change (s "=" ++ v) with ("="%char :: v).
    assert (Forall (fun c => negb (char_eqb c "=") = true) k) as A. { apply Forall_forall. intros c C. apply negb_true_iff, char_eqb_false. intros ->. contradiction. }
    pose proof (take_while_app _ k ("="%char :: v) A ltac:(reflexivity)) as [Q _]. exact Q.
  - inversion W as [|? ? WC|]; subst. destruct WC as (_ & _ & _ & NE & _). assert (existsb (char_eqb "=") (command_line p a) = false) as ->; [|reflexivity].
    destruct (existsb (char_eqb "=") (command_line p a)) eqn:Q; [|reflexivity]. apply existsb_exists in Q. destruct Q as (c & C & Q). apply char_eqb_true in Q. subst. contradiction.
Qed.
Lemma node_line_ok d x : wf_node x -> own_line x \/ (exists n c, x = Nested n c) -> one_line (node_line d x) /\ node_line d x <> [].
Proof.
  intros W [OL|(n & c & ->)].
  - destruct (own_ok x OL W) as (t & key & sep & val & E & T & O & _). assert (node_line d x = indent d ++ t) as ->. { unfold node_line. destruct x; [now rewrite E|now rewrite E|destruct OL]. }
    split; [apply Forall_app; split; [apply indent_line|exact O]|]. apply nonempty_app. destruct t; [destruct T as [[] _]|discriminate].
  - inversion W as [| |? ? WN _ _]; subst. destruct WN as (O & T & _). unfold node_line. split; [apply Forall_app; split; [apply indent_line|]; apply Forall_app; split; [exact O|repeat constructor]|].
    apply nonempty_app, nonempty_app. discriminate.
Qed.
Lemma kept_places x : forall d, Forall (fun p => own_line (snd p) \/ exists n c, snd p = Nested n c) (flat_map (places d) (kept_part x)).
Proof.
  induction x as [h|p a|n c IH] using hnode_ind'; intros d; [destruct h; try constructor; [left; exact I|constructor]|constructor; [left; exact I|constructor]|]. cbn [kept_part].
  assert (Forall (fun p => own_line (snd p) \/ exists n c, snd p = Nested n c) (flat_map (places (S d)) (flat_map kept_part c))) as L.
  { induction IH as [|x c Hx Hc IHc]; [constructor|]. cbn [flat_map]. rewrite flat_map_app. apply Forall_app. split; auto. }
  destruct (flat_map kept_part c) as [|y ys]; [constructor|]. cbn [flat_map places]. rewrite app_nil_r. constructor; [right; cbn; eauto|exact L].
Qed.
Lemma kepts_places ns d : Forall (fun p => own_line (snd p) \/ exists n c, snd p = Nested n c) (flat_map (places d) (flat_map kept_part ns)).
Proof. induction ns as [|x ns IH]; [constructor|]. cbn [flat_map]. rewrite flat_map_app. apply Forall_app. split; [apply kept_places|exact IH]. Qed.

(** * joined and split again *)
Lemma join_app (a b : list str) : a <> [] -> b <> [] -> join newline (a ++ b) = join newline a ++ newline ++ join newline b.
Proof.
  intros A B. induction a as [|x a IH]; [contradiction|]. destruct a as [|y a].
  - cbn [app]. destruct b; [contradiction|reflexivity].
  - change (join newline ((x :: y :: a) ++ b)) with (x ++ newline ++ join newline ((y :: a) ++ b)). rewrite IH by discriminate. change (join newline (x :: y :: a)) with (x ++ newline ++ join newline (y :: a)). now rewrite <- !app_assoc.
Qed.
Lemma join_parts (parts : list (list str)) : Forall (fun p => p <> []) parts -> join newline (map (join newline) parts) = join newline (concat parts).
Proof.
  induction parts as [|p parts IH]; intros N; [reflexivity|]. inversion N as [|? ? N1 N2]; subst. cbn [map concat]. destruct parts as [|p2 parts]; [cbn; now rewrite app_nil_r|].
  rewrite join_app; [|exact N1|inversion N2; subst; cbn [concat]; destruct p2; [contradiction|discriminate]]. rewrite <- (IH N2). reflexivity.
Qed.
Lemma wrap_all_parts fuel width lines parts : Forall2 (fun i p => wrap fuel width i (wrap_indent i) = Some p) lines parts -> wrap_all fuel width lines = Some (map (join newline) parts).
Proof. induction 1 as [|i p lines parts E F IH]; [reflexivity|]. cbn [wrap_all map]. now rewrite E, IH. Qed.
Lemma one_line_app a b : one_line (a ++ b) <-> one_line a /\ one_line b.
Proof. apply Forall_app. Qed.
Lemma one_line_concat l : one_line (concat l) -> Forall one_line l.
Proof. induction l as [|x l IH]; intros H; [constructor|]. cbn [concat] in H. apply one_line_app in H. destruct H. constructor; auto. Qed.
Lemma hanging_line d x : own_line x -> wf_node x -> one_line (hanging d x).
Proof.
  intros OL W. unfold hanging. apply one_line_app. split; [apply indent_line|]. destruct x as [[k v|v|v|a]|p a|n c]; try destruct OL; [|repeat constructor].
  inversion W as [h WH| |]; subst. destruct WH as (O & _). cbn [print_hline] in O. apply one_line_app in O. apply one_line_app. split; [apply O|repeat constructor].
Qed.
(** one line of the tree *)
Lemma wrap_place width p fuel : wf_node (snd p) -> own_line (snd p) \/ (exists n c, snd p = Nested n c) -> roomy width p -> (length (node_line (fst p) (snd p)) < fuel)%nat ->
  exists out, wrap fuel width (node_line (fst p) (snd p)) (wrap_indent (node_line (fst p) (snd p))) = Some out /\ broken width p out /\ out <> [] /\ Forall one_line out /\ Forall (fun l => l <> []) out.
Proof.
  destruct p as [d x]. cbn [fst snd]. intros W K R L. destruct (node_line_ok d x W K) as [O NE]. destruct fuel as [|fuel]; [lia|].
  destruct (le_lt_dec (length (node_line d x)) width) as [S|S].
  - rewrite wrap_short by assumption. eexists. split; [reflexivity|]. split; [|split; [discriminate|split; constructor; auto]]. exists (node_line d x), []. cbn [concat map fst snd]. rewrite app_nil_r. split; [reflexivity|]. split; [reflexivity|]. constructor; auto.
  - destruct R as [R|[OL R]]; [cbn [fst snd] in R; lia|]. cbn [fst snd] in *. rewrite (wrap_indent_own d x OL W). destruct (wrap_ok width (hanging d x) (node_line d x) (Datatypes.S fuel) R ltac:(lia) NE) as (first & rest & E & CC & FN & RN & LL).
    rewrite E. eexists. split; [reflexivity|]. split; [exists first, rest; cbn [fst snd]; auto|]. split; [discriminate|]. rewrite <- CC in O. apply one_line_app in O. destruct O as [O1 O2]. apply one_line_concat in O2.
    split; (constructor; [assumption|]); apply Forall_map, Forall_forall; intros r Q.
    + apply one_line_app. split; [now apply hanging_line|]. exact (proj1 (Forall_forall _ _) O2 r Q).
    + apply nonempty_app. exact (proj1 (Forall_forall _ _) RN r Q).
Qed.
Definition longest (lines : list str) : nat := fold_right (fun l m => Nat.max (length l) m) 0%nat lines.
Lemma longest_in lines l : In l lines -> (length l <= longest lines)%nat.
Proof. induction lines as [|y ys IH]; intros H; [destruct H|]. cbn [longest fold_right]. destruct H as [->|H]; [lia|]. specialize (IH H). unfold longest in IH. lia. Qed.
Lemma wrap_places width fuel ps : Forall (fun p => wf_node (snd p)) ps -> Forall (fun p => own_line (snd p) \/ exists n c, snd p = Nested n c) ps -> Forall (roomy width) ps ->
  Forall (fun p => (length (node_line (fst p) (snd p)) < fuel)%nat) ps ->
  exists parts, wrap_all fuel width (map (fun p => node_line (fst p) (snd p)) ps) = Some (map (join newline) parts) /\ Forall2 (broken width) ps parts /\
    splitlines (join newline (map (join newline) parts)) = concat parts.
Proof.
  intros W K R L. assert (exists parts, Forall2 (fun i p => wrap fuel width i (wrap_indent i) = Some p) (map (fun p => node_line (fst p) (snd p)) ps) parts /\ Forall2 (broken width) ps parts /\
    Forall (fun p => p <> []) parts /\ Forall one_line (concat parts) /\ Forall (fun l => l <> []) (concat parts)) as (parts & A & B & N & O & NE).
  { induction ps as [|p ps IH]; [exists []; repeat split; constructor|]. inversion W; inversion K; inversion R; inversion L; subst. destruct IH as (parts & A & B & N & O & NE); auto.
    destruct (wrap_place width p fuel) as (out & E & BR & N1 & O1 & NE1); auto. exists (out :: parts). cbn [map concat]. split; [constructor; auto|]. split; [constructor; auto|]. split; [constructor; auto|].
    split; apply Forall_app; auto. }
  exists parts. split; [now apply wrap_all_parts|]. split; [exact B|]. rewrite join_parts by exact N. now apply splitlines_join.
Qed.
Definition enough (ns : list hnode) : nat := S (longest (flat_map (print_node 0) (flat_map kept_part ns))).
Lemma clean_wrapped width ns fuel : Forall wf_node ns -> no_repeat (flat_map keys_in ns) -> NoDup (flat_map texts_in ns) -> Forall (roomy width) (flat_map (places 0) (flat_map kept_part ns)) ->
  (enough ns <= fuel)%nat -> exists parts, Forall2 (broken width) (flat_map (places 0) (flat_map kept_part ns)) parts /\
    clean_run fuel width (join newline (flat_map (print_node 0) ns)) = Some (Ok (concat parts ++ map (fun v => s "VIEW=" ++ v) (last_of (flat_map views_in ns)))).
Proof.
  intros W NR ND R F. destruct (preprocess_nested ns W NR ND) as (st & E & CU & VW). unfold clean_run. rewrite E, CU, prints_places.
  destruct (wrap_places width fuel (flat_map (places 0) (flat_map kept_part ns))) as (parts & A & B & C).
  - apply places_wfs, kepts_wf, W.
  - apply kepts_places.
  - exact R.
  - apply Forall_forall. intros p P. assert (In (node_line (fst p) (snd p)) (flat_map (print_node 0) (flat_map kept_part ns))) as IN by (rewrite prints_places; apply in_map_iff; eauto). apply longest_in in IN. unfold enough in F. lia.
  - exists parts. split; [exact B|]. rewrite A, C. f_equal. f_equal. f_equal. destruct (h_view st) as [v|]; cbn [view_list] in VW; now rewrite <- VW.
Qed.
(** a key that is too long *)
Lemma clean_hangs k v : wf_hline (HPlain k v) -> (149 <= length k)%nat -> (150 < length (k ++ s "=" ++ v))%nat -> forall fuel, clean_header_run fuel [k ++ s "=" ++ v] = None.
Proof.
  intros W LK LT fuel. set (x := Entry (HPlain k v)). assert (wf_node x) as WX by (constructor; exact W).
  destruct (preprocess_nested [x]) as (st & E & CU & _); [constructor; [exact WX|constructor]|cbn; auto|cbn; constructor; [intros []|constructor]|]. cbn [flat_map print_node kept_part app x] in E, CU. change (indent 0 ++ ?y) with y in E, CU.
  unfold clean_header_run, clean_run. cbn [indent repeat app print_hline] in E, CU. match goal with |- context [preprocess ?a] => replace (preprocess a) with (Ok st) by (symmetry; exact E) end. rewrite CU. cbn [wrap_all].
  pose proof (wrap_indent_own 0 x I WX) as H. unfold node_line in H. cbn [x own_text indent repeat app] in H. rewrite H. rewrite wrap_hangs; [reflexivity| |exact LT]. unfold hanging, x. cbn [indent repeat app]. rewrite app_length. cbn [length list_ascii_of_string]. lia.
Qed.
