From Coq Require Import Ascii String Lia.
From Verif Require Import Base L_Base M_Translate M_Mapper M_Utility M_Header S_Header L_Header.
Import ListNotations.
Local Open Scope list_scope.

(** * the nested list keeps invariants of its texts *)
Fixpoint item_ind' (P : item -> Prop) (HL : forall l, P (Line l))
  (HF : forall id n d c, Forall P c -> P (File id n d c)) (t : item) : P t :=
  match t with
  | Line l => HL l
  | File id n d c => HF id n d c ((fix go (c : list item) : Forall P c :=
      match c with [] => Forall_nil P | t :: c => Forall_cons t (item_ind' P HL HF t) (go c) end) c)
  end.
Fixpoint texts (t : item) : list (bool * str) :=
  match t with Line l => [(true, l)] | File _ n _ c => (false, n) :: flat_map texts c end.
Section Inv.
Variable P : bool * str -> Prop.
Definition item_ok (t : item) : Prop := Forall P (texts t).
Definition data_ok (l : list item) : Prop := Forall item_ok l.
Lemma file_ok i n d c : item_ok (File i n d c) <-> P (false, n) /\ data_ok c.
Proof.
  unfold item_ok, data_ok. cbn [texts]. rewrite Forall_cons_iff, Forall_flat_map. reflexivity.
Qed.
Lemma line_ok l : item_ok (Line l) <-> P (true, l).
Proof. unfold item_ok. cbn [texts]. rewrite Forall_cons_iff. split; [tauto|intros H; split; [exact H|constructor]]. Qed.
Lemma on_content_ok id f t : (forall c, data_ok c -> data_ok (f c)) -> item_ok t -> item_ok (on_content id f t).
Proof.
  intros F. induction t as [l|i n d c IH] using item_ind'; intros H; cbn [on_content]; [exact H|].
  apply file_ok in H. destruct H as [Hn Hc]. destruct (i =? id)%nat; apply file_ok; split; auto.
  clear Hn. induction c as [|t c IHc]; [constructor|]. inversion Hc; inversion IH; subst. constructor; auto. now apply IHc.
Qed.
Lemma update_ok cur f files : (forall c, data_ok c -> data_ok (f c)) -> data_ok files -> data_ok (update cur f files).
Proof.
  intros F H. destruct cur; cbn [update]; [|auto]. apply Forall_map. eapply Forall_impl; [|exact H]. intros t. apply on_content_ok, F.
Qed.
Lemma find_content_ok id t c : item_ok t -> find_content id t = Some c -> data_ok c.
Proof.
  induction t as [l|i n d x IH] using item_ind'; cbn [find_content]; [discriminate|]. intros H. apply file_ok in H. destruct H as [_ H].
  destruct (i =? id)%nat; [intros E; now inversion E; subst|]. induction x as [|t x IHx]; [discriminate|].
  inversion H; inversion IH; subst. destruct (find_content id t) eqn:E; [intros Q; inversion Q; subst; eauto|eauto].
Qed.
Lemma content_ok cur files : P (false, []) -> data_ok files -> data_ok (content_of cur files).
Proof.
  intros N H. destruct cur as [id|]; cbn [content_of]; [|exact H]. destruct (find_content id (File 0 [] 0 files)) as [c|] eqn:E; [|constructor].
  eapply find_content_ok; [|exact E]. apply file_ok. auto.
Qed.
Lemma pop_ok v t : forall idx, item_ok t -> item_ok (fst (pop_promote v idx t)).
Proof.
  induction t as [l|i n d c IH] using item_ind'; intros idx H; cbn [pop_promote]; [exact H|]. cbn [fst]. apply file_ok in H. destruct H as [Hn Hc].
  apply file_ok. split; [exact Hn|]. clear Hn. generalize 0%nat as j. induction c as [|t c IHc]; intros j; [constructor|].
  inversion Hc; inversion IH; subst. destruct t as [x|i' n' d' c'].
  - destruct (str_eqb x v); [destruct idx; cbn [fst]; auto|]. cbn [fst]. constructor; auto. now apply IHc.
  - cbn [fst]. constructor; auto.
Qed.
Lemma insert_ok p pos x : forall data data', P (true, x) -> data_ok data -> insert_path p pos x data = Ok data' -> data_ok data'.
Proof.
  induction p as [|j p IH]; intros data data' X H E; cbn [insert_path] in E.
  - inversion E. rewrite <- (firstn_skipn pos data) in H. apply Forall_app in H. destruct H. apply Forall_app. split; [assumption|].
    constructor; [now apply line_ok|assumption].
  - destruct (nth_error data j) as [[l|i n d c]|] eqn:N; try discriminate. destruct (insert_path p pos x c) as [c'|] eqn:Q; [|discriminate].
    cbn [bind] in E. inversion E. unfold data_ok in *. pose proof (proj1 (Forall_forall _ _) H _ (nth_error_In _ _ N)) as F. apply file_ok in F. destruct F as [Fn Fc].
    apply Forall_app. split; [apply Forall_forall; intros t T; rewrite Forall_forall in H; apply H; rewrite <- (firstn_skipn j data); apply in_or_app; now left|].
    constructor; [apply file_ok; split; [exact Fn|eapply IH; eauto]|].
    apply Forall_forall; intros t T; rewrite Forall_forall in H; apply H. rewrite <- (firstn_skipn (S j) data); apply in_or_app; now right.
Qed.
Lemma promote_ok cl files files' : P (false, []) -> P (true, cl) -> data_ok files -> promote cl files = Ok files' -> data_ok files'.
Proof.
  intros N X H E. unfold promote in E. pose proof (pop_ok cl (File 0 [] 0 files) [] ltac:(apply file_ok; auto)) as Q.
  destruct (pop_promote cl [] (File 0 [] 0 files)) as [[l|i n d f] o]; [discriminate|]. cbn [fst] in Q. apply file_ok in Q. destruct Q as [_ Q].
  destruct o as [idx|]; [|inversion E; now subst]. destruct (nth_error idx (length idx - 2)); [|discriminate]. eapply insert_ok; eauto.
Qed.
Lemma append_last_ok x data data' : (forall y, P (true, y) -> P (true, y ++ x)) -> data_ok data -> append_to_last x data = Ok data' -> data_ok data'.
Proof.
  intros X H E. unfold append_to_last in E. assert (data_ok (rev data)) as R by (apply Forall_rev, H).
  destruct (rev data) as [|[y|i n d c] r]; try discriminate. inversion R; subst. inversion E. apply Forall_app. split; [apply Forall_rev; assumption|].
  constructor; [|constructor]. apply line_ok, X. now apply line_ok.
Qed.
End Inv.

(** * one line of text *)
Lemma one_line_app a b : one_line (a ++ b) <-> one_line a /\ one_line b.
Proof. apply Forall_app. Qed.
Lemma one_line_incl a b : (forall c, In c a -> In c b) -> one_line b -> one_line a.
Proof. intros I H. apply Forall_forall. intros c C. unfold one_line in H. rewrite Forall_forall in H. auto. Qed.
Lemma lstrip_incl l c : In c (lstrip l) -> In c l.
Proof. destruct (lstrip_suffix l) as [a E]. intros H. rewrite E. apply in_or_app. now right. Qed.
Lemma strip_incl l c : In c (strip l) -> In c l.
Proof. unfold strip. intros H. apply in_rev, lstrip_incl, in_rev, lstrip_incl in H. exact H. Qed.
Lemma clasp_word_one w : one_line w -> one_line (clasp_word w).
Proof.
  intros W. unfold clasp_word. destruct (last_after (s "clasp_tmp") w) as [r|] eqn:E; [|exact W].
  apply one_line_app. split; [repeat constructor|]. eapply one_line_incl; [|exact W]. intros c C. apply drop_while_incl in C. exact (last_after_incl _ _ _ E c C).
Qed.
Lemma sub_clasp_one l : forall acc, one_line acc -> one_line l -> one_line (sub_clasp_from acc l).
Proof.
  induction l as [|c l IH]; intros acc A L; cbn [sub_clasp_from].
  - apply clasp_word_one. eapply one_line_incl; [|exact A]. intros c C. now apply in_rev.
  - inversion L; subst. destruct (is_space c).
    + apply one_line_app. split; [apply clasp_word_one; eapply one_line_incl; [|exact A]; intros d C; now apply in_rev|]. constructor; auto. apply IH; auto. constructor.
    + apply IH; [now constructor|assumption].
Qed.
Lemma line_text_one h : one_line h -> one_line (line_text h).
Proof. intros H. apply sub_clasp_one; [constructor|]. eapply one_line_incl; [apply strip_incl|exact H]. Qed.
Lemma splitlines_one l : forall acc, one_line acc -> Forall one_line (splitlines_from acc l).
Proof.
  assert (forall acc, one_line acc -> one_line (rev acc)) as R by (intros acc; apply one_line_incl; intros c C; now apply in_rev).
  assert (forall n l acc, (length l <= n)%nat -> one_line acc -> Forall one_line (splitlines_from acc l)) as G.
  { induction n as [|n IH]; intros l0 acc N A.
    - destruct l0; [|simpl in N; lia]. cbn. destruct acc; [constructor|]. constructor; [apply (R _ A)|constructor].
    - destruct l0 as [|c l0]; [cbn; destruct acc; [constructor|]; constructor; [apply (R _ A)|constructor]|].
      cbn [length] in N.
      assert (Forall one_line (if is_break c then rev acc :: splitlines_from [] l0 else splitlines_from (c :: acc) l0)) as D.
      { destruct (is_break c) eqn:B; [constructor; [apply R, A|apply IH; [lia|constructor]]|apply IH; [lia|now constructor]]. }
      destruct c as [[] [] [] [] [] [] [] []]; try exact D. destruct l0 as [|c2 l0]; [exact D|]. cbn [length] in N.
      destruct c2 as [[] [] [] [] [] [] [] []]; try exact D. cbn [splitlines_from]. constructor; [apply R, A|apply IH; [lia|constructor]]. }
  intros acc. now apply (G (length l)).
Qed.

(** splitlines undoes join for non-empty single lines *)
Lemma splitlines_step c acc l : is_break c = false -> splitlines_from acc (c :: l) = splitlines_from (c :: acc) l.
Proof. intros B. destruct c as [[] [] [] [] [] [] [] []]; try reflexivity; discriminate B. Qed.
Lemma splitlines_run a : forall acc l, one_line a -> splitlines_from acc (a ++ l) = splitlines_from (rev a ++ acc) l.
Proof.
  induction a as [|c a IH]; intros acc l H; [reflexivity|]. inversion H; subst. cbn [app rev]. rewrite splitlines_step by assumption.
  rewrite IH by assumption. now rewrite <- app_assoc.
Qed.
Lemma splitlines_join ls : Forall one_line ls -> Forall (fun l => l <> []) ls -> splitlines (join newline ls) = ls.
Proof.
  intros O N. unfold splitlines. induction ls as [|a ls IH]; [reflexivity|]. inversion O; inversion N; subst. destruct ls as [|b ls].
  - cbn [join]. rewrite <- (app_nil_r a), splitlines_run, !app_nil_r by assumption. cbn [splitlines_from]. destruct (rev a) eqn:E.
    + exfalso. apply H5. rewrite <- (rev_involutive a), E. reflexivity.
    + rewrite <- E, rev_involutive. reflexivity.
  - change (join newline (a :: b :: ls)) with (a ++ "010"%char :: join newline (b :: ls)). rewrite splitlines_run, app_nil_r by assumption.
    cbn [splitlines_from]. change (is_break "010"%char) with true. cbv iota. rewrite rev_involutive. f_equal. now apply IH.
Qed.

(** * no stored line reads as a pvalue, FORMAT or VIEW entry *)
Definition banned : list str := [s "pvalue"; s "FORMAT"; s "VIEW"].
Definition good (x : str) : Prop := exists k r, ~ In k banned /\ ~ In "="%char k /\ first_ok k /\
  (x = k ++ s "=" ++ r \/ (nonblank k /\ k <> [] /\ x = k ++ s " " ++ r)).
Lemma good_app x y : good x -> good (x ++ y).
Proof.
  intros (k & r & B & E & F & H). exists k, (r ++ y). split; [exact B|]. split; [exact E|]. split; [exact F|].
  destruct H as [->|(N & K & ->)]; [left|right; split; [exact N|split; [exact K|]]]; now rewrite <- !app_assoc.
Qed.
Lemma good_first x : good x -> first_ok x /\ x <> [].
Proof.
  intros (k & r & _ & _ & F & H). destruct H as [->|(_ & K & ->)]; destruct k as [|c k]; try contradiction; (split; [|discriminate]); auto.
  reflexivity.
Qed.
Lemma take_while_first f c l : f c = true -> take_while f (c :: l) = c :: take_while f l.
Proof. intros H. cbn [take_while]. now rewrite H. Qed.
Lemma blank_not_banned k : In " "%char k -> ~ In k banned.
Proof. intros B [<-|[<-|[<-|[]]]]; cbn in B; repeat (destruct B as [B|B]; [discriminate B|]); destruct B. Qed.
Lemma split_suffix (p w k : str) c r : p ++ w = k ++ c :: r -> (exists r', p = k ++ c :: r') \/ (exists k', k = p ++ k' /\ w = k' ++ c :: r).
Proof.
  revert k. induction p as [|x p IH]; intros k E.
  - right. exists k. auto.
  - destruct k as [|y k]; cbn [app] in E; inversion E; subst; [left; now exists p|].
    destruct (IH k H1) as [[r' ->]|(k' & -> & ->)]; [left; now exists r'|right; now exists k'].
Qed.
Lemma good_reparse t x : Forall (fun c => is_space c = true) t -> good x -> ~ In (fst (fst (split_key (strip (t ++ x))))) banned.
Proof.
  intros T G. destruct (good_first x G) as [F N]. unfold strip. rewrite lstrip_blanks by (auto; destruct x; auto).
  assert (forall y, exists b, y = b ++ lstrip y /\ Forall (fun c => is_space c = true) b) as LS.
  { clear. induction y as [|d y [b [E B]]]; [exists []; auto|]. cbn [lstrip]. destruct (is_space d) eqn:S; [|exists []; auto].
    exists (d :: b). split; [cbn [app]; congruence|auto]. }
  destruct (LS (rev x)) as (b & E & B0). clear LS. set (p := rev (lstrip (rev x))).
  assert (x = p ++ rev b) as X by (unfold p; rewrite <- rev_app_distr, <- E; now rewrite rev_involutive).
  assert (Forall (fun c => is_space c = true) (rev b)) as B by now apply Forall_rev.
  clearbody p. clear E. destruct G as (k & r & NB & NE & FK & [H|(NK & K & H)]).
  - rewrite X in H. destruct (split_suffix p (rev b) k "=" r H) as [[r' ->]|(k' & -> & W)].
    + change (k ++ "="%char :: r') with (k ++ s "=" ++ r'). rewrite (split_key_eq k r' NE). exact NB.
    + exfalso. rewrite W in B. apply Forall_app in B. destruct B as [_ B]. inversion B. discriminate.
  - rewrite X in H. assert (exists r', p = k \/ p = k ++ s " " ++ r') as [r' P].
    { destruct (split_suffix p (rev b) k " " r H) as [[r' ->]|(k' & Q & W)]; [exists r'; now right|]. exists []. left.
      destruct k' as [|c k']; [now rewrite app_nil_r in Q|]. exfalso. rewrite W in B. inversion B; subst. unfold nonblank in NK.
      rewrite Forall_forall in NK. rewrite (NK c) in H2 by (apply in_or_app; right; now left). discriminate. }
    destruct P as [-> | ->].
    + rewrite split_key_word by assumption. exact NB.
    + unfold split_key. destruct (existsb (char_eqb "=") (k ++ s " " ++ r')) eqn:Q.
      * cbn [fst]. apply blank_not_banned. clear -NE. induction k as [|c k IH]; [now left|].
        cbn [app take_while]. replace (negb (char_eqb c "=")) with true; [right; apply IH; intros H; apply NE; now right|].
        symmetry. apply negb_true_iff, char_eqb_false. intros ->. apply NE. now left.
      * assert (lstrip (k ++ s " " ++ r') = k ++ s " " ++ r') as ->.
        { destruct k as [|c k]; [contradiction|]. now apply lstrip_nonblank. }
        destruct (lstrip (drop_while (fun c => negb (is_space c)) (k ++ s " " ++ r'))).
        -- cbn [fst]. apply blank_not_banned, in_or_app. right. now left.
        -- cbn [fst]. destruct (take_while_app (fun c => negb (is_space c)) k (s " " ++ r') (negb_space _ NK) eq_refl) as [-> _]. exact NB.
Qed.

Definition ok_text (p : bool * str) : Prop := one_line (snd p) /\ (fst p = true -> good (snd p)).
Definition st_ok (st : hstate) : Prop := data_ok ok_text (h_files st) /\ Forall (fun v => ok_text (true, v)) (h_vals st).
Lemma split_key_one cl : one_line cl -> one_line (fst (fst (split_key cl))) /\ one_line (snd (fst (split_key cl))) /\ one_line (snd (split_key cl)).
Proof.
  assert (forall f l c, In c (take_while f l) -> In c l) as T.
  { intros f l. induction l as [|d l IH]; intros c H; [destruct H|]. cbn [take_while] in H. destruct (f d); [|destruct H]. destruct H as [->|H]; [now left|right; auto]. }
  intros H. unfold split_key. destruct (existsb _ cl).
  - cbn [fst snd]. split; [eapply one_line_incl; [apply T|exact H]|]. split; [repeat constructor|]. eapply one_line_incl; [|exact H].
    intros c C. apply (drop_while_incl (fun c => negb (char_eqb c "="))). destruct (drop_while _ cl); [destruct C|now right].
  - destruct (lstrip _) as [|d v] eqn:E; cbn [fst snd].
    + split; [exact H|]. split; repeat constructor.
    + split; [eapply one_line_incl; [|exact H]; intros c C; eapply lstrip_incl, T, C|]. split; [repeat constructor|].
      eapply one_line_incl; [|exact H]. intros c C. rewrite <- E in C. eapply lstrip_incl, drop_while_incl, lstrip_incl, C.
Qed.
Lemma append_str_ok x vals vals' : one_line x -> Forall (fun v => ok_text (true, v)) vals -> append_to_last_str x vals = Ok vals' -> Forall (fun v => ok_text (true, v)) vals'.
Proof.
  intros X H E. unfold append_to_last_str in E. apply Forall_rev in H. destruct (rev vals) as [|y r]; [discriminate|]. inversion H; subst. inversion E.
  apply Forall_app. split; [now apply Forall_rev|]. constructor; [|constructor]. destruct H2 as [A B]. cbn [fst snd] in *. split; cbn [fst snd]; [now apply one_line_app|]. intros _. now apply good_app, B.
Qed.
Lemma update_fun_ok P cur c files : data_ok P c -> data_ok P files -> data_ok P (update cur (fun _ => c) files).
Proof. intros C F. apply update_ok; auto. Qed.
Lemma step_ok st h st' : one_line h -> line_text h <> [] -> st_ok st -> step_line st h = Ok st' -> st_ok st'.
Proof.
  intros O NE [HF HV] H. unfold step_line in H. fold (line_text h) in H. pose proof (line_text_one h O) as L. destruct (line_text_ends h) as [FO LO].
  assert (ok_text (false, [])) as OK0 by (split; [constructor|discriminate]).
  destruct (is_file (line_text h)).
  - inversion H. split; [|exact HV]. cbn [h_files step_file]. apply update_ok; [|exact HF]. intros c C. apply Forall_app. split; [exact C|].
    constructor; [|constructor]. apply file_ok. split; [|constructor]. split; [|discriminate]. cbn [snd]. eapply one_line_incl; [|exact L].
    intros c0 C0. unfold file_name in C0. assert (forall (l : str) c, In c (removelast l) -> In c l) as RL.
    { clear. induction l as [|d l IH]; intros c H; [destruct H|]. cbn [removelast] in H. destruct l as [|e l]; [destruct H|]. destruct H as [->|H]; [now left|right; auto]. }
    apply RL, in_rev in C0. assert (forall f l c, In c (take_while f l) -> In c l) as T.
    { clear. intros f l. induction l as [|d l IH]; intros c H; [destruct H|]. cbn [take_while] in H. destruct (f d); [|destruct H]. destruct H as [->|H]; [now left|right; auto]. }
    apply T, in_rev in C0. exact C0.
  - pose proof (split_key_one (line_text h) L) as (O1 & O2 & O3). pose proof (entry_of_split_key _ FO LO) as EN.
    assert (snd (fst (split_key (line_text h))) = if existsb (char_eqb "=") (line_text h) then s "=" else s " ") as SEP.
    { unfold split_key. destruct (existsb _ _); [reflexivity|]. now destruct (lstrip _). }
    destruct (split_key (line_text h)) as [[key sep] val]. cbn [fst snd] in *.
    destruct (in_strs key [s "pvalue"; s "FORMAT"]) eqn:E1; [inversion H; subst; split; assumption|].
    destruct (str_eqb key (s "VIEW")) eqn:E2; [inversion H; subst; split; assumption|].
    assert (~ In key banned) as NB.
    { apply in_strs_false in E1. apply str_eqb_false in E2. intros [Q|[Q|[Q|[]]]]; [apply E1; left; exact Q|apply E1; right; left; exact Q|congruence]. }
    assert (one_line (s " " ++ lstrip val)) as OV by (apply one_line_app; split; [repeat constructor|eapply one_line_incl; [apply lstrip_incl|exact O3]]).
    assert (forall y, ok_text (true, y) -> ok_text (true, y ++ s " " ++ lstrip val)) as AP.
    { intros y [A B]. cbn [fst snd] in *. split; cbn [fst snd]; [now apply one_line_app|]. intros _. now apply good_app, B. }
    destruct (_ || _) in H.
    + destruct (append_to_last _ _) as [c|] eqn:Q1 in H; cbn [bind] in H; [|discriminate].
      destruct (append_to_last_str _ _) as [vals|] eqn:Q2 in H; cbn [bind] in H; [|discriminate]. inversion H. split; cbn [h_files h_vals].
      * apply update_fun_ok; [|exact HF]. eapply append_last_ok; [exact AP| |exact Q1]. now apply content_ok.
      * eapply append_str_ok; eauto.
    + destruct (in_strs (line_text h) (h_vals st)) eqn:Q in H.
      * destruct (promote _ _) as [f|] eqn:Q1 in H; cbn [bind] in H; [|discriminate]. inversion H. split; cbn [h_files h_vals]; [|exact HV].
        eapply promote_ok; [exact OK0| |exact HF|exact Q1]. apply in_strs_true in Q. rewrite Forall_forall in HV. now apply HV.
      * inversion H. assert (ok_text (true, key ++ sep ++ val)) as X.
        { split; cbn [fst snd]; [apply one_line_app; split; [exact O1|now apply one_line_app]|]. intros _. exists key, val. split; [exact NB|].
          destruct EN as [E NEQ|c w NEQ E C W K V|NEQ E V K].
          - split; [exact NEQ|]. split; [rewrite E in FO; destruct key; [exact I|exact FO]|]. left. rewrite SEP.
            replace (existsb (char_eqb "=") (line_text h)) with true; [reflexivity|]. symmetry. apply existsb_eq. rewrite E. apply in_or_app. right. now left.
          - assert (~ In "="%char key) as NK by (intros Q0; apply NEQ; rewrite E; apply in_or_app; now left).
            split; [exact NK|]. split; [now apply nonblank_first|]. right. rewrite SEP, no_eq_existsb by exact NEQ. split; [exact K|]. split; [|reflexivity].
            intros ->. rewrite E in FO. cbn in FO. congruence.
          - split; [rewrite <- E; exact NEQ|]. split; [now apply nonblank_first|]. right. rewrite SEP, no_eq_existsb by exact NEQ. split; [exact K|]. split; [|reflexivity].
            intros ->. contradiction. }
        split; cbn [h_files h_vals].
        -- apply update_ok; [|exact HF]. intros c C. apply Forall_app. split; [exact C|]. constructor; [|constructor]. now apply line_ok.
        -- apply Forall_app. split; [exact HV|]. constructor; [exact X|constructor].
Qed.
Lemma preprocess_ok lines : forall st st', Forall one_line lines -> Forall (fun h => line_text h <> []) lines -> st_ok st ->
  preprocess_from st lines = Ok st' -> st_ok st'.
Proof.
  induction lines as [|h lines IH]; intros st st' O N S H; cbn [preprocess_from] in H; [inversion H; now subst|].
  destruct (step_line st h) as [st1|] eqn:E; [|discriminate]. cbn [bind] in H. inversion O; inversion N; subst.
  eapply IH; [| | |exact H]; auto. now apply (step_ok st h).
Qed.
Lemma tabs_blank n : Forall (fun c => is_space c = true) (tabs n) /\ one_line (tabs n).
Proof. unfold tabs. split; apply Forall_forall; intros c C; apply repeat_spec in C; now subst. Qed.
