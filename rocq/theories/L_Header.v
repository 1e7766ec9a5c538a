From Coq Require Import Ascii String Lia.
From Verif Require Import Base L_Base M_Translate M_Mapper M_Utility M_Header S_Header.
Import ListNotations.
Local Open Scope list_scope.

(** * characters and strings *)
Lemma char_eqb_true a b : char_eqb a b = true <-> a = b.
Proof. unfold char_eqb. destruct (ascii_dec a b); split; auto; discriminate. Qed.
Lemma char_eqb_false a b : char_eqb a b = false <-> a <> b.
Proof. unfold char_eqb. destruct (ascii_dec a b); split; auto; try discriminate; contradiction. Qed.
Lemma str_eqb_true a b : str_eqb a b = true <-> a = b.
Proof. unfold str_eqb. destruct (list_eq_dec ascii_dec a b); split; auto; discriminate. Qed.
Lemma str_eqb_false a b : str_eqb a b = false <-> a <> b.
Proof. unfold str_eqb. destruct (list_eq_dec ascii_dec a b); split; auto; try discriminate; contradiction. Qed.
Lemma str_eqb_refl a : str_eqb a a = true.
Proof. now apply str_eqb_true. Qed.
Lemma in_strs_true x l : in_strs x l = true <-> In x l.
Proof.
  unfold in_strs. rewrite existsb_exists. split.
  - intros [y [H E]]. apply str_eqb_true in E. now subst.
  - intros H. exists x. split; [exact H|apply str_eqb_refl].
Qed.
Lemma in_strs_false x l : in_strs x l = false <-> ~ In x l.
Proof. rewrite <- in_strs_true. destruct (in_strs x l); split; congruence. Qed.

Lemma prefixb_spec p l : prefixb p l = true <-> exists b, l = p ++ b.
Proof.
  revert l. induction p as [|a p IH]; intros l; cbn [prefixb].
  - split; [intros _; now exists l|reflexivity].
  - destruct l as [|c l]; [split; [discriminate|intros [b E]; discriminate]|].
    rewrite andb_true_iff, IH, char_eqb_true. split.
    + intros [<- [b ->]]. now exists b.
    + intros [b E]. inversion E; subst. split; [reflexivity|now exists b].
Qed.
Lemma last_after_none p l : last_after p l = None <-> ~ occurs p l.
Proof.
  induction l as [|c l IH]; cbn [last_after].
  - destruct (prefixb p []) eqn:E.
    + apply prefixb_spec in E. destruct E as [b E]. split; [discriminate|]. intros H. exfalso. apply H. exists [], b. exact E.
    + split; [|reflexivity]. intros _ (a & b & H). symmetry in H. apply app_eq_nil in H. destruct H as [-> H].
      apply app_eq_nil in H. destruct H as [-> ->]. discriminate.
  - destruct (last_after p l) as [r|] eqn:E.
    + split; [discriminate|]. intros H. exfalso. assert (~ occurs p l) as N by (intros (a & b & ->); apply H; now exists (c :: a), b).
      apply IH in N. discriminate.
    + destruct (prefixb p (c :: l)) eqn:F.
      * apply prefixb_spec in F. destruct F as [b F]. split; [discriminate|]. intros H. exfalso. apply H. exists [], b. exact F.
      * split; [|reflexivity]. intros _ (a & b & H). destruct a as [|x a].
        -- assert (prefixb p (c :: l) = true) by (apply prefixb_spec; now exists b). congruence.
        -- inversion H; subst. destruct IH as [IH _]. apply (IH eq_refl). now exists a, b.
Qed.
Lemma prefixb_app p r : prefixb p (p ++ r) = true.
Proof. apply prefixb_spec. now exists r. Qed.
Lemma skipn_app_len {A} (p r : list A) : skipn (length p) (p ++ r) = r.
Proof. induction p; [reflexivity|exact IHp]. Qed.
(** the last occurrence is the one shown, if p does not occur later *)
Lemma last_after_at a c p r : ~ occurs (c :: p) (p ++ r) -> last_after (c :: p) (a ++ (c :: p) ++ r) = Some r.
Proof.
  intros N. induction a as [|x a IH].
  - cbn [app last_after]. apply last_after_none in N. cbn [app] in *. rewrite N.
    change (c :: p ++ r) with ((c :: p) ++ r). rewrite prefixb_app. f_equal. exact (skipn_app_len (c :: p) r).
  - cbn [app last_after]. cbn [app] in IH. rewrite IH. reflexivity.
Qed.

Lemma lstrip_nonblank c l : is_space c = false -> lstrip (c :: l) = c :: l.
Proof. intros H. cbn [lstrip]. now rewrite H. Qed.
Lemma strip_trimmed l : trimmed l -> strip l = l.
Proof.
  intros [A B]. unfold strip. destruct l as [|c l]; [destruct A|]. rewrite (lstrip_nonblank c l A).
  destruct (rev (c :: l)) as [|d r] eqn:E; [destruct B|]. destruct B as [B _]. rewrite (lstrip_nonblank d r B), <- E. apply rev_involutive.
Qed.
Lemma trimmed_not_file l : trimmed l -> is_file l = false.
Proof.
  intros [_ B]. unfold is_file. destruct (rev l) as [|d [|e r]]; [reflexivity|reflexivity|]. destruct B as [_ B]. now apply char_eqb_false.
Qed.
Lemma sub_clasp_none_from l : forall acc, ~ occurs (s "clasp_tmp") (rev acc ++ l) -> sub_clasp_from acc l = rev acc ++ l.
Proof.
  assert (forall w, ~ occurs (s "clasp_tmp") w -> clasp_word w = w) as W.
  { intros w H. unfold clasp_word. apply last_after_none in H. now rewrite H. }
  induction l as [|c l IH]; intros acc H; cbn [sub_clasp_from].
  - rewrite app_nil_r in *. now apply W.
  - destruct (is_space c).
    + rewrite W.
      * rewrite IH; [reflexivity|]. intros (a & b & E). apply H. exists (rev acc ++ c :: a), b. cbn [rev app] in E. rewrite E. now rewrite <- app_assoc.
      * intros (a & b & E). apply H. rewrite E. exists a, (b ++ c :: l). now rewrite <- !app_assoc.
    + rewrite IH; [cbn [rev]; now rewrite <- app_assoc|]. cbn [rev]. now rewrite <- app_assoc.
Qed.
Lemma sub_clasp_none l : ~ occurs (s "clasp_tmp") l -> sub_clasp l = l.
Proof. intros H. exact (sub_clasp_none_from l [] H). Qed.

Lemma take_while_app f a b : Forall (fun c => f c = true) a -> match b with c :: _ => f c = false | [] => True end ->
  take_while f (a ++ b) = a /\ drop_while f (a ++ b) = b.
Proof.
  intros A B. induction A as [|c a H _ IH]; cbn [app take_while drop_while].
  - destruct b as [|c b]; [easy|]. cbn [take_while drop_while]. now rewrite B.
  - rewrite H. destruct IH as [-> ->]. auto.
Qed.
Lemma existsb_eq l : existsb (char_eqb "=") l = true <-> In "="%char l.
Proof.
  rewrite existsb_exists. split; [intros [x [H E]]; apply char_eqb_true in E; now subst|intros H; exists "="%char; split; [exact H|now apply char_eqb_true]].
Qed.
Lemma no_eq_forall k : ~ In "="%char k -> Forall (fun c => negb (char_eqb c "=") = true) k.
Proof. intros H. apply Forall_forall. intros c C. apply negb_true_iff, char_eqb_false. intros ->. contradiction. Qed.
Lemma split_key_eq k v : ~ In "="%char k -> split_key (k ++ s "=" ++ v) = (k, s "=", v).
Proof.
  intros H. unfold split_key. replace (existsb (char_eqb "=") (k ++ s "=" ++ v)) with true
    by (symmetry; apply existsb_eq, in_or_app; right; left; reflexivity).
  destruct (take_while_app (fun c => negb (char_eqb c "=")) k (s "=" ++ v) (no_eq_forall k H) eq_refl) as [-> ->]. reflexivity.
Qed.
Lemma no_eq_existsb l : ~ In "="%char l -> existsb (char_eqb "=") l = false.
Proof. intros H. destruct (existsb (char_eqb "=") l) eqn:E; [|reflexivity]. apply existsb_eq in E. contradiction. Qed.
Lemma lstrip_blanks w l : Forall (fun c => is_space c = true) w -> match l with c :: _ => is_space c = false | [] => True end -> lstrip (w ++ l) = l.
Proof.
  intros W L. induction W as [|c w H _ IH]; cbn [app lstrip]; [|now rewrite H].
  destruct l as [|c l]; [reflexivity|]. now apply lstrip_nonblank.
Qed.
Lemma negb_space k : Forall (fun c => is_space c = false) k -> Forall (fun c => negb (is_space c) = true) k.
Proof. apply Forall_impl. intros c ->. reflexivity. Qed.
Lemma split_key_blank k c w v : ~ In "="%char (k ++ c :: w ++ v) -> is_space c = true -> Forall (fun c => is_space c = true) w ->
  k <> [] -> Forall (fun c => is_space c = false) k -> match v with c :: _ => is_space c = false | [] => False end ->
  split_key (k ++ c :: w ++ v) = (k, s " ", v).
Proof.
  intros N C W K K' V. unfold split_key. rewrite no_eq_existsb by exact N.
  assert (lstrip (k ++ c :: w ++ v) = k ++ c :: w ++ v) as ->.
  { destruct k as [|d k]; [contradiction|]. inversion K'; subst. now apply lstrip_nonblank. }
  destruct (take_while_app (fun c => negb (is_space c)) k (c :: w ++ v) (negb_space k K')) as [-> ->]; [now rewrite C|].
  change (c :: w ++ v) with ((c :: w) ++ v). rewrite lstrip_blanks; [|now constructor|destruct v; auto]. destruct v; [destruct V|reflexivity].
Qed.
Lemma split_key_word k : ~ In "="%char k -> Forall (fun c => is_space c = false) k -> split_key k = (k, s " ", []).
Proof.
  intros N K. unfold split_key. rewrite no_eq_existsb by exact N.
  destruct k as [|d k]; [reflexivity|]. assert (is_space d = false) by now inversion K. rewrite lstrip_nonblank by assumption.
  pose proof (take_while_app (fun c => negb (is_space c)) (d :: k) [] (negb_space _ K) I) as [_ E]. rewrite app_nil_r in E. now rewrite E.
Qed.
(** ends of a line *)
Definition first_ok (l : str) : Prop := match l with c :: _ => is_space c = false | [] => True end.
Definition last_ok (l : str) : Prop := first_ok (rev l).
Lemma first_ok_app a b : a <> [] -> first_ok (a ++ b) = first_ok a.
Proof. destruct a; [contradiction|reflexivity]. Qed.
Lemma last_ok_app a b : b <> [] -> last_ok (a ++ b) = last_ok b.
Proof. intros H. unfold last_ok. rewrite rev_app_distr. apply first_ok_app. intros E. apply H. rewrite <- (rev_involutive b), E. reflexivity. Qed.
Lemma lstrip_first l : first_ok (lstrip l).
Proof. induction l as [|c l IH]; [exact I|]. cbn [lstrip]. destruct (is_space c) eqn:E; [exact IH|exact E]. Qed.
Lemma lstrip_suffix l : exists a, l = a ++ lstrip l.
Proof.
  induction l as [|c l [a IH]]; [now exists []|]. cbn [lstrip]. destruct (is_space c); [exists (c :: a); cbn [app]; now rewrite <- IH|now exists []].
Qed.
Lemma strip_ends l : first_ok (strip l) /\ last_ok (strip l).
Proof.
  unfold strip. split.
  - destruct (lstrip_suffix (rev (lstrip l))) as [a E]. pose proof (lstrip_first l) as F.
    assert (lstrip l = rev (lstrip (rev (lstrip l))) ++ rev a) as G by (rewrite <- rev_app_distr, <- E; now rewrite rev_involutive).
    destruct (rev (lstrip (rev (lstrip l)))) as [|c r]; [exact I|]. rewrite G in F. exact F.
  - unfold last_ok. rewrite rev_involutive. apply lstrip_first.
Qed.
Definition nonblank (l : str) : Prop := Forall (fun c => is_space c = false) l.
Lemma drop_while_incl f l : forall c, In c (drop_while f l) -> In c l.
Proof. induction l as [|d l IH]; intros c H; [destruct H|]. cbn [drop_while] in H. destruct (f d); [right; auto|exact H]. Qed.
Lemma last_after_incl p l r : last_after p l = Some r -> forall c, In c r -> In c l.
Proof.
  revert r. induction l as [|d l IH]; intros r H c C; cbn [last_after] in H.
  - destruct (prefixb p []); [|discriminate]. inversion H; subst. destruct C.
  - destruct (last_after p l) as [x|]; [inversion H; subst; right; eauto|].
    destruct (prefixb p (d :: l)); [|discriminate]. inversion H; subst. rewrite <- (firstn_skipn (length p) (d :: l)). apply in_or_app. now right.
Qed.
Lemma clasp_word_nonblank w : nonblank w -> nonblank (clasp_word w).
Proof.
  intros W. unfold clasp_word. destruct (last_after (s "clasp_tmp") w) as [r|] eqn:E; [|exact W].
  apply Forall_app. split; [repeat constructor|]. apply Forall_forall. intros c C. apply drop_while_incl in C.
  apply (last_after_incl _ _ _ E) in C. unfold nonblank in W. rewrite Forall_forall in W. now apply W.
Qed.
Lemma clasp_word_nonempty w : w <> [] -> clasp_word w <> [].
Proof. intros W. unfold clasp_word. destruct (last_after (s "clasp_tmp") w); [discriminate|exact W]. Qed.
Lemma nonblank_first w : nonblank w -> first_ok w.
Proof. intros [|]; [exact I|assumption]. Qed.
Lemma nonblank_rev w : nonblank w -> nonblank (rev w).
Proof. intros H. apply Forall_forall. intros c C. apply in_rev in C. unfold nonblank in H. rewrite Forall_forall in H. auto. Qed.
Lemma nonblank_last w : nonblank w -> last_ok w.
Proof. intros W. apply nonblank_first, nonblank_rev, W. Qed.
Lemma sub_clasp_nonempty l : forall acc, l <> [] \/ acc <> [] -> sub_clasp_from acc l <> [].
Proof.
  induction l as [|c l IH]; intros acc H; cbn [sub_clasp_from].
  - destruct H as [H|H]; [contradiction|]. apply clasp_word_nonempty. intros E. apply H. rewrite <- (rev_involutive acc), E. reflexivity.
  - destruct (is_space c); [intros E; apply app_eq_nil in E; destruct E; discriminate|]. apply IH. right. discriminate.
Qed.
Lemma sub_clasp_first l : forall acc, nonblank acc -> first_ok (rev acc ++ l) -> first_ok (sub_clasp_from acc l).
Proof.
  induction l as [|c l IH]; intros acc A F; cbn [sub_clasp_from].
  - apply nonblank_first, clasp_word_nonblank, nonblank_rev, A.
  - destruct (is_space c) eqn:S.
    + destruct acc as [|d acc]; [cbn [rev app first_ok] in F; congruence|].
      assert (rev (d :: acc) <> []) as N by (cbn [rev]; intros E; apply app_eq_nil in E; destruct E; discriminate).
      rewrite first_ok_app by (now apply clasp_word_nonempty). apply nonblank_first, clasp_word_nonblank, nonblank_rev, A.
    + apply IH; [now constructor|]. cbn [rev]. now rewrite <- app_assoc.
Qed.
Lemma sub_clasp_last l : forall acc, nonblank acc -> last_ok l -> last_ok (sub_clasp_from acc l).
Proof.
  induction l as [|c l IH]; intros acc A F; cbn [sub_clasp_from].
  - apply nonblank_last, clasp_word_nonblank, nonblank_rev, A.
  - destruct (is_space c) eqn:S.
    + destruct l as [|d l]; [unfold last_ok in F; cbn [rev app first_ok] in F; congruence|].
      change (c :: sub_clasp_from [] (d :: l)) with ([c] ++ sub_clasp_from [] (d :: l)).
      assert (sub_clasp_from [] (d :: l) <> []) as N by (apply sub_clasp_nonempty; left; discriminate).
      rewrite !last_ok_app by (auto; discriminate). apply IH; [constructor|].
      change (c :: d :: l) with ([c] ++ d :: l) in F. now rewrite last_ok_app in F by discriminate.
    + apply IH; [now constructor|]. destruct l as [|d l]; [exact I|].
      change (c :: d :: l) with ([c] ++ d :: l) in F. now rewrite last_ok_app in F by discriminate.
Qed.
Lemma line_text_ends h : first_ok (line_text h) /\ last_ok (line_text h).
Proof.
  destruct (strip_ends h) as [A B]. unfold line_text, sub_clasp. split; [apply sub_clasp_first|apply sub_clasp_last]; auto; constructor.
Qed.

(** the parser agrees with the specification *)
Lemma split_key_of_entry l key val : first_ok l -> entry l key val -> fst (fst (split_key l)) = key /\ snd (split_key l) = val.
Proof.
  intros L [-> N|c w N -> C W K V|N -> -> K].
  - now rewrite split_key_eq.
  - rewrite split_key_blank; auto. intros ->. cbn [app first_ok] in L. congruence.
  - now rewrite split_key_word.
Qed.
Lemma entry_of_split_key l : first_ok l -> last_ok l -> entry l (fst (fst (split_key l))) (snd (split_key l)).
Proof.
  intros L LL. unfold split_key. destruct (existsb (char_eqb "=") l) eqn:E.
  - cbn [fst snd]. apply existsb_eq in E. apply entry_eq.
    + clear L LL. induction l as [|c l IH]; [destruct E|]. cbn [take_while drop_while]. destruct (negb (char_eqb c "=")) eqn:Q.
      * cbn [app]. f_equal. apply IH. destruct E as [->|E]; [discriminate Q|exact E].
      * apply negb_false_iff, char_eqb_true in Q. subst. reflexivity.
    + intros H. clear -H. induction l as [|c l IH]; [destruct H|]. cbn [take_while] in H. destruct (negb (char_eqb c "=")) eqn:Q; [|destruct H].
      destruct H as [->|H]; [discriminate Q|auto].
  - assert (~ In "="%char l) as N by (rewrite <- existsb_eq; congruence).
    assert (lstrip l = l) as -> by (destruct l as [|c l]; [reflexivity|now apply lstrip_nonblank]).
    assert (exists b, l = take_while (fun c => negb (is_space c)) l ++ b /\ drop_while (fun c => negb (is_space c)) l = b /\ match b with c :: _ => is_space c = true | [] => True end) as (b & E1 & E2 & B).
    { clear. induction l as [|c l IH]; [now exists []|]. cbn [take_while drop_while]. destruct (is_space c) eqn:S; cbn [negb].
      - exists (c :: l). auto.
      - destruct IH as (b & E1 & E2 & B). exists b. cbn [app]. rewrite <- E1. auto. }
    assert (Forall (fun c => is_space c = false) (take_while (fun c => negb (is_space c)) l)) as K.
    { clear. induction l as [|c l IH]; [constructor|]. cbn [take_while]. destruct (is_space c) eqn:S; cbn [negb]; constructor; auto. }
    rewrite E2. remember (take_while (fun c => negb (is_space c)) l) as k eqn:Ek. clear Ek.
    destruct (lstrip_suffix b) as [w W]. destruct (lstrip b) as [|d v] eqn:V.
    + cbn [fst snd]. assert (b = []) as ->.
      { destruct b as [|c b]; [reflexivity|]. exfalso. rewrite E1, last_ok_app in LL by discriminate.
        assert (forall x, lstrip x = [] -> Forall (fun c => is_space c = true) x) as G.
        { induction x as [|y x IH]; [constructor|]. cbn [lstrip]. destruct (is_space y) eqn:S; [|discriminate]. intros H. constructor; auto. }
        apply G in V. unfold last_ok in LL. destruct (rev (c :: b)) as [|y r] eqn:Q.
        - cbn [rev] in Q. apply app_eq_nil in Q. destruct Q; discriminate.
        - cbn [first_ok] in LL. rewrite Forall_forall in V. rewrite V in LL; [discriminate|]. apply in_rev. rewrite Q. now left. }
      rewrite app_nil_r in E1. apply entry_word; auto. now rewrite E1.
    + cbn [fst snd]. pose proof (lstrip_first b) as D. rewrite V in D. cbn [first_ok] in D.
      assert (Forall (fun c => is_space c = true) w) as W'.
      { clear -V W D. revert b V W. induction w as [|c w IH]; intros b V W; [constructor|]. subst b. cbn [app lstrip] in V. destruct (is_space c) eqn:S.
        - constructor; [exact S|]. eapply IH; [exact V|reflexivity].
        - exfalso. inversion V; subst. apply (f_equal (@length ascii)) in H1. rewrite app_length in H1. cbn [length] in H1. lia. }
      clear E2. subst b. destruct w as [|c w]; [cbn [app] in B; congruence|]. inversion W'; subst. apply (entry_blank _ k (d :: v) c w); auto.
Qed.
Lemma view_line_iff h v : view_line h v <-> is_file (line_text h) = false /\ fst (fst (split_key (line_text h))) = s "VIEW" /\ snd (split_key (line_text h)) = v.
Proof.
  destruct (line_text_ends h) as [F L]. unfold view_line. split.
  - intros [A B]. split; [exact A|]. now apply split_key_of_entry.
  - intros (A & B & C). split; [exact A|]. rewrite <- B, <- C. now apply entry_of_split_key.
Qed.

(** * the view of a cleaned header *)
Lemma step_view st h st' : step_line st h = Ok st' ->
  (exists v, view_line h v /\ h_view st' = Some v) \/ ((forall v, ~ view_line h v) /\ h_view st' = h_view st).
Proof.
  unfold step_line. fold (line_text h). intros H.
  assert (forall v, view_line h v -> is_file (line_text h) = false /\ fst (fst (split_key (line_text h))) = s "VIEW" /\ snd (split_key (line_text h)) = v) as V1
    by (intros v Q; now apply view_line_iff).
  assert (is_file (line_text h) = false /\ fst (fst (split_key (line_text h))) = s "VIEW" -> view_line h (snd (split_key (line_text h)))) as V2
    by (intros [Q1 Q2]; now apply view_line_iff).
  destruct (is_file (line_text h)).
  - right. inversion H; subst. split; [intros v Q; destruct (V1 v Q); discriminate|reflexivity].
  - destruct (split_key (line_text h)) as [[key sep] val]. cbn [fst snd] in *.
    destruct (in_strs key [s "pvalue"; s "FORMAT"]) eqn:E1.
    + right. inversion H; subst. split; [|reflexivity]. intros v Q. destruct (V1 v Q) as (_ & -> & _). discriminate E1.
    + destruct (str_eqb key (s "VIEW")) eqn:E2.
      * left. apply str_eqb_true in E2. exists val. inversion H; subst. split; [now apply V2|reflexivity].
      * right. assert (forall v, ~ view_line h v) as N by (intros v Q; destruct (V1 v Q) as (_ & -> & _); rewrite str_eqb_refl in E2; discriminate).
        split; [exact N|]. destruct (_ || _) in H.
        -- destruct (append_to_last _ _) in H; cbn [bind] in H; [|discriminate]. destruct (append_to_last_str _ _) in H; cbn [bind] in H; [|discriminate].
           inversion H. reflexivity.
        -- destruct (in_strs _ _) in H.
           ++ destruct (promote _ _) in H; cbn [bind] in H; [|discriminate]. inversion H. reflexivity.
           ++ inversion H. reflexivity.
Qed.
Lemma preprocess_view lines : forall st st', preprocess_from st lines = Ok st' ->
  (exists v, last_view lines v /\ h_view st' = Some v) \/ (Forall (fun h => forall v, ~ view_line h v) lines /\ h_view st' = h_view st).
Proof.
  induction lines as [|h lines IH]; intros st st' H; cbn [preprocess_from] in H.
  - inversion H; subst. right. split; [constructor|reflexivity].
  - destruct (step_line st h) as [st1|e] eqn:E; [|discriminate]. cbn [bind] in H. destruct (IH st1 st' H) as [(v & (b & x & a & -> & V & F) & Hv)|[F Hv]].
    + left. exists v. split; [|exact Hv]. exists (h :: b), x, a. auto.
    + destruct (step_view _ _ _ E) as [(v & V & Hv')|[N Hv']].
      * left. exists v. split; [exists [], h, lines; auto|congruence].
      * right. split; [now constructor|congruence].
Qed.
Lemma last_view_unique lines v w : last_view lines v -> last_view lines w -> v = w.
Proof.
  intros (b & h & a & E & V & F) (b' & h' & a' & E' & V' & F'). revert b' E'. subst lines. induction b as [|x b IH]; intros [|x' b'] E'; cbn [app] in E'.
  - inversion E'; subst. apply view_line_iff in V. apply view_line_iff in V'. destruct V as (_ & _ & <-), V' as (_ & _ & <-). reflexivity.
  - exfalso. inversion E'; subst. rewrite Forall_forall in F. apply (F h' (in_elt _ _ _) w V').
  - exfalso. inversion E'; subst. rewrite Forall_forall in F'. apply (F' h (in_elt _ _ _) v V).
  - inversion E'. eauto.
Qed.
Lemma clean_last_view fill header out v : clean_header fill header = Ok out ->
  last_view (splitlines (join newline header)) v -> exists rest, out = rest ++ [s "VIEW=" ++ v].
Proof.
  intros H V. unfold clean_header, clean_text, preprocess in H.
  destruct (preprocess_from h_init _) as [st|e] eqn:E; [|discriminate]. cbn [bind] in H. inversion H.
  destruct (preprocess_view _ _ _ E) as [(w & V' & ->)|[F _]].
  - rewrite (last_view_unique _ _ _ V V'). eexists. reflexivity.
  - exfalso. destruct V as (b & h & a & Q & V & _). rewrite Q, Forall_forall in F. apply (F h (in_elt _ _ _) v V).
Qed.
