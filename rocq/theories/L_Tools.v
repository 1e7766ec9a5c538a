(** Lemmas for Prop_Tools.v *)
From Coq Require Import Ascii String Lia.
From Verif Require Import Base L_Base M_Translate M_Mapper M_Utility M_Header S_Header L_Header L_Header2 L_Header6 M_Io S_Io L_Io M_Tools S_Tools.
Import ListNotations.
Local Open Scope list_scope.

(** * shlex.split *)
Lemma plain_special c : plain_char c = true <-> ~ In c special.
Proof.
  unfold plain_char. rewrite !andb_true_iff, !negb_true_iff. unfold is_white, is_quote, in_strs. cbn [existsb].
  rewrite !orb_false_iff. unfold str_eqb. split.
  - intros [[(A & B & C & D & _) (E & F)] G] I. cbn [special In] in I.
    destruct I as [<-|[<-|[<-|[<-|[<-|[<-|[<-|[]]]]]]]]; discriminate.
  - intros N. assert (forall x, In x special -> c <> x) as M by (intros x X ->; contradiction).
    assert (forall x, In x special -> (if list_eq_dec ascii_dec [c] [x] then true else false) = false) as K.
    { intros x X. destruct (list_eq_dec ascii_dec [c] [x]) as [E|]; [|reflexivity]. injection E as E. now apply M in X. }
    repeat split; try (apply K; cbn [special In]; tauto); try (apply char_eqb_false, M; cbn [special In]; tauto).
Qed.
Lemma plain_chars n : Forall (fun c => ~ In c special) n -> forallb plain_char n = true.
Proof. intros H. apply forallb_forall. intros c C. rewrite Forall_forall in H. apply plain_special. auto. Qed.
Lemma lex_end t q : t <> [] -> shlex_from LOut t q [] = Ok [t].
Proof. destruct t; [congruence|reflexivity]. Qed.
Lemma lex_sep t q l : t <> [] -> shlex_from LOut t q (s " " ++ l) = bind (shlex_from LOut [] false l) (fun r => Ok (t :: r)).
Proof. destruct t; [congruence|reflexivity]. Qed.
(** words separated by blanks, then anything *)
Lemma lex_words ws l : Forall (fun w => w <> [] /\ forallb plain_char w = true) ws ->
  shlex_from LOut [] false (flat_map (fun w => w ++ s " ") ws ++ l) = bind (shlex_from LOut [] false l) (fun r => Ok (ws ++ r)).
Proof.
  induction 1 as [|w ws [N P] _ IH]; cbn [flat_map app].
  - destruct (shlex_from LOut [] false l); reflexivity.
  - rewrite <- !app_assoc, lex_word by exact P. cbn [app]. rewrite lex_sep by exact N. rewrite IH.
    destruct (shlex_from LOut [] false l); reflexivity.
Qed.
(** no character is added *)
Definition pending (st : lexstate) : nat := match st with LEsc (Some _) => 1 | _ => 0 end.
Lemma lex_size l : forall st t q ws, shlex_from st t q l = Ok ws -> (length (concat ws) <= length t + length l + pending st)%nat.
Proof.
  induction l as [|c l IH]; intros st t q ws H; cbn [shlex_from] in H.
  - destruct st as [|q'|b]; try discriminate. injection H as <-. destruct t; [destruct q|]; cbn [concat length app]; try lia. rewrite app_nil_r. cbn [length]. lia.
  - cbn [length]. destruct st as [|q'|[b|]].
    + destruct (is_white c); [|destruct (is_quote c); [|destruct (char_eqb c "\")]].
      * destruct (shlex_from LOut [] false l) as [r|] eqn:E; [|discriminate]. injection H as <-. apply IH in E. cbn [length pending] in E.
        rewrite concat_app, app_length. destruct t; [destruct q|]; cbn [concat length app]; try lia. rewrite app_nil_r. cbn [length pending]. lia.
      * apply IH in H. cbn [pending] in *. lia.
      * apply IH in H. cbn [pending] in *. lia.
      * apply IH in H. rewrite app_length in H. cbn [length pending] in *. lia.
    + destruct (char_eqb c q'); [|destruct (char_eqb c "\" && char_eqb q' """")].
      * apply IH in H. cbn [pending] in *. lia.
      * apply IH in H. cbn [pending] in *. lia.
      * apply IH in H. rewrite app_length in H. cbn [length pending] in *. lia.
    + apply IH in H. cbn [pending]. rewrite app_length in H. cbn [length pending] in H. destruct (_ && _); [rewrite app_length in H; cbn [length] in H|]; cbn in H; lia.
    + apply IH in H. rewrite app_length in H. cbn [length pending] in *. lia.
Qed.
Lemma lex_name n : plain_name n -> shlex_from LOut [] false n = Ok [n].
Proof.
  intros [N P]. apply plain_chars in P. rewrite <- (app_nil_r n) at 1. rewrite lex_word by exact P. cbn [app]. now apply lex_end.
Qed.
Lemma first_special n : ~ Forall (fun c => ~ In c special) n -> exists a c b, n = a ++ c :: b /\ forallb plain_char a = true /\ plain_char c = false.
Proof.
  induction n as [|c n IH]; intros H; [exfalso; apply H; constructor|].
  destruct (plain_char c) eqn:E.
  - destruct IH as (a & d & b & -> & A & D). { intros F. apply H. constructor; [now apply plain_special|exact F]. }
    exists (c :: a), d, b. split; [reflexivity|]. cbn [forallb]. now rewrite E, A.
  - exists [], c, n. auto.
Qed.
Lemma lex_other n r : ~ Forall (fun c => ~ In c special) n -> shlex_from LOut [] false n = Ok r -> r <> [n].
Proof.
  intros H E ->. destruct (first_special n H) as (a & c & b & -> & A & C). rewrite lex_word in E by exact A. cbn [app shlex_from] in E.
  unfold plain_char in C. destruct (is_white c); [|destruct (is_quote c); [|destruct (char_eqb c "\"); [|discriminate]]].
  - destruct (shlex_from LOut [] false b) as [r|] eqn:F; [|discriminate]. injection E as E.
    apply (f_equal (fun l => length (concat l))) in E. cbn [concat] in E. rewrite concat_app, app_nil_r, !app_length in E. cbn [length] in E.
    apply lex_size in F. cbn [length pending] in F. destruct a; cbn [concat length app] in E; [lia|]. rewrite app_nil_r in E. cbn [length] in E. lia.
  - apply lex_size in E. cbn [concat pending] in E. rewrite app_nil_r, !app_length in E. cbn [length] in E. lia.
  - apply lex_size in E. cbn [concat pending] in E. rewrite app_nil_r, !app_length in E. cbn [length] in E. lia.
Qed.

(** * the commands *)
Definition prefix_words (gray : bool) : list str := [s "pvalue"; if gray then s "-b" else s "-n"; s "-h"; s "-df"; s "-o"].
Lemma pvalue_args_eq gray n : pvalue_args gray n = bind (shlex_from LOut [] false n) (fun r => Ok (prefix_words gray ++ r)).
Proof.
  transitivity (shlex_from LOut [] false (flat_map (fun w => w ++ s " ") (prefix_words gray) ++ n)).
  - unfold pvalue_args, shlex_split. f_equal. destruct gray; reflexivity.
  - apply lex_words. destruct gray; repeat (constructor; [split; [discriminate|reflexivity]|]); constructor.
Qed.
Lemma getinfo_args_eq n : getinfo_read_args n = bind (shlex_from LOut [] false n) (fun r => Ok (s "getinfo" :: r)).
Proof.
  unfold getinfo_read_args, shlex_split. change (s "getinfo " ++ n) with (flat_map (fun w => w ++ s " ") [s "getinfo"] ++ n).
  rewrite lex_words; [reflexivity|]. constructor; [split; [discriminate|reflexivity]|constructor].
Qed.
Lemma args_plain n : plain_name n -> (forall gray, pvalue_args gray n = Ok (pixels_command gray n)) /\ getinfo_read_args n = Ok (header_command n).
Proof.
  intros H. split; [intros gray|]; [rewrite pvalue_args_eq|rewrite getinfo_args_eq]; rewrite (lex_name n H); reflexivity.
Qed.
Lemma args_other n : ~ plain_name n -> (forall gray, pvalue_args gray n <> Ok (pixels_command gray n)) /\ getinfo_read_args n <> Ok (header_command n).
Proof.
  intros H. assert (forall r, shlex_from LOut [] false n = Ok r -> r <> [n]) as K.
  { intros r E. destruct n as [|c n]; [cbn in E; injection E as <-; discriminate|]. apply lex_other; [|exact E].
    intros F. apply H. split; [discriminate|exact F]. }
  split; [intros gray|]; [rewrite pvalue_args_eq|rewrite getinfo_args_eq]; destruct (shlex_from LOut [] false n) as [r|] eqn:E; cbn [bind]; try discriminate;
    intros F; injection F as F; apply (K r eq_refl); [|exact F]. destruct gray; cbn in F; exact F.
Qed.
Lemma lex_blank a b : plain_name a -> plain_name b -> shlex_from LOut [] false (a ++ s " " ++ b) = Ok [a; b].
Proof.
  intros A B. rewrite lex_word by (apply plain_chars, A). cbn [app]. pose proof (proj1 A) as NA.
  change (" "%char :: b) with (s " " ++ b). rewrite lex_sep by exact NA. rewrite (lex_name b B). reflexivity.
Qed.
Lemma args_blank a b : plain_name a -> plain_name b ->
  (forall gray, pvalue_args gray (a ++ s " " ++ b) = Ok (pixels_command gray a ++ [b])) /\ getinfo_read_args (a ++ s " " ++ b) = Ok (header_command a ++ [b]).
Proof.
  intros A B. split; [intros gray|]; [rewrite pvalue_args_eq|rewrite getinfo_args_eq]; rewrite lex_blank by assumption; reflexivity.
Qed.
Lemma lex_quoted w : forall t, Forall (fun c => ~ In c special) w -> shlex_from (LIn "'") t true w = Raise ValueError.
Proof.
  induction w as [|c w IH]; intros t H; [reflexivity|]. inversion H as [|? ? C F]; subst. cbn [shlex_from].
  replace (char_eqb c "'") with false by (symmetry; apply char_eqb_false; intros ->; apply C; cbn; tauto).
  change (char_eqb "'" """") with false. rewrite andb_false_r. now apply IH.
Qed.
Lemma args_apostrophe a b : Forall (fun c => ~ In c special) a -> Forall (fun c => ~ In c special) b ->
  (forall gray, pvalue_args gray (a ++ s "'" ++ b) = Raise ValueError) /\ getinfo_read_args (a ++ s "'" ++ b) = Raise ValueError.
Proof.
  intros A B. assert (shlex_from LOut [] false (a ++ s "'" ++ b) = Raise ValueError) as E.
  { rewrite lex_word by (now apply plain_chars). cbn [app list_ascii_of_string shlex_from]. change (is_white "'") with false. change (is_quote "'") with true. cbv iota. now apply lex_quoted. }
  split; [intros gray|]; [rewrite pvalue_args_eq|rewrite getinfo_args_eq]; now rewrite E.
Qed.
