(** What is read when only the beginning of the output arrives, and how much is written, for C140 and C141. *)
From Coq Require Import Ascii String Lia Bool.
From Verif Require Import Base M_Utility S_Utility L_Utility L_Utility2 M_Header L_Header4 M_Io L_Array L_Io M_Pipe S_Pipe.
Import ListNotations.
Local Open Scope list_scope.

(** * words *)
Lemma words_pre pre l : Forall (fun c => is_space c = true) pre -> split_words (pre ++ l) = split_words l.
Proof. induction 1 as [|c pre C _ IH]; [reflexivity|]. unfold split_words in *. cbn [app words_from]. now rewrite C. Qed.
Lemma words_post post : Forall (fun c => is_space c = true) post -> forall l acc, words_from acc (l ++ post) = words_from acc l.
Proof.
  intros P. assert (split_words post = []) as E.
  { rewrite <- (app_nil_r post). now rewrite words_pre. }
  unfold split_words in E. induction l as [|c l IH]; intros acc.
  - cbn [app words_from]. destruct P as [|c post C P]; [reflexivity|]. cbn [words_from] in *. rewrite C in *. cbn [app] in E.
    rewrite E, app_nil_r. reflexivity.
  - cbn [app words_from]. now rewrite !IH.
Qed.
Lemma words_strip l : split_words (strip l) = split_words l.
Proof.
  destruct (strip_split l) as (pre & post & E & A & B).
  assert (forall x, Forall blank x -> Forall (fun c => is_space c = true) x) as T.
  { intros x. apply Forall_impl. intros c. apply blank_space. }
  rewrite E at 2. rewrite words_pre by now apply T. unfold split_words. now rewrite (words_post post (T _ B)).
Qed.

(** * digits *)
Lemma all_digits_app a b : all_digits (a ++ b) -> all_digits a.
Proof. induction a as [|c a IH]; cbn [app all_digits]; [auto|]. intros [H K]. auto. Qed.
Lemma digits_word w : w <> [] -> all_digits w -> word w.
Proof.
  intros N H. split; [exact N|]. clear N. induction w as [|c w IH]; constructor.
  - destruct H as [(d & D & ->) _]. apply digit_char_ok, D.
  - apply IH, H.
Qed.
Lemma print_head fuel : forall n acc, (0 < n)%Z -> (Z.to_nat (Z.log2 n) < fuel)%nat ->
  exists d l, (0 < d < 10)%Z /\ print_pos fuel n acc = digit_char d :: l.
Proof.
  induction fuel as [|f IH]; intros n acc N F; [lia|]. cbn [print_pos]. destruct (Z.ltb_spec n 10) as [L|L].
  - exists (n mod 10)%Z, acc. rewrite Z.mod_small by lia. auto.
  - apply IH; [apply Z.div_str_pos; lia|]. pose proof (log2_div10 n L). pose proof (Z.log2_nonneg (n / 10)). lia.
Qed.
Lemma str_digits n : (0 <= n)%Z -> all_digits (py_str n) /\ py_str n <> [].
Proof.
  intros N. unfold py_str. destruct (Z.ltb_spec n 0); [lia|]. split.
  - apply print_pos_all; cbn; auto.
  - apply print_pos_nonnil. right. lia.
Qed.
Lemma str_head n : (0 < n)%Z -> exists d l, (0 < d < 10)%Z /\ py_str n = digit_char d :: l.
Proof. intros N. unfold py_str. destruct (Z.ltb_spec n 0); [lia|]. apply print_head; lia. Qed.
Lemma digits_more l : forall acc, (0 < acc)%Z -> all_digits l -> exists v, digits_from acc l = Some v /\ (0 < v)%Z.
Proof.
  induction l as [|c l IH]; intros acc A H; [exists acc; auto|]. destruct H as [(d & D & ->) H].
  rewrite digits_from_cons by exact D. apply IH; [lia|exact H].
Qed.
Lemma py_int_digits p : all_digits p -> p <> [] -> py_int p = digits p.
Proof.
  intros A N. unfold py_int. rewrite strip_digits by exact A. destruct p as [|c l]; [congruence|]. destruct A as [(d & D & ->) _].
  destruct (digit_char_ok d D) as (_ & _ & _ & B & C).
  destruct (digit_char d) as [b0 b1 b2 b3 b4 b5 b6 b7].
  destruct b0, b1, b2, b3, b4, b5, b6, b7; try reflexivity; exfalso; (apply B; reflexivity) || (apply C; reflexivity).
Qed.
Lemma cut_number n p : (0 < n)%Z -> begins p (py_str n) -> p <> [] -> word p /\ exists v, py_int p = Some v /\ (0 < v)%Z.
Proof.
  intros N (q & E) P. destruct (str_digits n ltac:(lia)) as [A _]. rewrite E in A. pose proof (all_digits_app _ _ A) as Ap.
  split; [now apply digits_word|]. rewrite py_int_digits by assumption.
  destruct (str_head n N) as (d & l & D & E'). rewrite E in E'. destruct p as [|c p]; [congruence|]. cbn in E'. injection E' as -> _.
  cbn in Ap. destruct Ap as [_ Ap]. unfold digits. destruct (digit_char_ok d ltac:(lia)) as (-> & _).
  rewrite digits_from_cons by lia. apply digits_more; [lia|exact Ap].
Qed.

(** * the first line *)
Lemma begins_app {A} (p a b : list A) : begins p (a ++ b) -> begins p a \/ exists q, p = a ++ q /\ begins q b.
Proof.
  intros (x & E). revert p E. induction a as [|c a IH]; intros p E; [right; exists p; split; [reflexivity|now exists x]|].
  destruct p as [|d p]; [left; now exists (c :: a)|]. cbn in E. injection E as -> E.
  destruct (IH p E) as [(y & ->)|(q & -> & B)]; [left; now exists y|right; now exists q].
Qed.
Lemma begins_cons {A} (p : list A) c l : begins p (c :: l) -> p = [] \/ exists q, p = c :: q /\ begins q l.
Proof. intros (x & E). destruct p as [|d p]; [now left|]. cbn in E. injection E as -> E. right. exists p. split; [reflexivity|now exists x]. Qed.
Lemma begins_nil {A} (p : list A) : begins p [] -> p = [].
Proof. intros (x & E). destruct p; [reflexivity|discriminate]. Qed.
Lemma from_end_last {A} (l : list A) x : from_end 1 (l ++ [x]) = Some x.
Proof. unfold from_end. rewrite rev_app_distr. reflexivity. Qed.

Lemma line_words line ws : split_words line = ws ->
  line_shape line = match from_end 3 ws, from_end 1 ws with
                    | Some a, Some b => match py_int a, py_int b with Some ny, Some nx => Ok (ny, nx) | _, _ => Raise ValueError end
                    | _, _ => Raise ValueError end.
Proof. intros <-. unfold line_shape. now rewrite words_strip. Qed.
Lemma word_Y : word (s "-Y").
Proof. split; [discriminate|repeat constructor]. Qed.
Lemma word_X : word (s "+X").
Proof. split; [discriminate|repeat constructor]. Qed.
Lemma words_last w : word w -> split_words w = [w].
Proof. intros [N H]. now apply words_end. Qed.
Lemma size_words ny b : (0 <= ny)%Z -> word b ->
  split_words (s "-Y " ++ py_str ny ++ s " +X " ++ b) = [s "-Y"; py_str ny; s "+X"; b].
Proof.
  intros N B. destruct (str_digits ny N) as [A E].
  replace (s "-Y " ++ py_str ny ++ s " +X " ++ b) with (s "-Y" ++ s " " ++ py_str ny ++ s " " ++ s "+X" ++ s " " ++ b) by reflexivity.
  rewrite (words_cons _ _ word_Y), (words_cons _ _ (digits_word _ E A)), (words_cons _ _ word_X), (words_last b B). reflexivity.
Qed.
Lemma size_shape ny nx post : Forall (fun c => is_space c = true) post ->
  line_shape (size_line ny nx ++ post) = Ok (Z.of_nat ny, Z.of_nat nx).
Proof.
  intros P. destruct (str_digits (Z.of_nat nx) ltac:(lia)) as [A E].
  rewrite (line_words _ [s "-Y"; py_str (Z.of_nat ny); s "+X"; py_str (Z.of_nat nx)]).
  - cbn [from_end rev app nth_error Nat.sub]. rewrite !py_int_str by lia. reflexivity.
  - unfold split_words. rewrite words_post by exact P. unfold size_line. apply size_words; [lia|]. now apply digits_word.
Qed.
Lemma size_cut ny nx p : (0 < ny)%nat -> (0 < nx)%nat -> begins p (size_line ny nx) ->
  line_shape p = Raise ValueError \/ exists v, line_shape p = Ok (Z.of_nat ny, v) /\ (0 < v)%Z.
Proof.
  intros Hy Hx B. unfold size_line in B. destruct (str_digits (Z.of_nat ny) ltac:(lia)) as [Ay Ey].
  pose proof (digits_word _ Ey Ay) as Wy.
  apply begins_app in B. destruct B as [B|(q & -> & B)].
  { left. cbn in B. repeat (apply begins_cons in B; destruct B as [->|(? & -> & B)]; [reflexivity|]). apply begins_nil in B. subst. reflexivity. }
  apply begins_app in B. destruct B as [B|(r & -> & B)].
  { left. rewrite (line_words _ (s "-Y" :: split_words q)).
    - destruct B as [x E]. destruct q as [|c q]; [reflexivity|]. rewrite words_last; [reflexivity|].
      apply digits_word; [discriminate|]. apply (all_digits_app _ x). now rewrite <- E.
    - change (s "-Y " ++ q) with (s "-Y" ++ s " " ++ q). now rewrite (words_cons _ _ word_Y). }
  apply begins_app in B. destruct B as [B|(b & -> & B)].
  { left. assert (forall t, split_words (py_str (Z.of_nat ny) ++ s " " ++ t) = py_str (Z.of_nat ny) :: split_words t) as T by (intros; now apply words_cons).
    assert (split_words (s "-Y " ++ py_str (Z.of_nat ny) ++ r) = s "-Y" :: split_words (py_str (Z.of_nat ny) ++ r)) as E.
    { change (s "-Y " ++ ?x) with (s "-Y" ++ s " " ++ x). apply (words_cons _ _ word_Y). }
    rewrite (line_words _ _ E). cbn in B. apply begins_cons in B. destruct B as [->|(r1 & -> & B)].
    { rewrite app_nil_r, (words_last _ Wy). reflexivity. }
    change (" "%char :: r1) with (s " " ++ r1). rewrite T.
    repeat (apply begins_cons in B; destruct B as [->|(? & -> & B)]; [reflexivity|]). apply begins_nil in B. subst. reflexivity. }
  destruct b as [|c b].
  { left. rewrite (line_words _ [s "-Y"; py_str (Z.of_nat ny); s "+X"]); [reflexivity|].
    change (s "-Y " ++ py_str (Z.of_nat ny) ++ s " +X " ++ []) with (s "-Y" ++ s " " ++ py_str (Z.of_nat ny) ++ s " " ++ s "+X" ++ s " " ++ []).
    rewrite (words_cons _ _ word_Y), (words_cons _ _ Wy), (words_cons _ _ word_X). reflexivity. }
  right. destruct (cut_number (Z.of_nat nx) (c :: b) ltac:(lia) B ltac:(discriminate)) as (W & v & V & P).
  exists v. split; [|exact P]. rewrite (line_words _ _ (size_words (Z.of_nat ny) (c :: b) ltac:(lia) W)).
  cbn [from_end rev app nth_error Nat.sub]. rewrite py_int_str by lia. now rewrite V.
Qed.

(** * readline *)
Definition unbroken (l : str) : Prop := Forall (fun c => char_eqb c "010" = false) l.
Lemma readline_line l d : unbroken l -> readline (l ++ "010"%char :: d) = (l ++ ["010"%char], d).
Proof. induction 1 as [|c l C _ IH]; [reflexivity|]. cbn [app readline]. now rewrite C, IH. Qed.
Lemma readline_all l : unbroken l -> readline l = (l, []).
Proof. induction 1 as [|c l C _ IH]; [reflexivity|]. cbn [app readline]. now rewrite C, IH. Qed.
Lemma digits_unbroken l : all_digits l -> unbroken l.
Proof.
  induction l as [|c l IH]; intros H; constructor; [|apply IH, H]. destruct H as [(d & D & ->) _].
  destruct (digit_char_ok d D) as (_ & H & _). unfold char_eqb. destruct (ascii_dec _ _) as [E|]; [|reflexivity]. rewrite E in H. discriminate.
Qed.
Lemma Forall_app_intro {A} (P : A -> Prop) a b : Forall P a -> Forall P b -> Forall P (a ++ b).
Proof. intros. apply Forall_app. auto. Qed.
Lemma size_unbroken ny nx : unbroken (size_line ny nx).
Proof.
  unfold size_line, unbroken. repeat apply Forall_app_intro; try (apply digits_unbroken, str_digits; lia); repeat constructor.
Qed.
