(** Insets by tabs and by spaces; capital letters in the names of items. *)
From Coq Require Import Ascii String Lia.
From Verif Require Import Base M_Translate M_Mapper M_Utility M_Header M_Wrap S_Header S_Inset L_Header L_Header2.
Import ListNotations.
Local Open Scope list_scope.

Lemma inset_spaces k : (k < 4)%nat -> inset_depth (repeat " "%char k) = 0%nat.
Proof. intros H. destruct k as [|[|[|[|k]]]]; [reflexivity..|lia]. Qed.
Lemma inset_tab w : inset_depth ("009"%char :: w) = S (inset_depth w).
Proof. reflexivity. Qed.
Lemma inset_levels us k : (k < 4)%nat -> inset_depth (flat_map level_text us ++ repeat " "%char k) = length us.
Proof.
  intros H. induction us as [|u us IH]; [now apply inset_spaces|]. destruct u; cbn [flat_map level_text].
  - cbn [app length]. rewrite inset_tab. now f_equal.
  - change (inset_depth (" "%char :: " "%char :: " "%char :: " "%char :: flat_map level_text us ++ repeat " "%char k) = S (length us)).
    cbn [inset_depth]. now f_equal.
Qed.
Lemma inset_tabs n : inset_depth (repeat "009"%char n) = n.
Proof. induction n as [|n IH]; [reflexivity|]. cbn [repeat]. rewrite inset_tab. now f_equal. Qed.
Lemma take_blanks (w t : str) : Forall (fun c => is_space c = true) w -> match t with c :: _ => is_space c = false | [] => True end ->
  take_while is_space (w ++ t) = w.
Proof.
  intros W T. induction W as [|c w C W IH]; cbn [app take_while]; [|now rewrite C, IH].
  destruct t as [|c t]; [reflexivity|]. cbn [take_while]. now rewrite T.
Qed.
Lemma drop_blanks (w t : str) : Forall (fun c => is_space c = true) w -> lstrip (w ++ t) = lstrip t.
Proof. intros W. induction W as [|c w C W IH]; [reflexivity|]. cbn [app lstrip]. now rewrite C. Qed.
Lemma levels_blank us k : Forall (fun c => is_space c = true) (flat_map level_text us ++ repeat " "%char k).
Proof.
  apply Forall_app. split; [|apply Forall_forall; intros c H; apply repeat_spec in H; now subst].
  induction us as [|u us IH]; [constructor|]. cbn [flat_map]. apply Forall_app. split; [destruct u; repeat constructor|exact IH].
Qed.
Lemma tabs_blank n : Forall (fun c => is_space c = true) (repeat "009"%char n).
Proof. apply Forall_forall. intros c H. apply repeat_spec in H. now subst. Qed.

Lemma same_depth l : wf_inset_line l -> depth_of (as_written l) = depth_of (with_tabs l).
Proof.
  intros (K & _ & T). unfold depth_of, as_written, with_tabs. rewrite app_assoc.
  assert (match il_text l with c :: _ => is_space c = false | [] => True end) as T' by (destruct (il_text l); [easy|exact T]).
  rewrite take_blanks, take_blanks by (auto using levels_blank, tabs_blank). rewrite inset_levels, inset_tabs by exact K. reflexivity.
Qed.
Lemma same_text l : strip (as_written l) = strip (with_tabs l).
Proof. unfold as_written, with_tabs, strip. rewrite app_assoc. rewrite !drop_blanks by (auto using levels_blank, tabs_blank). reflexivity. Qed.
Lemma step_same st l : wf_inset_line l -> step_line st (as_written l) = step_line st (with_tabs l).
Proof. intros H. unfold step_line. now rewrite same_text, same_depth. Qed.
Lemma pre_same ls : forall st, Forall wf_inset_line ls -> preprocess_from st (map as_written ls) = preprocess_from st (map with_tabs ls).
Proof.
  induction ls as [|l ls IH]; intros st H; [reflexivity|]. inversion H; subst. cbn [map preprocess_from]. rewrite step_same by assumption.
  destruct (step_line st (with_tabs l)); [|reflexivity]. cbn [bind]. now apply IH.
Qed.
Lemma levels_line us k : one_line (flat_map level_text us ++ repeat " "%char k).
Proof.
  apply Forall_app. split; [|apply Forall_forall; intros c H; apply repeat_spec in H; now subst].
  induction us as [|u us IH]; [constructor|]. cbn [flat_map]. apply Forall_app. split; [destruct u; repeat constructor|exact IH].
Qed.
Lemma tabs_line n : one_line (repeat "009"%char n).
Proof. apply Forall_forall. intros c H. apply repeat_spec in H. now subst. Qed.
Lemma preprocess_same ls : Forall wf_inset_line ls -> preprocess (join newline (map as_written ls)) = preprocess (join newline (map with_tabs ls)).
Proof.
  intros H. unfold preprocess. rewrite !splitlines_join; [now apply pre_same|..]; apply Forall_forall; intros x Q; apply in_map_iff in Q as (l & <- & Q);
    rewrite Forall_forall in H; destruct (H l Q) as (_ & O & T).
  - unfold with_tabs. apply Forall_app. split; [apply tabs_line|exact O].
  - unfold with_tabs. intros E. apply app_eq_nil in E as [_ E]. now rewrite E in T.
  - unfold as_written. rewrite app_assoc. apply Forall_app. split; [apply levels_line|exact O].
  - unfold as_written. intros E. apply app_eq_nil in E as [_ E]. apply app_eq_nil in E as [_ E]. now rewrite E in T.
Qed.
Lemma clean_same fuel ls : Forall wf_inset_line ls ->
  clean_header_run fuel (map as_written ls) = clean_header_run fuel (map with_tabs ls) /\
  forall items, header_items_run fuel (map as_written ls) items = header_items_run fuel (map with_tabs ls) items.
Proof.
  intros H. unfold clean_header_run, header_items_run, clean_run. rewrite (preprocess_same ls H). now split.
Qed.

(** * letters *)
Definition same_letterb (a b : ascii) : bool :=
  (char_eqb a b || existsb (fun p => char_eqb a (fst p) && char_eqb b (snd p)) (combine capitals small_letters)
   || existsb (fun p => char_eqb b (fst p) && char_eqb a (snd p)) (combine capitals small_letters))%bool.
Lemma char_eqb_true a b : char_eqb a b = true <-> a = b.
Proof. unfold char_eqb. destruct (ascii_dec a b); split; congruence. Qed.
Lemma pairs_true a b l : existsb (fun p : ascii * ascii => (char_eqb a (fst p) && char_eqb b (snd p))%bool) l = true <-> In (a, b) l.
Proof.
  rewrite existsb_exists. split.
  - intros ((x & y) & Q & E). apply andb_prop in E as [E1 E2]. apply char_eqb_true in E1, E2. cbn [fst snd] in *. now subst.
  - intros Q. exists (a, b). split; [exact Q|]. cbn [fst snd]. rewrite !(proj2 (char_eqb_true _ _) eq_refl). reflexivity.
Qed.
Lemma same_letterb_true a b : same_letterb a b = true <-> same_letter a b.
Proof. unfold same_letterb, same_letter. rewrite !orb_true_iff, char_eqb_true, !pairs_true. tauto. Qed.
Definition all_ascii : list ascii := map ascii_of_nat (seq 0 256).
Lemma all_ascii_in a : In a all_ascii.
Proof. unfold all_ascii. rewrite <- (ascii_nat_embedding a). apply in_map, in_seq. pose proof (nat_ascii_bounded a). lia. Qed.
Lemma letters_table : forallb (fun a => forallb (fun b => Bool.eqb (char_eqb (lower_char a) (lower_char b)) (same_letterb a b)) all_ascii) all_ascii = true.
Proof. vm_compute. reflexivity. Qed.
Lemma lower_letter a b : lower_char a = lower_char b <-> same_letter a b.
Proof.
  rewrite <- same_letterb_true, <- char_eqb_true. pose proof letters_table as T. rewrite forallb_forall in T. specialize (T a (all_ascii_in a)).
  rewrite forallb_forall in T. specialize (T b (all_ascii_in b)). apply Bool.eqb_prop in T. now rewrite T.
Qed.
Lemma lower_same : forall a b : str, lower a = lower b <-> Forall2 same_letter a b.
Proof.
  induction a as [|x a IH]; intros [|y b]; cbn [lower map]; split; intros H; try discriminate; try solve [inversion H]; try solve [constructor]; try reflexivity.
  - injection H as H1 H2. constructor; [now apply lower_letter|]. now apply IH.
  - inversion H; subst. f_equal; [now apply lower_letter|]. now apply IH.
Qed.

(** an example *)
Definition spaced : list inset_line :=
  [InsetLine [] 0 (s "a.hdr:"); InsetLine [BySpaces] 2 (s "x.hdr:"); InsetLine [ByTab; BySpaces] 1 (s "EXPOSURE=2"); InsetLine [BySpaces] 0 (s "pcomb x.hdr"); InsetLine [] 3 (s "SOFTWARE=R")].
