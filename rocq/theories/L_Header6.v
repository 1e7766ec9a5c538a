From Coq Require Import Ascii String Lia.
From Verif Require Import Base L_Base M_Translate M_Mapper M_Utility M_Header S_Header L_Header L_Header2 L_Header3 L_Header5.
Import ListNotations.
Local Open Scope list_scope.

(** * header lines as arguments *)
Lemma lex_in w : forall t l, ~ In "'"%char w -> shlex_from (LIn "'") t true (w ++ l) = shlex_from (LIn "'") (t ++ w) true l.
Proof.
  induction w as [|c w IH]; intros t l N; [now rewrite app_nil_r|]. cbn [app shlex_from].
  replace (char_eqb c "'") with false by (symmetry; apply char_eqb_false; intros ->; apply N; now left).
  change (char_eqb "'" """") with false. rewrite andb_false_r. rewrite IH by (intros H; apply N; now right). now rewrite <- app_assoc.
Qed.
Lemma lex_last w : ~ In "'"%char w -> shlex_from (LIn "'") [] true (w ++ s "'") = Ok [w].
Proof.
  intros N. rewrite lex_in by exact N. cbn [app list_ascii_of_string shlex_from]. change (char_eqb "'" "'") with true. cbv iota. cbn [shlex_from]. now destruct w.
Qed.
Lemma lex_next w l : ~ In "'"%char w -> shlex_from (LIn "'") [] true (w ++ s "' '" ++ l) = bind (shlex_from (LIn "'") [] true l) (fun r => Ok (w :: r)).
Proof.
  intros N. rewrite lex_in by exact N. cbn [app list_ascii_of_string shlex_from]. change (char_eqb "'" "'") with true. cbv iota. cbn [shlex_from].
  change (is_white " ") with true. cbv iota. change (is_white "'") with false. change (is_quote "'") with true. cbv iota.
  f_equal. now destruct w.
Qed.
Lemma lex_lines header : header <> [] -> Forall (fun l => ~ In "'"%char l) header ->
  shlex_from (LIn "'") [] true (join (s "' '") header ++ s "'") = Ok header.
Proof.
  induction header as [|a [|b h] IH]; intros N F; [contradiction| |]; inversion F; subst.
  - now apply lex_last.
  - change (join (s "' '") (a :: b :: h)) with (a ++ s "' '" ++ join (s "' '") (b :: h)). rewrite <- !app_assoc, lex_next by assumption. rewrite IH by (try discriminate; assumption). reflexivity.
Qed.
Definition plain_char (c : ascii) : bool := negb (is_white c) && negb (is_quote c) && negb (char_eqb c "\").
Lemma lex_word w : forall t q l, forallb plain_char w = true -> shlex_from LOut t q (w ++ l) = shlex_from LOut (t ++ w) q l.
Proof.
  induction w as [|c w IH]; intros t q l P; [now rewrite app_nil_r|]. cbn [forallb] in P. apply andb_true_iff in P. destruct P as [C P].
  unfold plain_char in C. apply andb_true_iff in C. destruct C as [C C3]. apply andb_true_iff in C. destruct C as [C1 C2]. apply negb_true_iff in C1, C2, C3.
  cbn [app shlex_from]. rewrite C1, C2, C3, IH by exact P. now rewrite <- app_assoc.
Qed.
Lemma lex_space c t l : t <> [] -> shlex_from LOut (c :: t) false (s " " ++ l) = bind (shlex_from LOut [] false l) (fun r => Ok ((c :: t) :: r)).
Proof. reflexivity. Qed.
Lemma lex_quote l : shlex_from LOut [] false (s "'" ++ l) = shlex_from (LIn "'") [] true l.
Proof. reflexivity. Qed.
Lemma getinfo_args_ok header : header <> [] -> Forall (fun l => ~ In "'"%char l) header -> getinfo_args header = Ok (s "getinfo" :: s "-a" :: header).
Proof.
  intros N F. unfold getinfo_args, shlex_split. pose proof (lex_lines header N F) as L. revert L. generalize (join (s "' '") header ++ s "'") as r. intros r L.
  change (s "getinfo -a '" ++ r) with (s "getinfo" ++ (s " " ++ (s "-a" ++ (s " " ++ (s "'" ++ r))))).
  rewrite lex_word by reflexivity. change ([] ++ s "getinfo") with ("g"%char :: s "etinfo"). rewrite lex_space by discriminate.
  rewrite lex_word by reflexivity. change ([] ++ s "-a") with ("-"%char :: s "a"). rewrite lex_space by discriminate. rewrite lex_quote, L. reflexivity.
Qed.

(** * cleaning twice *)
Lemma plains_print ps vs : plains (map (fun p => HPlain (fst p) (snd p)) ps ++ map HView vs) = ps.
Proof.
  unfold plains. rewrite flat_map_app. induction ps as [|[k v] ps IH].
  - cbn [map flat_map app]. induction vs as [|v vs IH]; [reflexivity|exact IH].
  - cbn [map flat_map app fst snd]. f_equal. exact IH.
Qed.
Lemma views_print ps vs : views (map (fun p => HPlain (fst p) (snd p)) ps ++ map HView vs) = vs.
Proof.
  unfold views. rewrite flat_map_app. induction ps as [|[k v] ps IH].
  - cbn [map flat_map app]. induction vs as [|v vs IH]; [reflexivity|]. cbn [map flat_map app]. now rewrite IH.
  - exact IH.
Qed.
Lemma clean_flat_idem (fill : nat -> str -> str -> str) hs out :
  fills fill -> Forall wf_hline hs -> Forall (fun p => (length (pair_line p) <= 150)%nat) (plains hs) -> adjacent_distinct (map fst (plains hs)) ->
  NoDup (map pair_line (plains hs)) -> clean_header fill (map print_hline hs) = Ok out -> clean_header fill out = Ok out.
Proof.
  intros F W N A ND E. unfold clean_header in *. rewrite (clean_flat_text fill 150 hs F W N A) in E. inversion E; subst out; clear E.
  change (fun p : str * str => fst p ++ s "=" ++ snd p) with pair_line. rewrite dedup_nodup by exact ND.
  set (hs' := map (fun p => HPlain (fst p) (snd p)) (plains hs) ++ map HView (last_of (views hs))).
  match goal with |- _ = Ok ?x => assert (x = map print_hline hs') as Q; [|rewrite Q; clear Q] end.
  { unfold hs'. rewrite map_app, !map_map. reflexivity. }
  assert (plains hs' = plains hs) as P by apply plains_print.
  assert (views hs' = last_of (views hs)) as V by apply views_print.
  assert (Forall wf_hline hs') as W'.
  { rewrite Forall_forall in W. apply Forall_app. split; apply Forall_map, Forall_forall.
    - intros p Q. apply plains_in in Q. now apply W.
    - intros v Q. apply W. unfold last_of in Q. destruct (rev (views hs)) as [|x r] eqn:R; [destruct Q|]. destruct Q as [->|[]].
      assert (In v (views hs)) as I by (apply in_rev; rewrite R; now left). unfold views in I. apply in_flat_map in I. destruct I as (h & H & I). destruct h; cbn in I; try contradiction. destruct I as [->|[]]. exact H. }
  rewrite <- P in N, A, ND. rewrite (clean_flat_text fill 150 hs' F W' N A).
  change (fun p : str * str => fst p ++ s "=" ++ snd p) with pair_line. rewrite dedup_nodup by exact ND. f_equal. rewrite P, V. unfold hs'. rewrite map_app, !map_map.
  cbn [print_hline]. f_equal. unfold last_of. destruct (rev (views hs)); reflexivity.
Qed.

(** concrete headers *)
Definition id_fill : nat -> str -> str -> str := fun _ l _ => l.
Definition short_lines (w : nat) (text : str) : bool :=
  match preprocess text with Ok st => forallb (fun l => length l <=? w)%nat (clean_up (h_files st)) | Raise _ => true end.
Lemma clean_text_run fill w text : fills fill -> short_lines w text = true -> clean_text fill w text = clean_text id_fill w text.
Proof.
  intros F S. unfold clean_text, short_lines in *. destruct (preprocess text) as [st|e]; [|reflexivity]. cbn [bind]. do 3 f_equal. f_equal.
  apply map_ext_in. intros l L. apply F. rewrite forallb_forall in S. specialize (S l L). now apply Nat.leb_le.
Qed.
Lemma clean_run fill h : fills fill -> short_lines 150 (join newline h) = true -> clean_header fill h = clean_header id_fill h.
Proof. apply clean_text_run. Qed.
Lemma items_run fill h items : fills fill -> short_lines 4096 (join newline h) = true -> header_items fill h items = header_items id_fill h items.
Proof. intros F S. unfold header_items. now rewrite (clean_text_run fill) by assumption. Qed.
Lemma clean_bad_view fill : fills fill ->
  clean_header fill [s "VIEW= -vta a:"; tab ++ s "foo=1"; s "VIEW= -vta b"] = Ok [s "VIEW= -vta a:"; tab ++ s "foo=1"; s "VIEW= -vta b"].
Proof. intros F. rewrite clean_run by (try exact F; reflexivity). reflexivity. Qed.
Lemma clean_bad_pvalue fill : fills fill -> clean_header fill [s "pvalue -o a=b.hdr"] = Ok [s "pvalue -o a=b.hdr"].
Proof. intros F. rewrite clean_run by (try exact F; reflexivity). reflexivity. Qed.
Lemma clean_bad_nesting fill : fills fill ->
  clean_header fill [s "r.hdr:"; tab ++ s "a.hdr:"; tab ++ tab ++ s "b.hdr:"; tab ++ tab ++ tab ++ s "x=1"; tab ++ s "c.hdr:"; tab ++ tab ++ s "y=2"]
  = Ok [s "b.hdr:"; tab ++ s "x=1"; tab ++ s "c.hdr:"; tab ++ tab ++ s "y=2"].
Proof. intros F. rewrite clean_run by (try exact F; reflexivity). reflexivity. Qed.
Lemma clean_bad_repeat fill : fills fill -> clean_header fill [s "foo"; s "bar=1"; s "foo"] = Ok [s "foo "; s "bar=1"; s "foo "].
Proof. intros F. rewrite clean_run by (try exact F; reflexivity). reflexivity. Qed.
Lemma clean_bad_raise fill : clean_header fill [s "...  a"] = Raise IndexError.
Proof. reflexivity. Qed.
Lemma items_bad_lost fill : fills fill -> header_items fill [s "a=1"; s "b=0"; s "a=2"; s "b=3"; s "a=1"] [s "a"] = Ok [s "2"].
Proof. intros F. rewrite items_run by (try exact F; reflexivity). reflexivity. Qed.
Lemma items_bad_merge fill : fills fill -> header_items fill [s "a=1"; s "b=2"; s "a=1"; s "a=3"] [s "A"; s "b"] = Ok [s "1"; s "2 3"].
Proof. intros F. rewrite items_run by (try exact F; reflexivity). reflexivity. Qed.
Lemma items_bad_twice fill : fills fill -> header_items fill [s "a=1"] [s "a"; s "A"] = Ok [s "1"; []].
Proof. intros F. rewrite items_run by (try exact F; reflexivity). reflexivity. Qed.
Lemma clean_bad_twice fill : fills fill -> exists out, clean_header fill [s "x=1"; s "a=1"; s "x=1"; s "a=2"] = Ok out /\ clean_header fill out = Ok [s "x=1"; s "a=1 2"] /\ out <> [s "x=1"; s "a=1 2"].
Proof.
  intros F. exists [s "x=1"; s "a=1"; s "a=2"]. split; [|split].
  - rewrite clean_run by (try exact F; reflexivity). reflexivity.
  - rewrite clean_run by (try exact F; reflexivity). reflexivity.
  - intros Q. apply (f_equal (@length str)) in Q. discriminate.
Qed.
Lemma getinfo_bad_lost : getinfo_args [s "a='b c'"] = Ok [s "getinfo"; s "-a"; s "a=b"; s "c"].
Proof. reflexivity. Qed.
Lemma getinfo_bad_raise : getinfo_args [s "it's"] = Raise ValueError.
Proof. reflexivity. Qed.
Lemma getinfo_bad_empty : getinfo_args [] = Ok [s "getinfo"; s "-a"; []].
Proof. reflexivity. Qed.

(** a number format: the natural numbers *)
From Coq Require Import Reals Lra.
From Verif Require Import L_Utility.
Definition nat_num (x : R) : Prop := exists n, (0 <= n)%Z /\ x = IZR n.
Definition nat_show (x : R) : str := py_str (Int_part x).
Definition nat_parse (t : str) : option R := option_map IZR (py_int t).
Lemma all_digits_chars l : all_digits l -> Forall (fun c => is_space c = false /\ c <> "V"%char /\ c <> "v"%char) l.
Proof.
  induction l as [|c l IH]; intros A; [constructor|]. destruct A as [(d & D & ->) A]. constructor; [|auto].
  assert (d = 0 \/ d = 1 \/ d = 2 \/ d = 3 \/ d = 4 \/ d = 5 \/ d = 6 \/ d = 7 \/ d = 8 \/ d = 9)%Z as C by lia.
  repeat (destruct C as [->|C]; [vm_compute; repeat split; discriminate|]). subst. vm_compute. repeat split; discriminate.
Qed.
Lemma nat_format : number_format nat_num nat_show nat_parse.
Proof.
  intros x (n & N & ->). unfold nat_show, nat_parse. replace (Int_part (IZR n)) with n by (unfold Int_part; pose proof (archimed (IZR n)) as [A1 A2]; apply lt_IZR in A1; rewrite <- minus_IZR in A2; apply le_IZR in A2; lia). rewrite py_int_str by exact N. split; [reflexivity|].
  assert (all_digits (py_str n)) as A.
  { unfold py_str. destruct (Z.ltb_spec n 0); [lia|]. apply print_pos_all; [exact N|exact I]. }
  pose proof (all_digits_chars _ A) as C. rewrite Forall_forall in C. split; [|split; [|split]].
  - intros E. pose proof (py_int_str n N) as P. rewrite E in P. discriminate.
  - apply Forall_forall. intros c H. apply C, H.
  - intros H. now destruct (C _ H) as (_ & Q & _).
  - intros H. now destruct (C _ H) as (_ & _ & Q).
Qed.
