From Coq Require Import Ascii String Lia.
From Verif Require Import Base L_Base M_Translate M_Mapper M_Utility M_Header S_Header L_Header L_Header2 L_Header3 L_Header5 S_Nested L_Nested L_Nested2 M_Wrap S_Wrap L_Wrap L_Wrap2.
Import ListNotations.
Local Open Scope list_scope.

(** * more rounds do not matter *)
Lemma wrap_lines_mono fuel : forall fuel' width indent started chunks l, (fuel <= fuel')%nat -> wrap_lines fuel width indent started chunks = Some l -> wrap_lines fuel' width indent started chunks = Some l.
Proof.
  induction fuel as [|fuel IH]; intros fuel' width indent started chunks l L E.
  - destruct chunks; [destruct fuel'; exact E|discriminate].
  - destruct fuel' as [|fuel']; [lia|]. destruct chunks as [|c cs]; [exact E|]. cbn [wrap_lines] in *. set (q := long_word _ _ _) in *. clearbody q. destruct (fst q) as [|l0 ls].
    + apply IH; [lia|exact E].
    + destruct (wrap_lines fuel width indent true (snd q)) as [r|] eqn:Q; [|discriminate]. now rewrite (IH fuel' _ _ _ _ r ltac:(lia) Q).
Qed.
Lemma wrap_all_mono fuel fuel' width lines r : (fuel <= fuel')%nat -> wrap_all fuel width lines = Some r -> wrap_all fuel' width lines = Some r.
Proof.
  intros L. revert r. induction lines as [|i lines IH]; intros r E; [exact E|]. cbn [wrap_all] in *. destruct (wrap fuel width i (wrap_indent i)) as [a|] eqn:A; [|discriminate].
  destruct (wrap_all fuel width lines) as [b|]; [|discriminate]. unfold wrap in *. rewrite (wrap_lines_mono _ _ _ _ _ _ _ L A), (IH b eq_refl). exact E.
Qed.
Lemma clean_run_mono fuel fuel' width text r : (fuel <= fuel')%nat -> clean_run fuel width text = Some r -> clean_run fuel' width text = Some r.
Proof.
  intros L E. unfold clean_run in *. destruct (preprocess text) as [st|e]; [|exact E]. destruct (wrap_all fuel width (clean_up (h_files st))) as [h|] eqn:Q; [|discriminate].
  now rewrite (wrap_all_mono _ _ _ _ _ L Q).
Qed.

(** * words and blanks *)
Fixpoint inter (ws : list str) : list str :=
  match ws with [] => [] | [u] => [u] | u :: ws => u :: s " " :: inter ws end.
Definition spaced (ws : list str) : str := join (s " ") ws.
Lemma inter_cons u v ws : inter (u :: v :: ws) = u :: s " " :: inter (v :: ws).
Proof. reflexivity. Qed.
Lemma spaced_cons u v ws : spaced (u :: v :: ws) = u ++ s " " ++ spaced (v :: ws).
Proof. reflexivity. Qed.
Lemma concat_inter ws : concat (inter ws) = spaced ws.
Proof. induction ws as [|u [|v ws] IH]; [reflexivity|apply app_nil_r|]. rewrite inter_cons, spaced_cons. cbn [concat]. rewrite IH. reflexivity. Qed.
Lemma spaced_app a b : a <> [] -> b <> [] -> spaced (a ++ b) = spaced a ++ s " " ++ spaced b.
Proof.
  intros A B. induction a as [|u [|v a] IH]; [contradiction|destruct b; [contradiction|reflexivity]|]. change ((u :: v :: a) ++ b) with (u :: v :: (a ++ b)). rewrite !spaced_cons.
  change (v :: a ++ b) with ((v :: a) ++ b). rewrite IH by discriminate. now rewrite <- !app_assoc.
Qed.
Lemma wrap_space_space c : is_space c = false -> wrap_space c = false.
Proof.
  intros H. unfold wrap_space. destruct (existsb _ _) eqn:E; [|reflexivity]. apply existsb_exists in E. destruct E as (x & X & E). apply char_eqb_true in E. subst x.
  cbn [In] in X. repeat (destruct X as [X|X]; [subst c; discriminate H|]). destruct X.
Qed.
Definition at_start (before : str) : Prop := match before with [] => True | c :: _ => wrap_space c = true end.
Lemma at_start_punct before : at_start before -> after_punct before = false.
Proof.
  destruct before as [|c b]; [reflexivity|]. cbn [at_start after_punct]. intros H. unfold wrap_space in H. apply existsb_exists in H. destruct H as (x & X & E). apply char_eqb_true in E. subst x.
  cbn [In] in X. repeat (destruct X as [X|X]; [subst c; reflexivity|]). destruct X.
Qed.
Definition at_end (rest : str) : Prop := match rest with [] => True | c :: _ => c = " "%char end.
Lemma dash_em c l : c <> "-"%char -> em_dash (c :: l) = false.
Proof.
  intros N. unfold em_dash. cbn [drop_while take_while]. replace (char_eqb "-" c) with false by (symmetry; apply char_eqb_false; congruence). cbn [length Nat.leb]. apply andb_false_r.
Qed.
Lemma word_tail_word rest : at_end rest -> forall u a before, a <> [] -> unbroken (a ++ u) -> word_tail (rev a ++ before) (u ++ rest) = u.
Proof.
  intros AE u. induction u as [|c u IH]; intros a before NE U.
  - cbn [app]. destruct rest as [|c rest]; [reflexivity|]. cbn [at_end] in AE. subst c. reflexivity.
  - cbn [app word_tail]. destruct (rev a) as [|p r] eqn:RA; [exfalso; apply NE; rewrite <- (rev_involutive a), RA; reflexivity|].
    assert (In p a) as PA by (apply in_rev; rewrite RA; now left).
    destruct U as (UN & US & UL & UH).
    assert (hyphen_break ((p :: r) ++ before) (c :: u ++ rest) = false /\ (after_punct ((p :: r) ++ before) && em_dash (c :: u ++ rest))%bool = false) as [-> ->].
    { destruct (ascii_dec c "-") as [->|N].
      - destruct (UH a u eq_refl) as [A|B].
        + rewrite Forall_forall in A. specialize (A p PA). subst p. split; [|reflexivity]. cbn [app hyphen_break]. change (letter "-") with false. destruct (r ++ before) as [|x [|y l]]; reflexivity.
        + assert (match u ++ rest with x :: _ => letter x = false /\ x <> "-"%char | [] => True end) as B2.
          { destruct u as [|x u]; [|exact B]. cbn [app]. destruct rest as [|y rest]; [exact I|]. cbn [at_end] in AE. subst y. split; [reflexivity|discriminate]. }
          destruct (u ++ rest) as [|x l]; [split; [cbn [hyphen_break]; apply andb_false_r|unfold em_dash; cbn; apply andb_false_r]|]. destruct B2 as [B2 B3]. split.
          * cbn [hyphen_break]. destruct l as [|y l]; [apply andb_false_r|]. rewrite B2. apply andb_false_r.
          * unfold em_dash. cbn [drop_while take_while]. change (char_eqb "-" "-") with true. cbv iota. replace (char_eqb "-" x) with false by (symmetry; apply char_eqb_false; congruence). cbn [length Nat.leb]. now rewrite !andb_false_r.
      - split; [|rewrite dash_em by exact N; apply andb_false_r]. cbn [hyphen_break]. destruct c as [[] [] [] [] [] [] [] []]; try reflexivity. exfalso. now apply N. }
    replace (wrap_space c) with false; [|symmetry; apply wrap_space_space; rewrite Forall_forall in US; apply US, in_or_app; right; now left].
    f_equal. change (c :: (p :: r) ++ before) with ((c :: p :: r) ++ before). replace (c :: p :: r) with (rev (a ++ [c])) by (rewrite rev_app_distr, RA; reflexivity).
    apply IH; [intros Q; apply app_eq_nil in Q; destruct Q; discriminate|]. rewrite <- app_assoc. repeat split; assumption.
Qed.
Lemma next_chunk_word before c u rest : at_start before -> at_end rest -> unbroken (c :: u) -> next_chunk before c (u ++ rest) = c :: u.
Proof.
  intros AS AE U. unfold next_chunk. pose proof U as (_ & US & _). inversion US; subst. rewrite wrap_space_space by assumption. rewrite at_start_punct by exact AS. cbn [andb]. f_equal.
  change (c :: before) with (rev [c] ++ before). now apply word_tail_word.
Qed.
Lemma skip_chunk (a b : str) : skipn (length a) (a ++ b) = b.
Proof. now rewrite skipn_app, skipn_all, Nat.sub_diag. Qed.
Lemma split_words_ok ws : forall n before, Forall unbroken ws -> at_start before -> (length (spaced ws) <= n)%nat -> split_from n before (spaced ws) = inter ws.
Proof.
  induction ws as [|u [|v ws] IH]; intros n before U AS L.
  - destruct n; reflexivity.
  - change (spaced [u]) with u in *. inversion U as [|? ? U1 _]; subst. destruct u as [|c u]; [destruct U1; contradiction|]. destruct n as [|n]; [cbn in L; lia|]. cbn [split_from].
    pose proof (next_chunk_word before c u [] AS I U1) as E. rewrite app_nil_r in E. rewrite E. rewrite skipn_all. destruct n; reflexivity.
  - inversion U as [|? ? U1 U2]; subst. destruct u as [|c u]; [destruct U1; contradiction|]. rewrite spaced_cons, inter_cons in *. destruct n as [|n]; [cbn in L; lia|]. cbn [app split_from].
    rewrite (next_chunk_word before c u (s " " ++ spaced (v :: ws)) AS eq_refl U1). f_equal. rewrite app_comm_cons, skip_chunk.
    assert (exists e r, spaced (v :: ws) = e :: r /\ wrap_space e = false) as (e & r & EE & SE).
    { inversion U2 as [|? ? U3 _]; subst. destruct v as [|e v]; [destruct U3; contradiction|]. destruct U3 as (_ & US & _). inversion US; subst.
      exists e. destruct ws as [|w ws]; [exists v|exists (v ++ s " " ++ spaced (w :: ws))]; split; try reflexivity; now apply wrap_space_space. }
    rewrite !app_length in L. cbn [length list_ascii_of_string app] in L. destruct n as [|n]; [rewrite EE in L; cbn in L; lia|]. cbn [split_from app list_ascii_of_string].
    assert (next_chunk (rev (c :: u) ++ before) " " (spaced (v :: ws)) = s " ") as ->.
    { unfold next_chunk. change (wrap_space " ") with true. cbv iota. cbn [take_while]. change (wrap_space " ") with true. cbv iota. rewrite EE. cbn [take_while]. rewrite SE. reflexivity. }
    cbn [length list_ascii_of_string skipn]. f_equal. apply IH; [exact U2|reflexivity|]. cbn [app rev] in *. lia.
Qed.
Lemma spaced_first ws : ws <> [] -> Forall unbroken ws -> exists e r, spaced ws = e :: r /\ is_space e = false.
Proof.
  intros N U. destruct ws as [|v ws]; [contradiction|]. inversion U as [|? ? U3 _]; subst. destruct v as [|e v]; [destruct U3; contradiction|]. destruct U3 as (_ & US & _). inversion US; subst.
  exists e. destruct ws as [|w ws]; [exists v|exists (v ++ s " " ++ spaced (w :: ws))]; split; try reflexivity; assumption.
Qed.
Lemma spaced_last ws : ws <> [] -> Forall unbroken ws -> exists e r, rev (spaced ws) = e :: r /\ is_space e = false /\ e <> ":"%char.
Proof.
  intros N U. induction ws as [|v [|w ws] IH]; [contradiction| |].
  - change (spaced [v]) with v. inversion U as [|? ? U1 _]; subst. destruct U1 as (NE & US & UL & _). destruct (rev v) as [|e r] eqn:E; [exfalso; apply NE; rewrite <- (rev_involutive v), E; reflexivity|].
    exists e, r. assert (v = rev r ++ [e]) as Q by (rewrite <- (rev_involutive v), E; reflexivity). rewrite Q, last_last in UL. split; [reflexivity|]. split; [|exact UL].
    rewrite Forall_forall in US. apply US. rewrite Q. apply in_or_app. right. now left.
  - inversion U; subst. destruct IH as (e & r & E & S1 & S2); [discriminate|assumption|]. rewrite spaced_cons, !rev_app_distr, E. cbn [app]. eauto.
Qed.
Lemma spaced_trimmed ws : ws <> [] -> Forall unbroken ws -> trimmed (spaced ws).
Proof.
  intros N U. destruct (spaced_first ws N U) as (e & r & E & SE). destruct (spaced_last ws N U) as (e2 & r2 & E2 & SE2). split; [now rewrite E|now rewrite E2].
Qed.
Definition tabs_chunk (d : nat) : list str := match d with O => [] | _ => [indent d] end.
Lemma split_line d ws : ws <> [] -> Forall unbroken ws -> wrap_split (indent d ++ spaced ws) = tabs_chunk d ++ inter ws.
Proof.
  intros N U. unfold wrap_split. destruct d as [|d]; [apply split_words_ok; [exact U|exact I|reflexivity]|].
  destruct (spaced_first ws N U) as (e & r & E & SE). rewrite app_length. change (length (indent (S d))) with (S (length (indent d))). cbn [plus split_from].
  change (indent (S d) ++ spaced ws) with ("009"%char :: indent d ++ spaced ws). cbn [split_from].
  assert (next_chunk [] "009" (indent d ++ spaced ws) = indent (S d)) as ->.
  { unfold next_chunk. change (wrap_space "009") with true. cbv iota. change ("009"%char :: indent d ++ spaced ws) with (indent (S d) ++ spaced ws). rewrite E. apply take_while_app; [|now apply wrap_space_space].
    apply Forall_forall. intros c C. apply repeat_spec in C. now subst. }
  change ("009"%char :: indent d ++ spaced ws) with (indent (S d) ++ spaced ws). rewrite skip_chunk. cbn [tabs_chunk app]. f_equal. apply split_words_ok; [exact U| |lia].
  rewrite app_nil_r. unfold at_start. destruct (rev (indent (S d))) as [|c l] eqn:Q; [exact I|]. assert (In c (indent (S d))) as IN by (apply in_rev; rewrite Q; now left). apply repeat_spec in IN. now subst.
Qed.

(** * which chunks come together *)
Fixpoint tight (width : nat) (ind : nat) (segs : list (list str)) : Prop :=
  match segs with
  | a :: (((c :: _) :: _) as r) => (width < ind + length (concat a) + length c)%nat /\ tight width ind r
  | _ => True
  end.
Lemma wrap_segs width (indent : str) : forall fuel (chunks : list str), Forall (fun c => c <> [] /\ (length indent + length c <= width)%nat) chunks -> (length (concat chunks) <= fuel)%nat ->
  exists segs, wrap_lines fuel width indent true chunks = Some (map (fun sg => indent ++ concat sg) segs) /\ concat segs = chunks /\ Forall (fun sg => sg <> []) segs /\ tight width (length indent) segs.
Proof.
  induction fuel as [|fuel IH]; intros chunks N L.
  - destruct chunks as [|c cs]; [exists []; repeat split; constructor|]. inversion N as [|? ? [NE _] _]; subst. cbn [concat] in L. rewrite app_length in L. destruct c; [contradiction|cbn in L; lia].
  - destruct chunks as [|c cs]; [exists []; repeat split; constructor|]. cbn [wrap_lines]. set (w := (Z.of_nat width - Z.of_nat (length indent))%Z).
    destruct (fit_ok (c :: cs) w) as (A & B & D). set (p := fit w (c :: cs)) in *.
    assert (fst p <> []) as F.
    { intros Q. rewrite Q in *. cbn [app] in A. rewrite A in D. cbn [concat length] in D. inversion N as [|? ? [_ N1] _]; subst. unfold w in D. lia. }
    assert (long_word w (fst p) (snd p) = (fst p, snd p)) as ->.
    { unfold long_word. destruct (snd p) as [|k r]; [reflexivity|]. replace (w <? Z.of_nat (length k))%Z with false; [reflexivity|]. symmetry. apply Z.ltb_ge. rewrite Forall_forall in N. destruct (N k) as [_ Q]; [rewrite <- A; apply in_or_app; right; now left|]. unfold w. lia. }
    cbn [fst snd]. rewrite <- A in N. apply Forall_app in N. destruct N as [N1 N2]. destruct (IH (snd p) N2) as (segs & E & CE & SN & T).
    { rewrite <- A, concat_app, app_length in L. destruct (fst p) as [|y ys]; [contradiction|]. inversion N1 as [|? ? [NE _] _]; subst. cbn [concat] in L. rewrite app_length in L. destruct y; [contradiction|cbn [length] in L; lia]. }
    destruct (fst p) as [|y ys] eqn:Q; [contradiction|]. rewrite E. exists ((y :: ys) :: segs). cbn [map concat]. split; [reflexivity|]. split; [rewrite CE; exact A|]. split; [constructor; [discriminate|exact SN]|].
    destruct segs as [|[|k r] segs]; [exact I|inversion SN; contradiction|]. cbn [tight]. split; [|exact T]. rewrite <- CE in D. cbn [concat app] in D. unfold w in D. cbn [concat] in *. lia.
Qed.
(** the first line has no indentation *)
Lemma wrap_first width (indent : str) fuel (c : str) (cs : list str) : Forall (fun c => c <> [] /\ (length c <= width)%nat) (c :: cs) ->
  let p := fit (Z.of_nat width) (c :: cs) in Forall (fun c => c <> [] /\ (length indent + length c <= width)%nat) (snd p) -> (length (concat (snd p)) <= fuel)%nat ->
  exists segs, wrap_lines (S fuel) width indent false (c :: cs) = Some (concat (fst p) :: map (fun sg => indent ++ concat sg) segs) /\ fst p <> [] /\ fst p ++ concat segs = c :: cs /\
    Forall (fun sg => sg <> []) segs /\ tight width (length indent) segs.
Proof.
  intros N p N2 L. cbn [wrap_lines length]. replace (Z.of_nat width - Z.of_nat 0)%Z with (Z.of_nat width) by lia. fold p. destruct (fit_ok (c :: cs) (Z.of_nat width)) as (A & B & D). fold p in A, B, D.
  assert (fst p <> []) as F.
  { intros Q. rewrite Q in *. cbn [app] in A. rewrite A in D. cbn [concat length] in D. inversion N as [|? ? [_ N1] _]; subst. lia. }
  assert (long_word (Z.of_nat width) (fst p) (snd p) = (fst p, snd p)) as ->.
  { unfold long_word. destruct (snd p) as [|k r]; [reflexivity|]. replace (Z.of_nat width <? Z.of_nat (length k))%Z with false; [reflexivity|]. symmetry. apply Z.ltb_ge. rewrite Forall_forall in N. destruct (N k) as [_ Q]; [rewrite <- A; apply in_or_app; right; now left|]. lia. }
  cbn [fst snd]. destruct (wrap_segs width indent fuel (snd p) N2 L) as (segs & E & CE & SN & T). rewrite E. exists segs. split; [destruct (fst p); [contradiction|reflexivity]|]. split; [exact F|]. split; [rewrite CE; exact A|]. auto.
Qed.
(** a beginning of the alternating list *)
Lemma inter_split (ws : list str) : forall seg R : list str, ws <> [] -> seg ++ R = inter ws -> seg <> [] ->
  exists (g ws2 : list str) (t : str), g <> [] /\ ws = g ++ ws2 /\ concat seg = spaced g ++ t /\ (t = [] \/ t = s " ") /\
    ((R = [] /\ ws2 = []) \/ (ws2 <> [] /\ (R = inter ws2 \/ R = s " " :: inter ws2))).
Proof.
  induction ws as [|u [|v ws] IH]; intros seg R N E S; [contradiction| |].
  - cbn [inter] in E. destruct seg as [|x seg]; [contradiction|]. cbn [app] in E. injection E as -> E. apply app_eq_nil in E. destruct E as [-> ->]. exists [u], [], []. split; [discriminate|]. split; [reflexivity|]. split; [reflexivity|]. auto.
  - rewrite inter_cons in E. destruct seg as [|x seg]; [contradiction|]. cbn [app] in E. injection E as -> E. destruct seg as [|y seg].
    + cbn [app] in E. subst R. exists [u], (v :: ws), []. split; [discriminate|]. split; [reflexivity|]. split; [reflexivity|]. split; [auto|]. right. split; [discriminate|auto].
    + cbn [app] in E. injection E as -> E. destruct seg as [|z seg].
      * cbn [app] in E. subst R. exists [u], (v :: ws), (s " "). split; [discriminate|]. split; [reflexivity|]. split; [reflexivity|]. split; [auto|]. right. split; [discriminate|auto].
      * destruct (IH (z :: seg) R) as (g & ws2 & t & G & W & CC & T & Q); [discriminate|exact E|discriminate|]. exists (u :: g), ws2, t. split; [discriminate|]. split; [now rewrite W|]. split; [|auto].
        transitivity (u ++ s " " ++ (spaced g ++ t)); [exact (f_equal (fun q => u ++ s " " ++ q) CC)|]. destruct g as [|g0 g]; [contradiction|]. rewrite spaced_cons. now rewrite <- !app_assoc.
Qed.
(** every line has words *)
Definition piece_of (seg g : list str) : Prop := g <> [] /\ exists l t : str, (l = [] \/ l = s " ") /\ (t = [] \/ t = s " ") /\ concat seg = l ++ spaced g ++ t.
Lemma groups width ind (segs : list (list str)) : forall ws : list str, Forall (fun u => (ind + length u + 1 <= width)%nat) ws -> (ws = [] /\ segs = [] \/ ws <> [] /\ (concat segs = inter ws \/ concat segs = s " " :: inter ws)) ->
  Forall (fun sg => sg <> []) segs -> tight width ind segs -> exists gs, Forall2 piece_of segs gs /\ concat gs = ws.
Proof.
  induction segs as [|seg segs IH]; intros ws B C N T.
  - destruct C as [[-> _]|[W C]]; [exists []; split; [constructor|reflexivity]|]. exfalso. destruct C as [C|C]; [|discriminate]. destruct ws as [|u [|v ws]]; [contradiction|discriminate|discriminate].
  - destruct C as [[_ C]|[W C]]; [discriminate|]. inversion N as [|? ? N1 N2]; subst. cbn [concat] in C.
    assert (tight width ind segs) as T2. { destruct segs as [|[|k r] segs]; [exact I|inversion N2; contradiction|]. destruct T as [_ T]. exact T. }
    assert (exists (g ws2 : list str) (l t : str), g <> [] /\ ws = g ++ ws2 /\ concat seg = l ++ spaced g ++ t /\ (l = [] \/ l = s " ") /\ (t = [] \/ t = s " ") /\
      ((concat segs = [] /\ ws2 = []) \/ (ws2 <> [] /\ (concat segs = inter ws2 \/ concat segs = s " " :: inter ws2)))) as (g & ws2 & l & t & G & WE & CC & LL & TT & Q).
    { destruct C as [C|C].
      - destruct (inter_split ws seg (concat segs) W C N1) as (g & ws2 & t & G & WE & CC & TT & Q). exists g, ws2, [], t. auto 8.
      - destruct seg as [|b seg]; [contradiction|]. cbn [app] in C. injection C as -> C. destruct seg as [|x seg].
        + exfalso. cbn [app] in C. destruct ws as [|u ws]; [contradiction|]. destruct segs as [|[|k r] segs]; [destruct ws; discriminate|inversion N2; contradiction|]. cbn [concat app] in C.
          assert (k = u) as -> by (destruct ws; injection C; auto). destruct T as [T _]. inversion B; subst. cbn in T. lia.
        + destruct (inter_split ws (x :: seg) (concat segs) W C ltac:(discriminate)) as (g & ws2 & t & G & WE & CC & TT & Q). exists g, ws2, (s " "), t. split; [exact G|]. split; [exact WE|]. split; [|auto].
          exact (f_equal (fun q => s " " ++ q) CC). }
    subst ws. apply Forall_app in B. destruct B as [_ B]. destruct (IH ws2 B) as (gs & F & CG).
    + destruct Q as [[Q1 Q2]|Q]; [left; split; [exact Q2|]|right; exact Q]. destruct segs as [|[|k r] segs]; [reflexivity|inversion N2; contradiction|discriminate].
    + exact N2.
    + exact T2.
    + exists (g :: gs). split; [constructor; [split; [exact G|exists l, t; auto]|exact F]|]. cbn [concat]. now rewrite CG.
Qed.
