From Coq Require Import Ascii String Lia.
From Verif Require Import Base L_Base M_Translate M_Mapper M_Utility M_Header S_Header L_Header L_Header2 L_Header3 L_Header5 S_Nested L_Nested L_Nested2 M_Wrap S_Wrap.
Import ListNotations.
Local Open Scope list_scope.

(** * chunks *)
Lemma take_while_prefix f l : exists r, l = take_while f l ++ r.
Proof. induction l as [|c l [r IH]]; [now exists []|]. cbn [take_while]. destruct (f c); [|now exists (c :: l)]. exists r. cbn [app]. now f_equal. Qed.
Lemma word_tail_prefix l : forall before, exists r, l = word_tail before l ++ r.
Proof.
  induction l as [|c l IH]; intros before; [now exists []|]. cbn [word_tail]. destruct (hyphen_break before (c :: l)); [now exists l|]. destruct (wrap_space c); [now exists (c :: l)|].
  destruct (after_punct before && em_dash (c :: l))%bool; [now exists (c :: l)|]. destruct (IH (c :: before)) as [r E]. exists r. cbn [app]. now f_equal.
Qed.
Lemma next_chunk_prefix before c l : next_chunk before c l <> [] /\ exists r, c :: l = next_chunk before c l ++ r.
Proof.
  unfold next_chunk. destruct (wrap_space c) eqn:W.
  - split; [cbn [take_while]; rewrite W; discriminate|apply take_while_prefix].
  - destruct (after_punct before && em_dash (c :: l))%bool eqn:E.
    + split; [|apply take_while_prefix]. apply andb_true_iff in E. destruct E as [_ E]. unfold em_dash in E. cbn [take_while drop_while] in *.
      destruct (char_eqb "-" c); [discriminate|]. cbn [length Nat.leb] in E. now rewrite andb_false_r in E.
    + split; [discriminate|]. destruct (word_tail_prefix l (c :: before)) as [r Q]. exists r. cbn [app]. now f_equal.
Qed.
Lemma split_from_ok n : forall before l, (length l <= n)%nat -> concat (split_from n before l) = l /\ Forall (fun c => c <> []) (split_from n before l).
Proof.
  induction n as [|n IH]; intros before l L.
  - destruct l; [split; [reflexivity|constructor]|cbn in L; lia].
  - destruct l as [|c l]; [split; [reflexivity|constructor]|]. cbn [split_from]. destruct (next_chunk_prefix before c l) as [NE [r E]]. set (k := next_chunk before c l) in *. rewrite E.
    rewrite skipn_app, skipn_all, Nat.sub_diag. cbn [skipn app concat].
    destruct (IH (rev k ++ before) r) as [A B].
    { apply (f_equal (@length ascii)) in E. rewrite app_length in E. cbn [length] in *. destruct k; [contradiction|]. cbn [length] in E. lia. }
    split; [now rewrite A|now constructor].
Qed.
Lemma wrap_split_ok t : concat (wrap_split t) = t /\ Forall (fun c => c <> []) (wrap_split t).
Proof. now apply split_from_ok. Qed.

(** * lines *)
Lemma fit_ok (cs : list str) : forall room, fst (fit room cs) ++ snd (fit room cs) = cs /\ (0 <= room -> Z.of_nat (length (concat (fst (fit room cs)))) <= room)%Z /\
  match snd (fit room cs) with [] => True | c :: _ => (room < Z.of_nat (length (concat (fst (fit room cs)))) + Z.of_nat (length c))%Z end.
Proof.
  induction cs as [|c cs IH]; intros room; [split; [reflexivity|split; [intros; cbn; lia|exact I]]|]. cbn [fit]. destruct (Z.of_nat (length c) <=? room)%Z eqn:E.
  - apply Z.leb_le in E. cbn [fst snd]. destruct (IH (room - Z.of_nat (length c))%Z) as (A & B & C). split; [cbn [app]; now f_equal|]. cbn [concat]. rewrite app_length, Nat2Z.inj_add.
    split; [intros P; specialize (B ltac:(lia)); lia|]. destruct (snd (fit (room - Z.of_nat (length c)) cs)); [exact I|lia].
  - apply Z.leb_gt in E. cbn [fst snd app concat length]. split; [reflexivity|]. split; lia.
Qed.
Lemma fit_all (cs : list str) : forall room, (Z.of_nat (length (concat cs)) <= room)%Z -> fit room cs = (cs, []).
Proof.
  induction cs as [|c cs IH]; intros room L; [reflexivity|]. cbn [concat] in L. rewrite app_length in L. cbn [fit]. replace (Z.of_nat (length c) <=? room)%Z with true by (symmetry; apply Z.leb_le; lia).
  rewrite IH by lia. reflexivity.
Qed.
Lemma fit_none room (c : str) (cs : list str) : (room < Z.of_nat (length c))%Z -> fit room (c :: cs) = ([], c :: cs).
Proof. intros L. cbn [fit]. now replace (Z.of_nat (length c) <=? room)%Z with false by (symmetry; apply Z.leb_gt; lia). Qed.
Lemma last_hyphen_lt l : forall i, last_hyphen l = Some i -> (i < length l)%nat.
Proof.
  induction l as [|c l IH]; intros i E; [discriminate|]. cbn [last_hyphen] in E. destruct (last_hyphen l) as [j|]; [injection E as <-; specialize (IH j eq_refl); cbn [length]; lia|].
  destruct (char_eqb c "-"); [injection E as <-; cbn [length]; lia|discriminate].
Qed.
Lemma cut_at_le space chunk : (cut_at space chunk <= space)%nat /\ (1 <= space -> 1 <= cut_at space chunk)%nat.
Proof.
  unfold cut_at. destruct (space <? length chunk)%nat; [|lia]. destruct (last_hyphen (firstn space chunk)) as [[|h]|] eqn:E; [lia| |lia]. destruct (existsb _ _); [|lia].
  apply last_hyphen_lt in E. rewrite firstn_length in E. lia.
Qed.
(** a round of the loop with at least one column *)
Lemma round_ok w (c : str) (cs : list str) : (1 <= w)%Z -> Forall (fun c => c <> []) (c :: cs) ->
  let p := fit w (c :: cs) in let q := long_word w (fst p) (snd p) in
  concat (fst q) ++ concat (snd q) = concat (c :: cs) /\ concat (fst q) <> [] /\ fst q <> [] /\ Forall (fun c => c <> []) (snd q) /\ (Z.of_nat (length (concat (fst q))) <= w)%Z.
Proof.
  intros W N p q. destruct (fit_ok (c :: cs) w) as (A & B & D). fold p in A, B, D. specialize (B ltac:(lia)).
  assert (Forall (fun c => c <> []) (fst p) /\ Forall (fun c => c <> []) (snd p)) as [N1 N2] by (rewrite <- A in N; now apply Forall_app in N).
  unfold q, long_word. destruct (snd p) as [|k r] eqn:E.
  - rewrite app_nil_r in A. rewrite A in *. cbn [fst snd concat]. split; [apply app_nil_r|]. inversion N; subst. split; [destruct c; [contradiction|discriminate]|]. split; [discriminate|]. split; [constructor|exact B].
  - destruct (w <? Z.of_nat (length k))%Z eqn:L.
    + apply Z.ltb_lt in L. replace (w <? 1)%Z with false by (symmetry; apply Z.ltb_ge; lia). set (space := Z.to_nat (w - Z.of_nat (length (concat (fst p))))).
      destruct (cut_at_le space k) as [C1 C2]. set (e := cut_at space k) in *. cbn [fst snd]. rewrite concat_app. cbn [concat]. rewrite app_nil_r.
      split; [|split; [|split; [|split]]].
      * change (c ++ concat cs) with (concat (c :: cs)). rewrite <- A, concat_app. cbn [concat]. rewrite <- app_assoc. f_equal. rewrite app_assoc. now rewrite firstn_skipn.
      * intros Q. apply app_eq_nil in Q. destruct Q as [Q1 Q2]. assert (length (concat (fst p)) = 0%nat) as Q3 by (now rewrite Q1). assert (1 <= e)%nat by (apply C2; unfold space; lia).
        destruct k; [cbn in L; lia|]. destruct e; [lia|]. discriminate Q2.
      * intros Q. apply app_eq_nil in Q. destruct Q; discriminate.
      * inversion N2; subst. constructor; [|assumption]. intros Q. apply (f_equal (@length ascii)) in Q. rewrite skipn_length in Q. cbn [length] in Q. unfold space in *. lia.
      * rewrite app_length, firstn_length. unfold space in *. lia.
    + apply Z.ltb_ge in L. cbn [fst snd]. change (k ++ concat r) with (concat (k :: r)). split; [rewrite <- A, concat_app; reflexivity|].
      assert (fst p <> []) as NE. { intros Q. rewrite Q in D. cbn [concat length] in D. lia. }
      split; [|split; [exact NE|split; [exact N2|exact B]]]. destruct (fst p) as [|y ys]; [contradiction|]. inversion N1; subst. cbn [concat]. destruct y; [contradiction|discriminate].
Qed.
Definition dress (indent : str) (started : bool) (ps : list str) : list str :=
  if started then map (fun r => indent ++ r) ps else match ps with [] => [] | p :: ps => p :: map (fun r => indent ++ r) ps end.
Lemma wrap_lines_ok width (indent : str) : (length indent < width)%nat -> forall fuel started (chunks : list str), Forall (fun c => c <> []) chunks -> (length (concat chunks) <= fuel)%nat ->
  exists ps, wrap_lines fuel width indent started chunks = Some (dress indent started ps) /\ concat ps = concat chunks /\ Forall (fun p => p <> []) ps /\
    Forall (fun l => (length l <= width)%nat) (dress indent started ps).
Proof.
  intros IW fuel. induction fuel as [|fuel IH]; intros started chunks N L.
  - destruct chunks as [|c cs]; [exists []; destruct started; repeat split; constructor|]. inversion N; subst. cbn [concat] in L. rewrite app_length in L. destruct c; [contradiction|cbn in L; lia].
  - destruct chunks as [|c cs]; [exists []; destruct started; repeat split; constructor|]. cbn [wrap_lines]. set (ind := if started then indent else [] : str). set (w := (Z.of_nat width - Z.of_nat (length ind))%Z).
    assert (1 <= w)%Z as W by (unfold w, ind; destruct started; cbn [length]; lia).
    destruct (round_ok w c cs W N) as (A & B & NE & N2 & D). set (q := long_word w (fst (fit w (c :: cs))) (snd (fit w (c :: cs)))) in *.
    destruct (IH true (snd q) N2) as (ps & E & CE & PN & PL).
    { rewrite <- A, app_length in L. destruct (concat (fst q)); [contradiction|]. cbn [length] in L. lia. }
    destruct (fst q) as [|l0 ls] eqn:F; [contradiction|]. rewrite <- F in *. clear F. rewrite E. exists (concat (fst q) :: ps). cbn [concat dress] in *. unfold ind in *. split; [|split; [|split]].
    + destruct started; reflexivity.
    + rewrite CE. exact A.
    + now constructor.
    + destruct started; cbn [dress map]; (constructor; [|exact PL]); rewrite ?app_length; unfold w in D; cbn [length] in D; lia.
Qed.
Lemma wrap_ok width (indent t : str) fuel : (length indent < width)%nat -> (length t <= fuel)%nat -> t <> [] ->
  exists first rest, wrap fuel width t indent = Some (first :: map (fun r => indent ++ r) rest) /\ first ++ concat rest = t /\ first <> [] /\ Forall (fun p => p <> []) rest /\
    Forall (fun l => (length l <= width)%nat) (first :: map (fun r => indent ++ r) rest).
Proof.
  intros IW L NE. destruct (wrap_split_ok t) as [C N]. destruct (wrap_lines_ok width indent IW fuel false (wrap_split t) N) as (ps & E & CE & PN & PL); [now rewrite C|].
  rewrite C in CE. destruct ps as [|p ps]; [exfalso; now apply NE|]. inversion PN; subst. exists p, ps. repeat split; auto.
Qed.
Lemma wrap_short width (indent t : str) fuel : (length t <= width)%nat -> t <> [] -> wrap (S fuel) width t indent = Some [t].
Proof.
  intros L NE. unfold wrap. destruct (wrap_split_ok t) as [C N]. destruct (wrap_split t) as [|c cs] eqn:E; [exfalso; apply NE; now rewrite <- C|]. cbn [wrap_lines length].
  rewrite fit_all by (rewrite C; lia). cbn [fst snd long_word]. destruct fuel; cbn [wrap_lines]; now rewrite C.
Qed.
Lemma wrap_nil fuel width indent : wrap fuel width [] indent = Some [].
Proof. unfold wrap. cbn. destruct fuel; reflexivity. Qed.

(** with more indentation than columns the loop does not end *)
Lemma wrap_lines_hangs width (indent : str) : (width < length indent)%nat -> forall fuel c cs, wrap_lines fuel width indent true (c :: cs) = None.
Proof.
  intros L fuel. induction fuel as [|fuel IH]; intros c cs; [reflexivity|]. cbn [wrap_lines]. rewrite fit_none by lia. cbn [fst snd]. unfold long_word.
  replace (Z.of_nat width - Z.of_nat (length indent) <? Z.of_nat (length c))%Z with true by (symmetry; apply Z.ltb_lt; lia). cbn [fst snd app]. now rewrite IH.
Qed.
Lemma wrap_hangs width (indent t : str) : (0 < width < length indent)%nat -> (width < length t)%nat -> forall fuel, wrap fuel width t indent = None.
Proof.
  intros L LT fuel. unfold wrap. destruct (wrap_split_ok t) as [C N]. destruct (wrap_split t) as [|c cs] eqn:E; [rewrite <- C in LT; cbn in LT; lia|]. destruct fuel as [|fuel]; [reflexivity|]. cbn [wrap_lines length].
  set (w := (Z.of_nat width - Z.of_nat 0)%Z). assert (1 <= w)%Z as W by (unfold w; lia). assert (w <= Z.of_nat width)%Z as W2 by (unfold w; lia). clearbody w.
  pose proof (round_ok w c cs W N) as R. cbv zeta in R. set (q := long_word w (fst (fit w (c :: cs))) (snd (fit w (c :: cs)))) in *. clearbody q. destruct R as (A & B & NE & N2 & D).
  destruct (fst q) as [|l0 ls] eqn:F; [contradiction|]. rewrite <- F in *. destruct (snd q) as [|k r] eqn:G.
  - exfalso. change (concat (@nil str)) with (@nil ascii) in A. rewrite app_nil_r in A. rewrite A, C in D. lia.
  - now rewrite wrap_lines_hangs by lia.
Qed.
