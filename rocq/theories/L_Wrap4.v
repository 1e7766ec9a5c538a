From Coq Require Import Ascii String Lia.
From Verif Require Import Base L_Base M_Translate M_Mapper M_Utility M_Header S_Header L_Header L_Header2 L_Header3 L_Header5 S_Nested L_Nested L_Nested2 M_Wrap S_Wrap L_Wrap L_Wrap2 L_Wrap3.
Import ListNotations.
Local Open Scope list_scope.

(** * the lines of a broken line, read again *)
Lemma strip_blanks (b y t : str) : Forall (fun c => is_space c = true) b -> trimmed y -> t = [] \/ t = s " " -> strip (b ++ y ++ t) = y.
Proof.
  intros B T E. assert (strip (b ++ y ++ t) = strip (y ++ t)) as ->.
  { unfold strip. f_equal. f_equal. f_equal. induction B as [|c b C _ IH]; [reflexivity|]. cbn [app lstrip]. now rewrite C. }
  destruct E as [-> | ->]; [rewrite app_nil_r; now apply strip_trimmed|].
  unfold strip. destruct (trimmed_first y T) as (c & r & -> & C). cbn [app]. rewrite (lstrip_nonblank c _ C). change (c :: r ++ s " ") with ((c :: r) ++ s " "). rewrite rev_app_distr.
  change (rev (s " ") ++ rev (c :: r)) with (" "%char :: rev (c :: r)). cbn [lstrip]. change (is_space " ") with true. cbv iota. destruct T as [_ T]. destruct (rev (c :: r)) as [|e l] eqn:Q; [destruct T|]. destruct T as [T _].
  rewrite (lstrip_nonblank e l T), <- Q. apply rev_involutive.
Qed.
Lemma indent_blank d : Forall (fun c => is_space c = true) (indent d).
Proof. apply Forall_forall. intros c C. apply repeat_spec in C. now subst. Qed.
Lemma step_line_ext st h h' : strip h = strip h' -> depth_of h = depth_of h' -> step_line st h = step_line st h'.
Proof. intros A B. unfold step_line. now rewrite A, B. Qed.
Lemma depth_trail d t u : trimmed t -> depth_of (indent d ++ t ++ u) = d.
Proof.
  intros T. rewrite <- (print_depth d t T) at 2. unfold depth_of. f_equal. destruct (trimmed_first _ T) as (c & r & -> & C). clear T.
  induction d as [|d IH]; cbn [indent repeat app take_while]; [now rewrite C|]. change (is_space "009") with true. cbv iota. now f_equal.
Qed.
Lemma occurs_sep p (a : str) c b : ~ In c p -> occurs p (a ++ c :: b) -> occurs p a \/ occurs p b.
Proof.
  intros N (u & v & E). destruct (app_eq_app _ _ _ _ E) as (l & [[A B]|[A B]]).
  - destruct (app_eq_app _ _ _ _ B) as (m & [[D F]|[D F]]).
    + destruct m as [|y m]; [left; exists u, []; rewrite app_nil_r in *; now subst|]. cbn [app] in F. injection F as <- F. exfalso. apply N. rewrite D. apply in_or_app. right. now left.
    + left. exists u, m. subst. reflexivity.
  - destruct l as [|y l].
    + cbn [app] in B. rewrite app_nil_r in A. subst u. destruct p as [|q p]; [left; exists a, []; now rewrite app_nil_r|]. cbn [app] in B. injection B as -> _. exfalso. apply N. now left.
    + cbn [app] in B. injection B as <- B. right. exists l, v. exact B.
Qed.
Lemma occurs_in p (a b c : str) : occurs p b -> occurs p (a ++ b ++ c).
Proof. intros (u & v & ->). exists (a ++ u), (v ++ c). now rewrite <- !app_assoc. Qed.
Lemma clasp_no c : In c [" "; "="; "."]%char -> ~ In c (s "clasp_tmp").
Proof. intros [<-|[<-|[<-|[]]]]; cbn; intuition discriminate. Qed.

Lemma step_cont d C Z st l (x0 cl key sep val tail : str) V : here d (C ++ [Line x0]) None Z st -> strip l = cl -> ~ occurs (s "clasp_tmp") cl -> is_file cl = false ->
  split_key cl = (key, sep, val) -> lstrip val = tail -> key = s "..." \/ key = h_lastkey st -> ~ In key [s "pvalue"; s "FORMAT"; s "VIEW"] -> h_vals st = V ++ [x0] ->
  exists st', step_line st l = Ok st' /\ here d (C ++ [Line (x0 ++ s " " ++ tail)]) None Z st' /\ h_vals st' = V ++ [x0 ++ s " " ++ tail] /\ h_view st' = h_view st /\ h_lastkey st' = key.
Proof.
  intros H S1 CL NF SK LT K NB VV. unfold step_line. rewrite S1, (sub_clasp_none _ CL), NF, SK.
  assert (in_strs key [s "pvalue"; s "FORMAT"] = false) as -> by (apply in_strs_false; intros [Q|[Q|[]]]; apply NB; [now left|right; now left]).
  replace (str_eqb key (s "VIEW")) with false by (symmetry; apply str_eqb_false; intros ->; apply NB; right; right; now left).
  destruct H as [LZ (HF & HC & G & P)]. rewrite HF, HC. rewrite (content_top _ _ _ G).
  assert ((str_eqb key (s "...") || (str_eqb key (h_lastkey st) && (0 <? length (C ++ [Line x0]))%nat))%bool = true) as ->.
  { rewrite app_length. cbn [length]. replace (0 <? length C + 1)%nat with true by (symmetry; apply Nat.ltb_lt; lia). rewrite andb_true_r. apply orb_true_iff. destruct K as [-> | ->]; [left; reflexivity|right].
    destruct (str_eqb (h_lastkey st) (h_lastkey st)) eqn:Q; [reflexivity|]. apply str_eqb_false in Q. contradiction. }
  unfold append_to_last, append_to_last_str. rewrite VV, !rev_app_distr. cbn [rev app bind]. rewrite !rev_involutive, LT. eexists. split; [reflexivity|]. cbn [h_vals h_view h_lastkey]. split; [|auto].
  split; [exact LZ|]. split; cbn [h_files h_cs h_next].
  - exact (update_top _ (fun _ => C ++ [Line (x0 ++ s " " ++ tail)]) _ _ G).
  - split; [reflexivity|]. split; [|exact P]. destruct Z as [|[[F i] n] Z]; destruct G as [A G]; (split; [|exact G]); apply Forall_app in A; apply Forall_app; (split; [apply A|constructor; [exact I|constructor]]).
Qed.
(** the second and following lines *)
Definition cont_key (x : hnode) (key : str) : str := match x with Entry _ => key | _ => s "..." end.
Lemma cont_line d x t key sep val (l tr : str) g : own_line x -> wf_node x -> own_wf x t key sep val -> (l = [] \/ l = s " ") -> (tr = [] \/ tr = s " ") -> g <> [] -> Forall unbroken g -> (exists a b, t = a ++ spaced g ++ b) ->
  exists cl v sep', strip (hanging d x ++ l ++ spaced g ++ tr) = cl /\ ~ occurs (s "clasp_tmp") cl /\ is_file cl = false /\ split_key cl = (cont_key x key, sep', v) /\ lstrip v = spaced g.
Proof.
  intros OL W (E & T & O & CL & SK & TE & NB) L TR GN U (a & b & OC).
  assert (~ occurs (s "clasp_tmp") (spaced g)) as CG by (intros Q; apply CL; rewrite OC; now apply occurs_in).
  destruct (spaced_first g GN U) as (e & r & SE & EE). destruct (spaced_last g GN U) as (e2 & r2 & SE2 & EE2 & EC2).
  assert (forall z : str, match z with [] => False | c :: _ => is_space c = false end -> trimmed (z ++ l ++ spaced g)) as TRIM.
  { intros z Z. split; [destruct z; [destruct Z|exact Z]|]. rewrite !rev_app_distr, SE2. cbn [app]. auto. }
  assert (lstrip (l ++ spaced g) = spaced g) as LS by (destruct L as [-> | ->]; rewrite SE; cbn [app lstrip]; [|change (is_space " ") with true; cbv iota; cbn [list_ascii_of_string app lstrip]; change (is_space " ") with true; cbv iota]; now rewrite ?EE).
  assert (~ occurs (s "clasp_tmp") (l ++ spaced g)) as CLG.
  { destruct L as [-> | ->]; [exact CG|]. intros Q. change (s " " ++ spaced g) with ([] ++ " "%char :: spaced g) in Q. apply occurs_sep in Q; [|apply clasp_no; now left]. destruct Q as [Q|Q]; [|now apply CG].
    apply last_after_none in Q; [destruct Q|reflexivity]. }
  assert (forall z : str, ~ occurs (s "clasp_tmp") (z ++ s " ") -> True) as _ by auto.
  destruct x as [[k v|v|v|a0]|p a0|n c]; try destruct OL; cbn [own_text] in E.
  - inversion W as [h WH| |]; subst. destruct WH as (_ & TT & CT & NE & _). cbn [print_hline] in *. rewrite (split_key_eq k v NE) in SK. injection SK as <- <- <-.
    exists ((k ++ s "= ") ++ l ++ spaced g), (s " " ++ l ++ spaced g), (s "=").
    assert (trimmed ((k ++ s "= ") ++ l ++ spaced g)) as T2. { apply TRIM. destruct TT as [TT _]. destruct k as [|c k]; [reflexivity|exact TT]. }
    split; [|split; [|split; [|split]]].
    + unfold hanging. rewrite <- app_assoc. rewrite (app_assoc (k ++ s "= ") l), (app_assoc ((k ++ s "= ") ++ l) (spaced g)), <- (app_assoc (k ++ s "= ") l (spaced g)). apply strip_blanks; [apply indent_blank|exact T2|exact TR].
    + rewrite <- app_assoc. intros Q. change (s "= " ++ l ++ spaced g) with ("="%char :: s " " ++ l ++ spaced g) in Q. apply occurs_sep in Q; [|apply clasp_no; right; now left]. destruct Q as [Q|Q].
      * apply CT. change (k ++ s "=" ++ v) with ([] ++ k ++ s "=" ++ v). now apply occurs_in.
      * change (s " " ++ l ++ spaced g) with ([] ++ " "%char :: l ++ spaced g) in Q. apply occurs_sep in Q; [|apply clasp_no; now left]. destruct Q as [Q|Q]; [|now apply CLG]. apply last_after_none in Q; [destruct Q|reflexivity].
    + now apply trimmed_not_file.
    + rewrite <- app_assoc. change (s "= " ++ l ++ spaced g) with (s "=" ++ s " " ++ l ++ spaced g). now apply split_key_eq.
    + change (s " " ++ l ++ spaced g) with (" "%char :: l ++ spaced g). cbn [lstrip]. change (is_space " ") with true. cbv iota. exact LS.
  - inversion W as [|? ? WC|]; subst. destruct WC as (_ & TT & CT & NE & NS & AB & _).
    assert (trimmed (s "...  " ++ l ++ spaced g)) as T2 by (apply TRIM; reflexivity).
    assert (~ In "="%char (spaced g)) as NG by (intros Q; apply NE; rewrite OC; apply in_or_app; right; apply in_or_app; now left).
    exists (s "...  " ++ l ++ spaced g), (spaced g), (s " "). split; [|split; [|split; [|split]]].
    + unfold hanging. change (s "   ...  ") with (s "   " ++ s "...  "). rewrite <- !app_assoc. rewrite (app_assoc (indent d)), (app_assoc l), (app_assoc (s "...  ")). apply strip_blanks; [|exact T2|exact TR].
      apply Forall_app. split; [apply indent_blank|repeat constructor].
    + intros Q. change (s "...  " ++ l ++ spaced g) with (s "..." ++ " "%char :: [] ++ " "%char :: l ++ spaced g) in Q. apply occurs_sep in Q; [|apply clasp_no; now left]. destruct Q as [Q|Q]; [apply last_after_none in Q; [destruct Q|reflexivity]|].
      apply occurs_sep in Q; [|apply clasp_no; now left]. destruct Q as [Q|Q]; [apply last_after_none in Q; [destruct Q|reflexivity]|now apply CLG].
    + now apply trimmed_not_file.
    + cbn [cont_key]. change (s "...  " ++ l ++ spaced g) with (s "..." ++ " "%char :: (s " " ++ l) ++ spaced g). apply split_key_blank; [|reflexivity| |discriminate|repeat constructor|now rewrite SE].
      * intros Q. apply in_app_or in Q. destruct Q as [Q|Q]; [cbn in Q; intuition discriminate|]. destruct Q as [Q|Q]; [discriminate|]. apply in_app_or in Q. destruct Q as [Q|Q]; [|now apply NG]. destruct L as [-> | ->]; cbn in Q; intuition discriminate.
      * destruct L as [-> | ->]; repeat constructor.
    + rewrite SE. now apply lstrip_nonblank.
Qed.
Lemma conts d x t key sep val : own_line x -> wf_node x -> own_wf x t key sep val -> forall segs gs C Z st (x0 : str) V, Forall2 piece_of segs gs -> Forall unbroken (concat gs) ->
  t = match gs with [] => x0 | _ => x0 ++ s " " ++ spaced (concat gs) end -> here d (C ++ [Line x0]) None Z st -> h_lastkey st = key \/ h_lastkey st = cont_key x key -> h_vals st = V ++ [x0] ->
  exists st', preprocess_from st (map (fun sg => hanging d x ++ concat sg) segs) = Ok st' /\ here d (C ++ [Line t]) None Z st' /\ h_vals st' = V ++ [t] /\ h_view st' = h_view st /\
    (h_lastkey st' = key \/ h_lastkey st' = s "...").
Proof.
  intros OL W OW segs. induction segs as [|seg segs IH]; intros gs C Z st x0 V F U E H K VV.
  - inversion F; subst. exists st. split; [reflexivity|]. split; [exact H|]. split; [exact VV|]. split; [reflexivity|]. destruct K as [K|K]; [now left|]. unfold cont_key in K. destruct x; auto.
  - inversion F as [|? g ? gs' PO F2]; subst. destruct PO as (GN & l & tr & L & TR & CC). cbn [concat] in U. apply Forall_app in U. destruct U as [U1 U2].
    assert (x0 ++ s " " ++ spaced (concat (g :: gs')) = match gs' with [] => x0 ++ s " " ++ spaced g | _ => (x0 ++ s " " ++ spaced g) ++ s " " ++ spaced (concat gs') end) as TE.
    { cbn [concat]. destruct gs' as [|g2 gs']; [cbn [concat]; now rewrite app_nil_r|]. rewrite spaced_app; [now rewrite <- !app_assoc|exact GN|]. inversion F2 as [|? ? ? ? PO2 _]; subst. destruct PO2 as [GN2 _]. cbn [concat]. destruct g2; [contradiction|discriminate]. }
    destruct (cont_line d x _ key sep val l tr g OL W OW L TR GN U1) as (cl & v & sep' & S1 & S2 & S3 & S4 & S5).
    { rewrite TE. destruct gs' as [|g2 gs']; [exists (x0 ++ s " "), []; now rewrite app_nil_r, <- app_assoc|]. exists (x0 ++ s " "), (s " " ++ spaced (concat (g2 :: gs'))). now rewrite <- !app_assoc. }
    rewrite <- CC in S1.
    assert (~ In (cont_key x key) [s "pvalue"; s "FORMAT"; s "VIEW"]) as NB2.
    { destruct OW as (_ & _ & _ & _ & _ & _ & NB). destruct x; cbn [cont_key]; [|cbn; intuition discriminate|cbn; intuition discriminate]. intros Q. apply NB. cbn [In] in *. tauto. }
    destruct (step_cont d C Z st (hanging d x ++ concat seg) x0 cl _ _ _ _ V H S1 S2 S3 S4 S5) as (st1 & E1 & H1 & V1 & W1 & K1); [|exact NB2|exact VV|].
    { unfold cont_key in *. destruct x; [right|now left|now left]. destruct K; congruence. }
    cbn [map preprocess_from]. rewrite E1. cbn [bind].
    destruct (IH gs' C Z st1 (x0 ++ s " " ++ spaced g) V F2 U2 TE H1 (or_intror K1) V1) as (st2 & E2 & H2 & V2 & W2 & K2).
    exists st2. split; [exact E2|]. split; [exact H2|]. split; [exact V2|]. split; [congruence|exact K2].
Qed.
