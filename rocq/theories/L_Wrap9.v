From Coq Require Import Ascii String Lia.
From Verif Require Import Base L_Base M_Translate M_Mapper M_Utility M_Header S_Header L_Header L_Header2 L_Header3 L_Header5 S_Nested L_Nested L_Nested2 M_Wrap S_Wrap S_Wrap2 L_Wrap L_Wrap2 L_Wrap3 L_Wrap4 L_Wrap5 L_Wrap6 L_Wrap7.
Import ListNotations.
Local Open Scope list_scope.

(** words are determined by the text *)
Lemma words_unique ws : forall ws', Forall unbroken ws -> Forall unbroken ws' -> spaced ws = spaced ws' -> ws = ws'.
Proof.
  assert (forall (u v a b : str), Forall (fun c => is_space c = false) u -> Forall (fun c => is_space c = false) v -> at_end a -> at_end b -> u ++ a = v ++ b -> u = v /\ a = b) as SPLIT.
  { induction u as [|c u IH]; intros v a b U V A B E; destruct v as [|e v]; [auto| | |].
    - exfalso. cbn [app] in E. subst a. cbn [at_end] in A. subst e. inversion V; subst. discriminate.
    - exfalso. cbn [app] in E. subst b. cbn [at_end] in B. subst c. inversion U; subst. discriminate.
    - cbn [app] in E. injection E as -> E. inversion U; inversion V; subst. destruct (IH v a b) as [-> ->]; auto. }
  assert (forall w ws, exists r, spaced (w :: ws) = w ++ r /\ at_end r /\ match ws with [] => r = [] | _ => r = s " " ++ spaced ws end) as HD.
  { intros w [|v l]; [exists []; cbn; rewrite app_nil_r; auto|]. exists (s " " ++ spaced (v :: l)). rewrite spaced_cons. repeat split. }
  induction ws as [|w ws IH]; intros ws' U V E.
  - destruct ws' as [|w' ws']; [reflexivity|]. exfalso. destruct (spaced_first (w' :: ws') ltac:(discriminate) V) as (e & r & Q & _). rewrite Q in E. discriminate.
  - destruct ws' as [|w' ws']; [exfalso; destruct (spaced_first (w :: ws) ltac:(discriminate) U) as (e & r & Q & _); rewrite Q in E; discriminate|].
    destruct (HD w ws) as (r & E1 & A1 & R1). destruct (HD w' ws') as (r' & E2 & A2 & R2). rewrite E1, E2 in E. inversion U as [|? ? U1 U2]; inversion V as [|? ? V1 V2]; subst.
    destruct (SPLIT w w' r r') as [-> ->]; [apply U1|apply V1|exact A1|exact A2|exact E|]. f_equal. destruct ws as [|a ws], ws' as [|b ws']; [reflexivity|subst; discriminate|subst; discriminate|].
    apply IH; [exact U2|exact V2|]. rewrite R1 in R2. apply (app_inv_head (s " ")). exact R2.
Qed.
Lemma pieces_padded segs gs : Forall2 piece_of segs gs -> Forall2 padded gs (map (@concat ascii) segs).
Proof.
  induction 1 as [|sg g segs gs (N & a & b & A & B & E) F IH]; [constructor|]. cbn [map]. constructor; [|exact IH]. split; [exact N|]. exists a, b. auto.
Qed.
Lemma cut_words fuel width d x : own_line x -> wf_node x -> breakable width (d, x) -> (length (node_line d x) < fuel)%nat -> whole_words (d, x) (cut fuel width (d, x)).
Proof.
  intros OL W B F _. cbn [fst snd]. destruct (cut_place fuel width (d, x) W (or_introl OL) (breakable_roomy _ _ B) F) as (Q & _). cbn [fst snd] in Q. rewrite (wrap_indent_own d x OL W) in Q.
  assert (node_line d x = indent d ++ own_text x) as NL by (destruct x as [[]| |]; try destruct OL; reflexivity). destruct (node_line_ok d x W (or_introl OL)) as [_ NE].
  assert (own_text x <> []) as ON. { destruct (own_ok x OL W) as (t & key & sep & val & -> & T & _). destruct T as [T _]. intros ->. exact T. }
  destruct (Nat.le_gt_cases (length (node_line d x)) width) as [S|LONG].
  - destruct fuel as [|fuel]; [lia|]. rewrite wrap_short in Q by assumption. injection Q as <-. exists (own_text x), []. split; [now rewrite NL|]. intros ws E U. exists ws, []. cbn [concat]. rewrite app_nil_r. split; [reflexivity|]. split; [|constructor].
    split; [intros ->; apply ON; exact E|]. exists [], []. rewrite app_nil_r. auto.
  - destruct B as [B|(_ & w1 & ws & E & U & B1 & B2)]; [lia|]. destruct (wrap_line_words width fuel d x w1 ws OL E U B1 B2 LONG F) as (g & ws2 & tr & segs & gs & WE & GN & GE & TR & PG & CG & _).
    rewrite WE in Q. injection Q as <-. exists (spaced g ++ tr), (map (@concat ascii) segs). split; [rewrite map_map; reflexivity|]. intros ws' E' U'. exists g, gs. split.
    + rewrite CG. etransitivity; [symmetry; exact GE|]. apply words_unique; [exact U|exact U'|]. transitivity (own_text x); [symmetry; exact E|exact E'].
    + split; [|now apply pieces_padded]. split; [exact GN|]. exists [], tr. auto.
Qed.
Lemma header_words ns : Forall wf_node ns -> no_repeat (flat_map keys_in ns) -> NoDup (flat_map texts_in ns) -> Forall (breakable 150) (flat_map (places 0) (flat_map kept_part ns)) ->
  exists n parts, Forall2 whole_words (flat_map (places 0) (flat_map kept_part ns)) parts /\
    forall fuel, (n <= fuel)%nat -> clean_header_run fuel (flat_map (print_node 0) ns) = Some (Ok (concat parts ++ map (fun v => s "VIEW=" ++ v) (last_of (flat_map views_in ns)))).
Proof.
  intros W NR ND B. destruct (preprocess_nested ns W NR ND) as (st & E1 & CU & VW).
  set (ps := flat_map (places 0) (flat_map kept_part ns)) in *. set (fuel := enough ns).
  assert (Forall (fun p => wf_node (snd p)) ps) as PW by (apply places_wfs, kepts_wf, W). assert (Forall (fun p => own_line (snd p) \/ exists n c, snd p = Nested n c) ps) as PK by apply kepts_places.
  assert (Forall (roomy 150) ps) as PR by (eapply Forall_impl; [|exact B]; intros p; apply breakable_roomy).
  assert (Forall (fun p => (length (node_line (fst p) (snd p)) < fuel)%nat) ps) as PL.
  { apply Forall_forall. intros p P. assert (In (node_line (fst p) (snd p)) (flat_map (print_node 0) (flat_map kept_part ns))) as IN by (rewrite prints_places; apply in_map_iff; eauto). apply longest_in in IN. unfold fuel, enough. lia. }
  destruct (cut_all 150 fuel ps PW PK PR PL) as (WA & SL & O & NE). exists fuel, (map (cut fuel 150) ps). split.
  - clear - PW PK B PL. induction ps as [|[d x] ps IH]; [constructor|]. inversion PW; inversion PK; inversion B; inversion PL; subst. cbn [map]. constructor; [|auto]. intros OL. now apply (cut_words fuel 150 d x).
  - intros fuel' F. apply (clean_run_mono fuel fuel' _ _ _ F). unfold clean_run. rewrite E1, CU, prints_places. fold ps. rewrite WA, SL, flat_map_concat_map. f_equal. f_equal. f_equal. destruct (h_view st) as [v|]; cbn [view_list] in VW; now rewrite <- VW.
Qed.
