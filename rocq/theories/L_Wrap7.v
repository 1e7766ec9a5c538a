From Coq Require Import Ascii String Lia.
From Verif Require Import Base L_Base M_Translate M_Mapper M_Utility M_Header S_Header L_Header L_Header2 L_Header3 L_Header5 S_Nested L_Nested L_Nested2 M_Wrap S_Wrap L_Wrap L_Wrap2 L_Wrap3 L_Wrap4 L_Wrap5 L_Wrap6.
Import ListNotations.
Local Open Scope list_scope.

Lemma breakable_roomy width p : breakable width p -> roomy width p.
Proof.
  destruct p as [d x]. intros [B|(OL & w1 & ws & E & U & B1 & B2)]; [now left|]. destruct ws as [|u ws].
  - left. cbn [fst snd]. assert (node_line d x = indent d ++ own_text x) as -> by (destruct x as [[]| |]; try destruct OL; reflexivity). rewrite E. change (join (s " ") [w1]) with w1. rewrite app_length. unfold indent. rewrite repeat_length. exact B1.
  - right. cbn [fst snd]. split; [exact OL|]. inversion B2; subst. pose proof (hanging_len d x OL). lia.
Qed.
Definition cut (fuel width : nat) (p : nat * hnode) : list str :=
  match snd p with
  | Entry (HPlain _ _) | Command _ _ | Nested _ _ => match wrap fuel width (node_line (fst p) (snd p)) (wrap_indent (node_line (fst p) (snd p))) with Some o => o | None => [] end
  | Entry h => [indent (fst p) ++ print_hline h]
  end.
Lemma cut_place fuel width p : wf_node (snd p) -> own_line (snd p) \/ (exists n c, snd p = Nested n c) -> roomy width p -> (length (node_line (fst p) (snd p)) < fuel)%nat ->
  wrap fuel width (node_line (fst p) (snd p)) (wrap_indent (node_line (fst p) (snd p))) = Some (cut fuel width p) /\ broken width p (cut fuel width p) /\ cut fuel width p <> [] /\ Forall one_line (cut fuel width p) /\
  Forall (fun l => l <> []) (cut fuel width p).
Proof.
  intros W K R L. destruct (wrap_place width p fuel W K R L) as (out & E & B & N & O & NE).
  assert (cut fuel width p = out) as ->; [|auto]. unfold cut. rewrite E. destruct p as [d x]. cbn [fst snd] in *. destruct K as [K|(n & c & ->)]; [|reflexivity]. destruct x as [[]| |]; try destruct K; reflexivity.
Qed.
Lemma cut_all width fuel ps : Forall (fun p => wf_node (snd p)) ps -> Forall (fun p => own_line (snd p) \/ exists n c, snd p = Nested n c) ps -> Forall (roomy width) ps ->
  Forall (fun p => (length (node_line (fst p) (snd p)) < fuel)%nat) ps ->
  wrap_all fuel width (map (fun p => node_line (fst p) (snd p)) ps) = Some (map (join newline) (map (cut fuel width) ps)) /\
  splitlines (join newline (map (join newline) (map (cut fuel width) ps))) = flat_map (cut fuel width) ps /\ Forall one_line (flat_map (cut fuel width) ps) /\ Forall (fun l => l <> []) (flat_map (cut fuel width) ps).
Proof.
  intros W K R L. assert (Forall (fun p => wrap fuel width (node_line (fst p) (snd p)) (wrap_indent (node_line (fst p) (snd p))) = Some (cut fuel width p) /\ cut fuel width p <> [] /\ Forall one_line (cut fuel width p) /\
    Forall (fun l => l <> []) (cut fuel width p)) ps) as F.
  { apply Forall_forall. intros p P. destruct (cut_place fuel width p) as (A & _ & B & C & D); [exact (proj1 (Forall_forall _ _) W p P)|exact (proj1 (Forall_forall _ _) K p P)|exact (proj1 (Forall_forall _ _) R p P)|exact (proj1 (Forall_forall _ _) L p P)|auto]. }
  clear W K R L.
  assert (Forall one_line (flat_map (cut fuel width) ps)) as O by (apply Forall_flat_map; eapply Forall_impl; [|exact F]; intros p P; apply P).
  assert (Forall (fun l => l <> []) (flat_map (cut fuel width) ps)) as NE by (apply Forall_flat_map; eapply Forall_impl; [|exact F]; intros p P; apply P).
  split; [|split; [|auto]].
  - apply wrap_all_parts. clear O NE. induction F as [|p ps P F IH]; constructor; [apply P|exact IH].
  - rewrite join_parts; [|apply Forall_map; eapply Forall_impl; [|exact F]; intros p P; apply P]. rewrite <- flat_map_concat_map. now apply splitlines_join.
Qed.
Lemma view_list_inj a b : view_list a = view_list b -> a = b.
Proof. destruct a, b; cbn; congruence. Qed.
Lemma clean_run_same fuel width a b st st' : preprocess a = Ok st -> preprocess b = Ok st' -> clean_up (h_files st) = clean_up (h_files st') -> h_view st = h_view st' -> clean_run fuel width a = clean_run fuel width b.
Proof. intros A B C D. unfold clean_run. now rewrite A, B, C, D. Qed.
Lemma clean_again width fuel ns out : Forall wf_node ns -> no_repeat (flat_map keys_in ns) -> no_repeat (flat_map keys_in (flat_map kept_part ns)) -> NoDup (flat_map texts_in ns) -> prefix_free (flat_map texts_in ns) ->
  Forall (breakable width) (flat_map (places 0) (flat_map kept_part ns)) -> (enough ns <= fuel)%nat -> clean_run fuel width (join newline (flat_map (print_node 0) ns)) = Some (Ok out) ->
  forall fuel' w, clean_run fuel' w (join newline out) = clean_run fuel' w (join newline (flat_map (print_node 0) ns)).
Proof.
  intros W NR NR2 ND PF B F E fuel' w. destruct (preprocess_nested ns W NR ND) as (st & E1 & CU & VW).
  set (ps := flat_map (places 0) (flat_map kept_part ns)) in *.
  assert (Forall (fun p => wf_node (snd p)) ps) as PW by (apply places_wfs, kepts_wf, W). assert (Forall (fun p => own_line (snd p) \/ exists n c, snd p = Nested n c) ps) as PK by apply kepts_places.
  assert (Forall (roomy width) ps) as PR by (eapply Forall_impl; [|exact B]; intros p; apply breakable_roomy).
  assert (Forall (fun p => (length (node_line (fst p) (snd p)) < fuel)%nat) ps) as PL.
  { apply Forall_forall. intros p P. assert (In (node_line (fst p) (snd p)) (flat_map (print_node 0) (flat_map kept_part ns))) as IN by (rewrite prints_places; apply in_map_iff; eauto). apply longest_in in IN. unfold enough in F. lia. }
  destruct (cut_all width fuel ps PW PK PR PL) as (WA & SL & O & NE).
  set (vs := last_of (flat_map views_in ns)) in *. set (ns' := flat_map kept_part ns ++ map (fun v => Entry (HView v)) vs).
  assert (out = flat_map (cut fuel width) (flat_map (places 0) ns')) as OUT.
  { unfold clean_run in E. rewrite E1, CU, prints_places in E. fold ps in E. rewrite WA, SL in E. injection E as <-. unfold ns'. rewrite !flat_map_app. f_equal. change (match h_view st with Some v => [s "VIEW=" ++ v] | None => [] end = flat_map (cut fuel width) (flat_map (places 0) (map (fun v => Entry (HView v)) vs))).
    transitivity (map (fun v => s "VIEW=" ++ v) (view_list (h_view st))); [destruct (h_view st); reflexivity|]. rewrite VW. clear. induction vs as [|v l IH]; [reflexivity|]. cbn [map flat_map]. rewrite IH. reflexivity. }
  assert (Forall wf_node ns') as W'.
  { unfold ns'. apply Forall_app. split; [now apply kepts_wf|]. apply Forall_map, Forall_forall. intros v V. constructor. apply last_of_in, in_flat_map in V. destruct V as (x & X & V). apply (view_wf v x); [exact (proj1 (Forall_forall _ _) W x X)|exact V]. }
  assert (forall (A : Type) (f : hnode -> list A), (forall v, f (Entry (HView v)) = []) -> flat_map f ns' = flat_map f (flat_map kept_part ns)) as DR.
  { intros A f Z. unfold ns'. rewrite flat_map_app. assert (flat_map f (map (fun v => Entry (HView v)) vs) = []) as ->; [|apply app_nil_r].
    clear - Z. induction vs as [|v l IH]; [reflexivity|]. cbn [map flat_map]. now rewrite Z. }
  assert (flat_map kept_part ns' = flat_map kept_part ns) as KP.
  { rewrite DR by reflexivity. apply kepts_kept, Forall_forall. intros x _. apply kept_kept. }
  destruct (preprocess_again (cut fuel width) (flat_map texts_in ns) PF ns' W') as (st' & E2 & CU2 & VW2).
  - unfold ns'. rewrite flat_map_app. apply Forall_app. split.
    + fold ps. apply Forall_forall. intros [d x] P. pose proof (proj1 (Forall_forall _ _) PW _ P) as WX. pose proof (proj1 (Forall_forall _ _) PK _ P) as KX. pose proof (proj1 (Forall_forall _ _) B _ P) as BX. pose proof (proj1 (Forall_forall _ _) PL _ P) as LX.
      cbn [fst snd] in WX, KX, LX. destruct KX as [OL|(n & c & ->)].
      * left. split; [exact OL|]. cbn [fst snd]. destruct (own_rereads width fuel d x OL WX BX LX) as (o & WO & RR).
        destruct (cut_place fuel width (d, x)) as (Q & _); [exact WX|now left|now apply breakable_roomy|exact LX|]. cbn [fst snd] in Q. rewrite (wrap_indent_own d x OL WX), WO in Q. injection Q as <-. exact RR.
      * right. cbn [fst snd]. destruct BX as [BX|[[] _]]. unfold cut. cbn [fst snd]. destruct fuel as [|fuel0]; [cbn in LX; lia|]. rewrite wrap_short; [reflexivity|exact BX|]. apply (node_line_ok d _ WX). right. eauto.
    + clear. induction vs as [|v l IH]; [constructor|]. cbn [map flat_map]. constructor; [|exact IH]. right. cbn [fst snd]. split; [exact I|reflexivity].
  - rewrite DR by reflexivity. exact NR2.
  - rewrite DR by reflexivity. rewrite kepts_texts. exact ND.
  - rewrite DR by reflexivity. rewrite kepts_texts. apply incl_refl.
  - apply (clean_run_same _ _ _ _ st' st); [|exact E1| |].
    + unfold preprocess. rewrite splitlines_join; [now rewrite OUT| |].
      * rewrite OUT. unfold ns'. rewrite !flat_map_app. apply Forall_app. split; [exact O|]. unfold ns' in W'. apply Forall_app in W'. destruct W' as [_ WV]. destruct (nodes_lines _ 0 WV) as [OV _].
        replace (flat_map (cut fuel width) (flat_map (places 0) (map (fun v => Entry (HView v)) vs))) with (flat_map (print_node 0) (map (fun v => Entry (HView v)) vs)); [exact OV|]. clear. induction vs as [|v l IH]; [reflexivity|]. cbn [map flat_map]. now rewrite IH.
      * rewrite OUT. unfold ns'. rewrite !flat_map_app. apply Forall_app. split; [exact NE|]. unfold ns' in W'. apply Forall_app in W'. destruct W' as [_ WV]. destruct (nodes_lines _ 0 WV) as [_ OV].
        replace (flat_map (cut fuel width) (flat_map (places 0) (map (fun v => Entry (HView v)) vs))) with (flat_map (print_node 0) (map (fun v => Entry (HView v)) vs)); [exact OV|]. clear. induction vs as [|v l IH]; [reflexivity|]. cbn [map flat_map]. now rewrite IH.
    + now rewrite CU, CU2, KP.
    + apply view_list_inj. rewrite VW, VW2. unfold ns'. rewrite flat_map_app, kepts_views. cbn [app]. replace (flat_map views_in (map (fun v => Entry (HView v)) vs)) with vs; [unfold vs; apply last_of_last|].
      clear. induction vs as [|v l IH]; [reflexivity|]. cbn [map flat_map]. now rewrite <- IH.
Qed.
