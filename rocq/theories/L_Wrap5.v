From Coq Require Import Ascii String Lia.
From Verif Require Import Base L_Base M_Translate M_Mapper M_Utility M_Header S_Header L_Header L_Header2 L_Header3 L_Header5 S_Nested L_Nested L_Nested2 M_Wrap S_Wrap L_Wrap L_Wrap2 L_Wrap3 L_Wrap4.
Import ListNotations.
Local Open Scope list_scope.

(** * the first line *)
Lemma longer_prefix (h a b c : str) : h ++ a = b ++ c -> (length h <= length b)%nat -> exists v, b = h ++ v /\ a = v ++ c.
Proof.
  intros E L. destruct (app_eq_app _ _ _ _ E) as (l & [[A B]|[A B]]); [|now exists l].
  assert (l = []) as -> by (destruct l; [reflexivity|]; rewrite A, app_length in L; cbn in L; lia). exists []. rewrite app_nil_r in *. subst. auto.
Qed.
Lemma first_part x t key sep val (x0 r : str) : own_line x -> wf_node x -> own_wf x t key sep val -> t = x0 ++ r -> r = [] \/ (head_len x <= length x0)%nat ->
  exists v1, split_key x0 = (key, sep, v1) /\ x0 = key ++ sep ++ v1.
Proof.
  intros OL W (E & T & O & CL & SK & TE & NB) X [->|L]; [rewrite app_nil_r in X; subst; eauto|].
  destruct x as [[k v|v|v|a0]|p a|n c]; try destruct OL; cbn [own_text head_len] in *.
  - assert (wf_hline (HPlain k v)) as (_ & _ & _ & NE & _) by (inversion W; assumption). rewrite <- E in *. rewrite (split_key_eq k v NE) in SK. injection SK as <- <- <-.
    rewrite app_assoc in X. destruct (longer_prefix _ _ _ _ X) as (v1 & -> & _); [rewrite app_length; change (length (s "=")) with 1%nat; lia|]. exists v1. rewrite <- app_assoc. split; [now apply split_key_eq|reflexivity].
  - assert (wf_command p a) as (_ & TT & _ & NE & NS & AB & _) by (inversion W; assumption). rewrite <- E in *. destruct a as [|c a]; [destruct AB|].
    assert (p <> []) as PN by (intros ->; destruct TT as [TT _]; discriminate TT).
    assert (forall b : str, ~ In "="%char (p ++ " "%char :: c :: b) -> split_key (p ++ " "%char :: [] ++ c :: b) = (p, s " ", c :: b)) as SB.
    { intros b NB2. apply split_key_blank; first [reflexivity|exact NB2|exact NS|exact AB|exact PN|constructor]. }
    change (command_line p (c :: a)) with (p ++ " "%char :: [] ++ c :: a) in SK. rewrite SB in SK by exact NE. injection SK as <- <- <-.
    change (command_line p (c :: a)) with (p ++ (s " " ++ [c]) ++ a) in X. rewrite app_assoc in X. destruct (longer_prefix _ _ _ _ X) as (v1 & -> & V); [rewrite !app_length; change (length (s " ")) with 1%nat; cbn [length]; lia|].
    exists (c :: v1). rewrite <- app_assoc. split; [|reflexivity]. apply (SB v1). intros Q. apply NE. change (command_line p (c :: a)) with (p ++ " "%char :: c :: a). rewrite V.
    apply in_app_or in Q. apply in_or_app. destruct Q as [Q|Q]; [now left|right]. destruct Q as [Q|[Q|Q]]; [now left|right; now left|right; right]. apply in_or_app. now left.
Qed.
Definition rereads (d : nat) (x : hnode) (out : list str) : Prop := forall t key sep val C cur Z st, own_wf x t key sep val -> here d C cur Z st -> key <> h_lastkey st \/ top_len C cur = 0%nat ->
  (forall q b, In q (h_vals st) -> t <> q ++ b) ->
  exists st', preprocess_from st out = Ok st' /\ here d (all_items d C cur ++ [Line t]) None Z st' /\ h_vals st' = h_vals st ++ [t] /\ h_view st' = h_view st /\ (h_lastkey st' = key \/ h_lastkey st' = s "...").
Lemma hanging_len d x : own_line x -> (length (hanging d x) <= d + head_len x)%nat.
Proof. destruct x as [[]| |]; intros []; unfold hanging, head_len, indent; rewrite !app_length, repeat_length; cbn [length list_ascii_of_string]; lia. Qed.
Lemma inter_in ws u : In u (inter ws) -> In u ws \/ (u = s " " /\ ws <> []).
Proof.
  induction ws as [|a [|b ws] IH]; [now left|intros [->|[]]; left; now left|]. rewrite inter_cons. intros [->|[<-|I]]; [left; now left|right; split; [reflexivity|discriminate]|].
  destruct (IH I) as [Q|[Q _]]; [left; now right|right; split; [exact Q|discriminate]].
Qed.
Lemma fit_take room (c : str) (cs : list str) : (Z.of_nat (length c) <= room)%Z -> fit room (c :: cs) = (c :: fst (fit (room - Z.of_nat (length c)) cs), snd (fit (room - Z.of_nat (length c)) cs)).
Proof. intros L. cbn [fit]. now replace (Z.of_nat (length c) <=? room)%Z with true by (symmetry; apply Z.leb_le; lia). Qed.
Lemma wrap_line_words width fuel d x w1 ws : own_line x -> own_text x = spaced (w1 :: ws) -> Forall unbroken (w1 :: ws) -> (d + length w1 <= width)%nat -> Forall (fun u => (d + head_len x + length u + 1 <= width)%nat) ws ->
  (width < length (node_line d x))%nat -> (length (node_line d x) < fuel)%nat ->
  exists g ws2 tr segs gs, wrap fuel width (node_line d x) (hanging d x) = Some ((indent d ++ spaced g ++ tr) :: map (fun sg => hanging d x ++ concat sg) segs) /\ g <> [] /\ w1 :: ws = g ++ ws2 /\ (tr = [] \/ tr = s " ") /\
    Forall2 piece_of segs gs /\ concat gs = ws2 /\ (ws2 = [] \/ (head_len x <= length (spaced g))%nat).
Proof.
  intros OL E U B1 B2 LONG F.
  assert (node_line d x = indent d ++ spaced (w1 :: ws)) as NL by (unfold node_line; destruct x as [[]| |]; try destruct OL; now rewrite E). rewrite NL in *.
  assert (length (indent d) = d) as LI by apply repeat_length.
  assert (ws <> []) as WN. { intros ->. change (spaced [w1]) with w1 in LONG. rewrite app_length, LI in LONG. lia. }
  assert (d + head_len x + 2 <= width)%nat as B0. { destruct ws as [|u ws]; [contradiction|]. inversion B2; subst. inversion U as [|? ? _ U2]; subst. inversion U2 as [|? ? U3 _]; subst. destruct u; [destruct U3; contradiction|]. cbn [length] in *. lia. }
  pose proof (hanging_len d x OL) as HL. unfold wrap. rewrite split_line; [|discriminate|exact U]. destruct ws as [|u ws]; [contradiction|].
  rewrite inter_cons. set (rest := s " " :: inter (u :: ws)).
  assert (Forall (fun c => c <> [] /\ (d + head_len x + length c + 1 <= width)%nat) rest) as BR.
  { apply Forall_forall. intros c C. unfold rest in C. assert (In c (u :: ws) \/ c = s " ") as Q by (destruct C as [<-|C]; [now right|]; apply inter_in in C; tauto).
    destruct Q as [Q| ->]; [|split; [discriminate|cbn [length list_ascii_of_string]; lia]]. split; [|exact (proj1 (Forall_forall _ _) B2 c Q)]. inversion U as [|? ? _ U2]; subst. apply (proj1 (Forall_forall _ _) U2 c Q). }
  set (p := fit (Z.of_nat (width - d - length w1)) rest).
  assert (fit (Z.of_nat width) (tabs_chunk d ++ w1 :: rest) = (tabs_chunk d ++ w1 :: fst p, snd p)) as FT.
  { assert (fit (Z.of_nat (width - d)) (w1 :: rest) = (w1 :: fst p, snd p)) as F1.
    { rewrite fit_take by lia. unfold p. replace (Z.of_nat (width - d) - Z.of_nat (length w1))%Z with (Z.of_nat (width - d - length w1)) by lia. reflexivity. }
    destruct d as [|d]; [cbn [tabs_chunk app]; rewrite Nat.sub_0_r in F1; exact F1|]. cbn [tabs_chunk app]. rewrite fit_take by (rewrite LI; lia). rewrite LI.
    replace (Z.of_nat width - Z.of_nat (S d))%Z with (Z.of_nat (width - S d)) by lia. rewrite F1. reflexivity. }
  destruct (fit_ok rest (Z.of_nat (width - d - length w1))) as (FA & FB & FC). fold p in FA, FB, FC.
  destruct fuel as [|fuel]; [lia|].
  assert (exists segs, wrap_lines (S fuel) width (hanging d x) false (tabs_chunk d ++ w1 :: rest) = Some (concat (tabs_chunk d ++ w1 :: fst p) :: map (fun sg => hanging d x ++ concat sg) segs) /\
     concat segs = snd p /\ Forall (fun sg => sg <> []) segs /\ tight width (length (hanging d x)) segs) as (segs & WE & CS & NS & TI).
  { assert (exists c cs, tabs_chunk d ++ w1 :: rest = c :: cs) as (c & cs & CE) by (destruct d; cbn [tabs_chunk app]; eauto).
    assert (Forall (fun c => c <> [] /\ (length (hanging d x) + length c <= width)%nat) (snd p)) as BS.
    { rewrite <- FA in BR. apply Forall_app in BR. eapply Forall_impl; [|apply BR]. cbn beta. intros a [A B]. split; [exact A|lia]. }
    rewrite CE in *. pose proof (wrap_first width (hanging d x) fuel c cs) as WF. cbv zeta in WF. rewrite FT in WF. cbn [fst snd] in WF. destruct WF as (segs & WE & _ & WC & NS & TI).
    - rewrite <- CE. apply Forall_app. split; [destruct d; cbn [tabs_chunk]; constructor; [split; [discriminate|rewrite LI; lia]|constructor]|]. constructor; [inversion U as [|? ? U1 _]; subst; split; [apply U1|lia]|].
      eapply Forall_impl; [|exact BR]. cbn beta. intros a [A B]. split; [exact A|lia].
    - exact BS.
    - assert (length (concat (snd p)) <= length (spaced (u :: ws)) + 1)%nat.
      { assert (concat (fst p) ++ concat (snd p) = s " " ++ spaced (u :: ws)) as Q by (pose proof (f_equal (@concat ascii) FA) as Q; rewrite concat_app in Q; etransitivity; [exact Q|]; unfold rest; cbn [concat]; now rewrite concat_inter). apply (f_equal (@length _)) in Q. rewrite !app_length in Q. cbn [length list_ascii_of_string] in Q. lia. }
      rewrite spaced_cons, !app_length, LI in F. cbn [length list_ascii_of_string] in F. lia.
    - exists segs. split; [exact WE|]. split; [|auto]. rewrite <- CE, <- FA in WC. rewrite <- app_assoc in WC. apply app_inv_head in WC. cbn [app] in WC. injection WC as WC. apply app_inv_head in WC. exact WC. }
  destruct (inter_split (w1 :: u :: ws) (w1 :: fst p) (snd p)) as (g & ws2 & tr & GN & GE & CG & TR & RR); [discriminate| |discriminate|].
  { cbn [app]. rewrite FA. reflexivity. }
  assert (exists g', g = w1 :: g' /\ u :: ws = g' ++ ws2) as (g' & GQ & WQ) by (destruct g as [|a g']; [contradiction|]; injection GE as <- GE; eauto).
  assert (Forall (fun u => (length (hanging d x) + length u + 1 <= width)%nat) ws2) as B3.
  { rewrite WQ in B2. apply Forall_app in B2. eapply Forall_impl; [|apply B2]. cbn beta. intros. lia. }
  destruct (groups width (length (hanging d x)) segs ws2 B3) as (gs & PG & CGS); [|exact NS|exact TI|].
  { destruct RR as [[R1 ->]|[R1 R2]]; [left; split; [reflexivity|]|right; split; [exact R1|destruct R2 as [R2|R2]; [left|right]; etransitivity; [exact CS|exact R2|exact CS|exact R2]]]. rewrite R1 in CS. destruct segs as [|sg segs]; [reflexivity|]. inversion NS; subst. cbn [concat] in CS. apply app_eq_nil in CS. destruct CS. contradiction. }
  exists g, ws2, tr, segs, gs. split.
  { rewrite WE. f_equal. f_equal. rewrite concat_app, <- CG. f_equal. destruct d; [reflexivity|]. apply app_nil_r. }
  split; [exact GN|]. split; [exact GE|]. split; [exact TR|]. split; [exact PG|]. split; [exact CGS|].
  destruct RR as [[_ ->]|[R1 R2]]; [now left|right]. destruct (snd p) as [|c cs] eqn:SP; [destruct R2 as [R2|R2]; [destruct ws2 as [|? [|]]; try contradiction; discriminate|discriminate]|].
  assert (d + head_len x + length c + 1 <= width)%nat as BC. { rewrite <- FA in BR. apply Forall_app in BR. destruct BR as [_ BR]. inversion BR; subst. tauto. }
  apply (f_equal (@length _)) in CG. cbn [concat] in CG. rewrite !app_length in CG. assert (length tr <= 1)%nat by (destruct TR as [-> | ->]; cbn; lia). lia.
Qed.
Lemma own_rereads width fuel d x : own_line x -> wf_node x -> breakable width (d, x) -> (length (node_line d x) < fuel)%nat -> exists out, wrap fuel width (node_line d x) (hanging d x) = Some out /\ rereads d x out.
Proof.
  intros OL W B F. assert (node_line d x = indent d ++ own_text x) as NL by (destruct x as [[]| |]; try destruct OL; reflexivity). destruct (node_line_ok d x W (or_introl OL)) as [_ NE].
  destruct (Nat.le_gt_cases (length (node_line d x)) width) as [S|LONG].
  - exists [node_line d x]. split; [destruct fuel; [lia|]; now apply wrap_short|]. intros t key sep val C cur Z st (E & T & O & CL & SK & TE & NB) H K NV.
    destruct (step_kept d C cur Z st t key sep val H T CL SK TE NB K) as (st' & E1 & H1 & V1 & W1 & K1); [intros Q; apply (NV t [] Q); symmetry; apply app_nil_r|].
    exists st'. cbn [preprocess_from]. rewrite NL, E, E1. cbn [bind]. split; [reflexivity|]. split; [exact H1|]. split; [exact V1|]. split; [exact W1|now left].
  - destruct B as [B|(_ & w1 & ws & E & U & B1 & B2)]; [lia|].
    destruct (wrap_line_words width fuel d x w1 ws OL E U B1 B2 LONG F) as (g & ws2 & tr & segs & gs & WE & GN & GE & TR & PG & CG & HL).
    eexists. split; [exact WE|]. intros t key sep val C cur Z st OW H K NV. pose proof OW as (E1 & T & O & CL & SK & TE & NB).
    rewrite GE in U. apply Forall_app in U. destruct U as [U1 U2].
    assert (t = spaced g ++ match ws2 with [] => [] | _ => s " " ++ spaced ws2 end) as TQ.
    { rewrite <- E1, E. fold (spaced (w1 :: ws)). rewrite GE. destruct ws2 as [|a ws2]; [rewrite !app_nil_r; reflexivity|]. apply spaced_app; [exact GN|discriminate]. }
    destruct (first_part x t key sep val (spaced g) _ OL W OW TQ) as (v1 & SK1 & TE1); [destruct HL as [-> |HL]; auto|].
    pose proof (spaced_trimmed g GN U1) as T1.
    destruct (step_kept d C cur Z st (spaced g) key sep v1 H T1) as (st1 & S1 & H1 & V1 & W1 & K1); [|exact SK1|exact TE1|exact NB|exact K| |].
    { intros Q. apply CL. rewrite TQ. change (spaced g ++ ?r) with ([] ++ spaced g ++ r). now apply occurs_in. }
    { intros Q. apply (NV _ _ Q TQ). }
    assert (step_line st (indent d ++ spaced g ++ tr) = Ok st1) as S2.
    { rewrite <- S1. apply step_line_ext; [|rewrite depth_trail by exact T1; now rewrite print_depth].
      rewrite strip_blanks; [|apply indent_blank|exact T1|exact TR]. now rewrite strip_indent, strip_trimmed. }
    destruct (conts d x t key sep val OL W OW segs gs (all_items d C cur) Z st1 (spaced g) (h_vals st) PG) as (st2 & S3 & H2 & V2 & W2 & K2); [now rewrite CG| |exact H1|now left|exact V1|].
    { rewrite TQ, CG. destruct gs as [|g0 gs]; [rewrite <- CG; cbn [concat]; apply app_nil_r|]. destruct ws2 as [|a ws2]; [|reflexivity]. exfalso. inversion PG as [|? ? ? ? PO _]; subst. destruct PO as [GN0 _]. cbn [concat] in CG. destruct g0; [contradiction|discriminate]. }
    exists st2. cbn [preprocess_from]. rewrite S2. cbn [bind]. split; [exact S3|]. split; [exact H2|]. split; [exact V2|]. split; [congruence|exact K2].
Qed.
