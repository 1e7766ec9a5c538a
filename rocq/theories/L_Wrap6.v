From Coq Require Import Ascii String Lia.
From Verif Require Import Base L_Base M_Translate M_Mapper M_Utility M_Header S_Header L_Header L_Header2 L_Header3 L_Header5 S_Nested L_Nested L_Nested2 M_Wrap S_Wrap L_Wrap L_Wrap2 L_Wrap3 L_Wrap4 L_Wrap5.
Import ListNotations.
Local Open Scope list_scope.

(** * a whole header with broken lines, read again *)
Definition key_ok2 (lst : option str) C (cur : openfile) st : Prop := match lst with Some k => h_lastkey st = k \/ h_lastkey st = s "..." | None => top_len C cur = 0%nat end.
Definition ok_place (f : nat * hnode -> list str) (p : nat * hnode) : Prop :=
  (own_line (snd p) /\ rereads (fst p) (snd p) (f p)) \/
  match snd p with Entry h => dropped (Entry h) /\ f p = [indent (fst p) ++ print_hline h] | Nested n _ => f p = [indent (fst p) ++ n ++ s ":"] | Command _ _ => False end.
Section Again.
Variable f : nat * hnode -> list str.
Variable All : list str.
Hypothesis PF : prefix_free All.
Definition runs2 (x : hnode) : Prop := forall d C cur Z st lst, wf_node x -> Forall (ok_place f) (places d x) -> here d C cur Z st -> no_repeat (lst :: keys_in x) -> key_ok2 lst C cur st -> NoDup (h_vals st ++ texts_in x) -> incl (h_vals st ++ texts_in x) All ->
  exists st' C' cur', preprocess_from st (flat_map f (places d x)) = Ok st' /\ here d C' cur' Z st' /\ cleaned d C' cur' = cleaned d C cur ++ flat_map (print_node d) (kept_part x) /\
    h_vals st' = h_vals st ++ texts_in x /\ view_list (h_view st') = next_view (h_view st) (views_in x) /\ key_ok2 (List.last (lst :: keys_in x) None) C' cur' st' /\
    (dropped x -> C' = C /\ cur' = cur) /\ (own_line x -> cur' = None /\ exists l, In (Line l) C').
Lemma runs2_list ns : Forall runs2 ns -> forall d C cur Z st lst, Forall wf_node ns -> Forall (ok_place f) (flat_map (places d) ns) -> here d C cur Z st -> no_repeat (lst :: flat_map keys_in ns) -> key_ok2 lst C cur st ->
  NoDup (h_vals st ++ flat_map texts_in ns) -> incl (h_vals st ++ flat_map texts_in ns) All ->
  exists st' C' cur', preprocess_from st (flat_map f (flat_map (places d) ns)) = Ok st' /\ here d C' cur' Z st' /\ cleaned d C' cur' = cleaned d C cur ++ flat_map (print_node d) (flat_map kept_part ns) /\
    h_vals st' = h_vals st ++ flat_map texts_in ns /\ view_list (h_view st') = next_view (h_view st) (flat_map views_in ns) /\ key_ok2 (List.last (lst :: flat_map keys_in ns) None) C' cur' st' /\
    (Forall dropped ns -> C' = C /\ cur' = cur) /\
    ((exists a x b, ns = a ++ x :: b /\ own_line x /\ Forall dropped b) -> cur' = None /\ exists l, In (Line l) C').
Proof.
  induction 1 as [|x ns R RS IH]; intros d C cur Z st lst W OK H NR K ND IN.
  - exists st, C, cur. cbn [flat_map preprocess_from]. rewrite !app_nil_r. do 4 (split; [auto|]). split.
    + unfold next_view. rewrite app_nil_r. destruct (h_view st); reflexivity.
    + split; [exact K|]. split; [auto|]. intros (a & x & b & Q & _). destruct a; discriminate.
  - inversion W as [|? ? W1 W2]; subst. cbn [flat_map] in *. apply Forall_app in OK. destruct OK as [OK1 OK2]. destruct (no_repeat_app _ _ _ NR) as [NR1 NR2]. rewrite app_assoc in ND, IN.
    destruct (R d C cur Z st lst W1 OK1 H NR1 K (nodup_left _ _ ND)) as (st1 & C1 & cur1 & E1 & H1 & CL1 & V1 & VW1 & K1 & D1 & O1); [intros q Q; apply IN, in_or_app; now left|].
    rewrite <- V1 in ND, IN. destruct (IH d C1 cur1 Z st1 _ W2 OK2 H1 NR2 K1 ND IN) as (st2 & C2 & cur2 & E2 & H2 & CL2 & V2 & VW2 & K2 & D2 & O2).
    exists st2, C2, cur2. rewrite flat_map_app, preprocess_app, E1. cbn [bind]. split; [exact E2|]. split; [exact H2|]. split; [rewrite CL2, CL1, flat_map_app; symmetry; apply app_assoc|].
    split; [rewrite V2, V1; symmetry; apply app_assoc|]. split; [rewrite VW2; now apply next_view_app|]. split; [now rewrite last_cons_app in K2|]. split.
    + intros Q. inversion Q as [|? ? Q1 Q2]; subst. destruct (D1 Q1) as [-> ->]. now apply D2.
    + intros (a & y & b & Q & OL & DB). destruct a as [|a0 a]; cbn [app] in Q; injection Q as -> ->.
      * destruct (O1 OL) as [-> L]. destruct (D2 DB) as [-> ->]. auto.
      * apply O2. exists a, y, b. auto.
Qed.
Lemma runs2_kept x : own_line x -> runs2 x.
Proof.
  intros OL d C cur Z st lst W OK H NR K ND IN.
  destruct (own_ok x OL W) as (t & key & sep & val & OW).
  assert (print_node d x = [indent d ++ t] /\ kept_part x = [x] /\ texts_in x = [t] /\ keys_in x = [Some key] /\ views_in x = [] /\ places d x = [(d, x)]) as (E1 & E2 & E3 & E4 & E5 & E6).
  { pose proof OW as (E & T & O & CL & SK & TE & NB). destruct x as [[k v|v|v|a]|p a|n c]; try destruct OL; cbn [own_text] in E; subst t.
    - assert (wf_hline (HPlain k v)) as (_ & _ & _ & NE & _) by (inversion W; assumption). rewrite (split_key_eq k v NE) in SK. injection SK as <- <- <-. repeat split.
    - assert (wf_command p a) as (_ & TT & _ & NE & NS & AB & _) by (inversion W; assumption). destruct a as [|c a]; [destruct AB|]. change (command_line p (c :: a)) with (p ++ " "%char :: [] ++ c :: a) in *.
      assert (split_key (p ++ " "%char :: [] ++ c :: a) = (p, s " ", c :: a)) as SK2.
      { apply split_key_blank; first [exact NE|exact NS|exact AB|reflexivity|apply Forall_nil|idtac]. intros ->. destruct TT as [TT _]. discriminate TT. }
      rewrite SK2 in SK. injection SK as <- <- <-. repeat split. }
  rewrite E2, E3, E4, E5, E6 in *. inversion OK as [|? ? OK1 _]; subst. destruct OK1 as [[_ RR]|OK1]; [|exfalso; cbn [snd] in OK1; destruct x as [[]| |]; try destruct OL; tauto]. cbn [fst snd] in RR.
  assert (~ In key [s "pvalue"; s "FORMAT"; s "VIEW"; s "..."]) as NB by apply OW.
  destruct (RR t key sep val C cur Z st OW H) as (st' & E & H' & V & VW & LK).
  - destruct lst as [k|]; [left|right; exact K]. destruct NR as [NR _]. destruct K as [-> | ->]; [congruence|]. intros ->. apply NB. right. right. right. now left.
  - intros q b Q TE. assert (b = []) as ->. { apply (PF q b); [apply IN, in_or_app; now left|]. rewrite <- TE. apply IN, in_or_app. right. now left. }
    rewrite app_nil_r in TE. subst q. apply (NoDup_remove_2 _ _ _ ND). rewrite app_nil_r. exact Q.
  - exists st', (all_items d C cur ++ [Line t]), None. cbn [flat_map]. rewrite app_nil_r, E1. split; [exact E|]. split; [exact H'|]. split.
    { unfold cleaned. unfold all_items at 1. rewrite app_nil_r, flat_map_app. f_equal. cbn [flat_map clean_item app]. rewrite <- tabs_indent. repeat f_equal. lia. }
    split; [exact V|]. split; [rewrite VW; unfold next_view; rewrite app_nil_r; destruct (h_view st); reflexivity|]. split; [exact LK|]. split.
    + intros D. destruct x as [[]| |]; destruct OL; destruct D.
    + intros _. split; [reflexivity|]. exists t. apply in_or_app. right. now left.
Qed.
Lemma runs2_all x : runs2 x.
Proof.
  induction x as [h|p a|n c IH] using hnode_ind'.
  - destruct (match h with HPlain _ _ => true | _ => false end) eqn:B; [apply runs2_kept; destruct h; try discriminate; exact I|].
    assert (dropped (Entry h)) as D by (destruct h; [discriminate|exact I|exact I|exact I]).
    intros d C cur Z st lst W OK H NR K ND IN. assert (wf_hline h) as WH by (inversion W; assumption). destruct (step_dropped d C cur Z st h H WH D) as (st' & E & H' & V & LK & VW).
    exists st', C, cur. assert (texts_in (Entry h) = []) as -> by (destruct h; [destruct D|reflexivity|reflexivity|reflexivity]).
    assert (keys_in (Entry h) = []) as -> by (destruct h; [destruct D|reflexivity|reflexivity|reflexivity]). assert (kept_part (Entry h) = []) as -> by (destruct h; [destruct D|reflexivity|reflexivity|reflexivity]).
    cbn [places flat_map]. inversion OK as [|? ? OK1 _]; subst. destruct OK1 as [[OL _]|[_ FE]]; [destruct h; cbn [snd] in OL; [discriminate|destruct OL|destruct OL|destruct OL]|]. rewrite FE. cbn [fst app preprocess_from].
    rewrite E, !app_nil_r. cbn [bind]. split; [reflexivity|]. split; [exact H'|]. split; [reflexivity|]. split; [exact V|]. split; [exact VW|]. split.
    + unfold key_ok2 in *. cbn [List.last]. destruct lst; [now rewrite LK|exact K].
    + split; [auto|]. intros O. destruct h; [discriminate|destruct O|destruct O|destruct O].
  - apply runs2_kept. exact I.
  - intros d C cur Z st lst W OK H NR K ND IN. inversion W as [| |? ? WN OL WC]; subst. destruct (step_open d C cur Z st n H WN) as (st1 & E1 & H1 & LK1 & V1 & VW1).
    cbn [keys_in texts_in places] in *. rewrite <- V1 in ND, IN. inversion OK as [|? ? OK1 OK2]; subst. destruct OK1 as [[[] _]|FE]. cbn [fst snd] in FE.
    destruct (runs2_list c IH (S d) [] None _ st1 None WC OK2 H1 (proj2 NR) eq_refl ND IN) as (st2 & C2 & cur2 & E2 & H2 & CL2 & V2 & VW2 & K2 & D2 & O2).
    assert (cur2 = None /\ (C2 = [] \/ exists l, In (Line l) C2)) as [-> LC].
    { destruct OL as [OL|OL]; [destruct (D2 OL) as [-> ->]; auto|destruct (O2 OL) as [-> L]; auto]. }
    exists st2, (all_items d C cur), (Some (h_next st, n, C2)). cbn [flat_map]. rewrite FE. cbn [app preprocess_from]. rewrite E1. cbn [bind]. split; [exact E2|]. split.
    { destruct H2 as [LZ H2]. split; [apply H|exact H2]. }
    split.
    { unfold cleaned at 1. unfold all_items at 1. rewrite flat_map_app. fold (cleaned d C cur). f_equal. cbn [flat_map]. rewrite app_nil_r.
      unfold cleaned, all_items in CL2. cbn [app flat_map] in CL2. rewrite app_nil_r in CL2. replace (Z.of_nat (S d) - 1)%Z with (Z.of_nat d) in CL2 by lia. cbn [clean_item kept_part].
      destruct LC as [-> | [l L]].
      - cbn [length Nat.eqb flat_map] in *. destruct (flat_map kept_part c) as [|y ys]; [reflexivity|]. exfalso. cbn [flat_map] in CL2. destruct y; discriminate CL2.
      - assert (length C2 <> 0%nat) as NE by (destruct C2; [destruct L|discriminate]). apply Nat.eqb_neq in NE. rewrite NE.
        assert (forallb is_dict C2 = false) as ->. { destruct (forallb is_dict C2) eqn:B; [|reflexivity]. rewrite forallb_forall in B. specialize (B _ L). discriminate. }
        rewrite CL2. replace (Z.of_nat d - 0)%Z with (Z.of_nat d) by lia. rewrite tabs_indent.
        destruct (flat_map kept_part c) as [|y ys] eqn:Q; [|cbn [flat_map print_node]; now rewrite app_nil_r]. exfalso.
        assert (In (tabs (Z.of_nat d + 1 - 0) ++ l) (flat_map (clean_item (Z.of_nat d) 0) C2)) as INL by (apply in_flat_map; exists (Line l); split; [exact L|now left]). rewrite CL2 in INL. destruct INL. }
    split; [rewrite V2, V1; reflexivity|]. split; [rewrite VW2, VW1; reflexivity|]. split; [exact K2|]. split; intros [].
Qed.
Lemma preprocess_again ns : Forall wf_node ns -> Forall (ok_place f) (flat_map (places 0) ns) -> no_repeat (flat_map keys_in ns) -> NoDup (flat_map texts_in ns) -> incl (flat_map texts_in ns) All ->
  exists st, preprocess_from h_init (flat_map f (flat_map (places 0) ns)) = Ok st /\ clean_up (h_files st) = flat_map (print_node 0) (flat_map kept_part ns) /\ view_list (h_view st) = last_of (flat_map views_in ns).
Proof.
  intros W OK NR ND IN.
  assert (Forall runs2 ns) as R by (apply Forall_forall; intros x _; apply runs2_all).
  destruct (runs2_list ns R 0 [] None [] h_init None W OK) as (st & C & cur & E & H & CL & V & VW & _).
  { split; [reflexivity|]. repeat split; constructor. }
  { split; [exact I|exact NR]. }
  { reflexivity. }
  { exact ND. }
  { exact IN. }
  exists st. split; [exact E|]. split; [|exact VW].
  unfold clean_up. destruct H as [_ H]. change (cleaned 0 [] None) with (@nil str) in CL. cbn [app] in CL. rewrite <- CL. unfold cleaned, all_items.
  destruct cur as [[[id n] c]|]; destruct H as (-> & _); cbn [close length]; [|rewrite app_nil_r]; reflexivity.
Qed.
End Again.
