(** Properties of the header functions for headers of any depth: files inside files (C42, C43, C84) *)
From Coq Require Import Ascii String Lia.
From Verif Require Import Base M_Translate M_Mapper M_Utility M_Header S_Header L_Header S_Nested L_Nested L_Nested2.
Import ListNotations.
Local Open Scope list_scope.

(** C42: whatever the nesting, every key=value line and command stays where it was, inside the file it was in and in the same order, and
    the last view follows. For headers without repeated lines in which each file ends with a line of its own (C42_nesting_refuted shows
    what happens otherwise) *)
Theorem C42_nested_partial : forall (fill : nat -> str -> str -> str) ns,
  fills fill -> Forall wf_node ns -> no_repeat (flat_map keys_in ns) -> NoDup (flat_map texts_in ns) ->
  Forall (fun l => (length l <= 150)%nat) (flat_map (print_node 0) (flat_map kept_part ns)) ->
  clean_header fill (flat_map (print_node 0) ns) =
  Ok (flat_map (print_node 0) (flat_map kept_part ns) ++ map (fun v => s "VIEW=" ++ v) (last_of (flat_map views_in ns))).
Proof. exact clean_nested. Qed.
(** a command that follows a command of the same program is taken for the rest of its line: what pcomb wrote below the header of a picture
    made by pcomb ends up in the header of that picture *)
Theorem C42_same_program_refuted : forall fill, fills fill ->
  clean_header fill [s "a.hdr:"; tab ++ s "pcomb x.hdr y.hdr"; s "pcomb -s 2 a.hdr"] = Ok [s "a.hdr:"; tab ++ s "pcomb x.hdr y.hdr -s 2 a.hdr"].
Proof. exact clean_bad_program. Qed.
(** C43: the last value of each key, from the top to the bottom of the whole tree *)
Theorem C43_nested_partial : forall (fill : nat -> str -> str -> str) ns items,
  fills fill -> Forall wf_node ns -> no_repeat (flat_map keys_in ns) -> NoDup (flat_map texts_in ns) ->
  Forall (fun l => (length l <= 4096)%nat) (flat_map (print_node 0) (flat_map kept_part ns)) -> NoDup (map lower items) ->
  exists out, header_items fill (flat_map (print_node 0) ns) items = Ok out /\
    Forall2 (fun key o => last_value key (flat_map pairs_in ns ++ map (fun v => (s "VIEW", v)) (last_of (flat_map views_in ns))) o) items out.
Proof. exact header_items_nested. Qed.
(** C84: cleaning again changes nothing; no key may follow itself after the empty files have gone either *)
Theorem C84_nested_partial : forall (fill : nat -> str -> str -> str) ns out,
  fills fill -> Forall wf_node ns -> no_repeat (flat_map keys_in ns) -> no_repeat (flat_map keys_in (flat_map kept_part ns)) ->
  NoDup (flat_map texts_in ns) -> Forall (fun l => (length l <= 150)%nat) (flat_map (print_node 0) (flat_map kept_part ns)) ->
  clean_header fill (flat_map (print_node 0) ns) = Ok out -> clean_header fill out = Ok out.
Proof. exact clean_nested_idem. Qed.
(** with an empty file between them they are two lines, and cleaned again one *)
Theorem C84_nested_refuted : forall fill, fills fill -> exists out,
  clean_header fill [s "pcomb x.hdr"; s "a.hdr:"; s "pcomb a.hdr"] = Ok out /\ clean_header fill out = Ok [s "pcomb x.hdr a.hdr"] /\ out <> [s "pcomb x.hdr a.hdr"].
Proof. exact clean_bad_empty. Qed.
Example C42_nested_nonvacuous : Forall wf_node pcomb_header /\ no_repeat (flat_map keys_in pcomb_header) /\ no_repeat (flat_map keys_in (flat_map kept_part pcomb_header)) /\
  NoDup (flat_map texts_in pcomb_header) /\ NoDup (map lower [s "exposure"; s "VIEW"; s "rpict"]) /\
  Forall (fun l => (length l <= 150)%nat) (flat_map (print_node 0) (flat_map kept_part pcomb_header)) /\
  clean_header (fun _ l _ => l) (flat_map (print_node 0) pcomb_header) =
    Ok [s "a.hdr:"; tab ++ s "x.hdr:"; tab ++ tab ++ s "rpict -vp 0 0 0 x.oct"; tab ++ tab ++ s "EXPOSURE=2";
        tab ++ s "y.hdr:"; tab ++ tab ++ s "rpict -vp 0 0 0 y.oct"; tab ++ tab ++ s "EXPOSURE=3"; tab ++ s "pcomb x.hdr y.hdr";
        s "SOFTWARE= RADIANCE"; s "pcomb a.hdr b.hdr"; s "VIEW= -vta"] /\
  header_items (fun _ l _ => l) (flat_map (print_node 0) pcomb_header) [s "exposure"; s "VIEW"; s "rpict"] = Ok [s "3"; s "-vta"; s "-vp 0 0 0 y.oct"].
Proof.
  assert (forall p l, last_after p l = None -> ~ occurs p l) as NO by (intros p l; apply last_after_none).
  assert (forall l, forallb (fun c => negb (is_break c)) l = true -> one_line l) as OL.
  { intros l A. apply Forall_forall. intros c Q. rewrite forallb_forall in A. specialize (A c Q). now apply negb_true_iff in A. }
  assert (forall c l, in_strs [c] (map (fun c => [c]) l) = false -> ~ In c l) as NI.
  { intros c l A Q. apply in_strs_false in A. apply A, in_map_iff. eauto. }
  assert (forall p a, let l := command_line p a in forallb (fun c => negb (is_break c)) l = true -> trimmed l -> last_after (s "clasp_tmp") l = None -> in_strs ["="%char] (map (fun c => [c]) l) = false ->
    forallb (fun c => negb (is_space c)) p = true -> match a with c :: _ => is_space c = false | [] => False end -> in_strs p [s "pvalue"; s "FORMAT"; s "VIEW"; s "..."] = false -> wf_node (Command p a)) as WC.
  { intros p a l A B C D E F G. constructor. split; [now apply OL|]. split; [exact B|]. split; [now apply NO|]. split; [now apply NI|]. split; [|split; [exact F|now apply in_strs_false]].
    apply Forall_forall. intros c Q. rewrite forallb_forall in E. specialize (E c Q). now apply negb_true_iff in E. }
  assert (forall h, forallb (fun c => negb (is_break c)) (print_hline h) = true -> trimmed (print_hline h) -> last_after (s "clasp_tmp") (print_hline h) = None ->
    match h with HPlain k v => in_strs ["="%char] (map (fun c => [c]) k) = false /\ in_strs k [s "pvalue"; s "FORMAT"; s "VIEW"; s "..."] = false | HPvalue a => False | _ => True end -> wf_node (Entry h)) as WF.
  { intros h A B C D. constructor. split; [now apply OL|split; [exact B|split; [now apply NO|]]].
    destruct h as [k v|v|v|a]; [|exact I|exact I|destruct D]. destruct D as [D1 D2]. split; [now apply NI|now apply in_strs_false]. }
  assert (forall n c, forallb (fun c => negb (is_break c)) n = true -> trimmed n -> last_after (s "clasp_tmp") (n ++ s ":") = None -> in_strs ["/"%char] (map (fun c => [c]) n) = false ->
    own_line_last c -> Forall wf_node c -> wf_node (Nested n c)) as WN.
  { intros n c A B C D E F. constructor; [|exact E|exact F]. split; [now apply OL|split; [exact B|split; [now apply NO|now apply NI]]]. }
  split; [|split; [|split; [|split; [|split; [|split; [|split]]]]]].
  - unfold pcomb_header. apply Forall_cons; [|apply Forall_cons; [|apply Forall_cons; [|apply Forall_cons; [|apply Forall_nil]]]].
    + apply WN; [reflexivity|vm_compute; repeat split; discriminate|reflexivity|reflexivity| |].
      * right. eexists [_; _], _, [_]. split; [reflexivity|]. split; [exact I|]. constructor; [exact I|constructor].
      * apply Forall_cons; [|apply Forall_cons; [|apply Forall_cons; [|apply Forall_cons; [|apply Forall_nil]]]].
        -- apply WN; [reflexivity|vm_compute; repeat split; discriminate|reflexivity|reflexivity| |].
           ++ right. eexists [_; _], _, []. split; [reflexivity|]. split; [exact I|constructor].
           ++ apply Forall_cons; [apply WC; try reflexivity; vm_compute; repeat split; discriminate|]. repeat (apply Forall_cons; [apply WF; vm_compute; repeat split; discriminate|]). apply Forall_nil.
        -- apply WN; [reflexivity|vm_compute; repeat split; discriminate|reflexivity|reflexivity| |].
           ++ right. eexists [_; _], _, []. split; [reflexivity|]. split; [exact I|constructor].
           ++ apply Forall_cons; [apply WC; try reflexivity; vm_compute; repeat split; discriminate|]. repeat (apply Forall_cons; [apply WF; vm_compute; repeat split; discriminate|]). apply Forall_nil.
        -- apply WC; try reflexivity; vm_compute; repeat split; discriminate.
        -- apply WF; vm_compute; repeat split; discriminate.
    + apply WN; [reflexivity|vm_compute; repeat split; discriminate|reflexivity|reflexivity| |].
      * left. constructor; [exact I|constructor].
      * apply Forall_cons; [apply WF; vm_compute; repeat split; discriminate|apply Forall_nil].
    + apply WF; vm_compute; repeat split; discriminate.
    + apply WC; try reflexivity; vm_compute; repeat split; discriminate.
  - clear. vm_compute. repeat (split; [first [exact I|intros Q; discriminate Q]|]). exact I.
  - clear. vm_compute. repeat (split; [first [exact I|intros Q; discriminate Q]|]). exact I.
  - vm_compute. repeat (constructor; [cbn; intros Q; repeat (destruct Q as [Q|Q]; [discriminate|]); exact Q|]). constructor.
  - vm_compute. repeat (constructor; [cbn; intros Q; repeat (destruct Q as [Q|Q]; [discriminate|]); exact Q|]). constructor.
  - apply Forall_forall. intros l L. apply Nat.leb_le. revert l L. apply forallb_forall. vm_compute. reflexivity.
  - vm_compute. reflexivity.
  - vm_compute. reflexivity.
Qed.
Print Assumptions C42_nested_partial.
Print Assumptions C42_same_program_refuted.
Print Assumptions C43_nested_partial.
Print Assumptions C84_nested_partial.
Print Assumptions C84_nested_refuted.
