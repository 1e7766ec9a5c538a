(** C134: what clean_header does with long lines *)
From Coq Require Import Ascii String.
From Verif Require Import Base M_Translate M_Mapper M_Utility M_Header S_Header S_Nested M_Wrap S_Wrap S_Wrap2 L_Wrap L_Wrap2 L_Wrap3 L_Wrap7 L_Wrap8 L_Wrap9.
Import ListNotations.
Local Open Scope list_scope.

(** it comes to an end, and every line that stays is cut into parts: the first as it stands, the others behind the key (or dots), none longer
    than 150 characters and no character lost or added *)
Theorem C134_lines_partial : forall ns, Forall wf_node ns -> no_repeat (flat_map keys_in ns) -> NoDup (flat_map texts_in ns) ->
  Forall (roomy 150) (flat_map (places 0) (flat_map kept_part ns)) ->
  exists n parts, Forall2 (broken 150) (flat_map (places 0) (flat_map kept_part ns)) parts /\
    forall fuel, (n <= fuel)%nat ->
      clean_header_run fuel (flat_map (print_node 0) ns) = Some (Ok (concat parts ++ map (fun v => s "VIEW=" ++ v) (last_of (flat_map views_in ns)))).
Proof. exact header_lines. Qed.
(** lines of words end between words *)
Theorem C134_words_partial : forall ns, Forall wf_node ns -> no_repeat (flat_map keys_in ns) -> NoDup (flat_map texts_in ns) ->
  Forall (breakable 150) (flat_map (places 0) (flat_map kept_part ns)) ->
  exists n parts, Forall2 whole_words (flat_map (places 0) (flat_map kept_part ns)) parts /\
    forall fuel, (n <= fuel)%nat ->
      clean_header_run fuel (flat_map (print_node 0) ns) = Some (Ok (concat parts ++ map (fun v => s "VIEW=" ++ v) (last_of (flat_map views_in ns)))).
Proof. exact header_words. Qed.
(** read again, the parts are one line: cleaning twice is cleaning once, and the values found are those of the original header *)
Theorem C134_again_partial : forall ns fuel out, Forall wf_node ns -> no_repeat (flat_map keys_in ns) -> no_repeat (flat_map keys_in (flat_map kept_part ns)) ->
  NoDup (flat_map texts_in ns) -> prefix_free (flat_map texts_in ns) -> Forall (breakable 150) (flat_map (places 0) (flat_map kept_part ns)) ->
  clean_header_run fuel (flat_map (print_node 0) ns) = Some (Ok out) ->
  clean_header_run fuel out = Some (Ok out) /\ forall n items, header_items_run n out items = header_items_run n (flat_map (print_node 0) ns) items.
Proof. exact header_again. Qed.
(** with a key of 149 characters or more in front of a line that is too long, it never ends *)
Theorem C134_ends_refuted : forall k v, wf_hline (HPlain k v) -> (149 <= length k)%nat -> (150 < length (k ++ s "=" ++ v))%nat ->
  forall fuel, clean_header_run fuel [k ++ s "=" ++ v] = None.
Proof. exact clean_hangs. Qed.
(** with a key of 148 characters the lines are too long *)
Theorem C134_width_refuted : exists k v out, wf_hline (HPlain k v) /\ clean_header_run 300 [k ++ s "=" ++ v] = Some (Ok out) /\
  exists l, In l out /\ (150 < length l)%nat.
Proof. exact too_wide. Qed.
(** the view is not broken *)
Theorem C134_view_refuted : exists v, wf_hline (HView v) /\ (150 < length (s "VIEW=" ++ v))%nat /\
  forall fuel, clean_header_run fuel [s "VIEW=" ++ v] = Some (Ok [s "VIEW=" ++ v]).
Proof. exact long_view. Qed.
(** a name of a file with a hyphen in it can get a blank: the value found in the cleaned header is another one *)
Theorem C134_hyphen_refuted : exists args out, wf_node (Command (s "pcomb") args) /\ roomy 150 (0%nat, Command (s "pcomb") args) /\
  (forall fuel, (300 <= fuel)%nat -> clean_header_run fuel [command_line (s "pcomb") args] = Some (Ok out) /\
     header_items_run fuel [command_line (s "pcomb") args] [s "pcomb"] = Some (Ok [args])) /\
  exists args', args' <> args /\ forall fuel, (300 <= fuel)%nat -> header_items_run fuel out [s "pcomb"] = Some (Ok [args']).
Proof. exact hyphens. Qed.
(** the theorems about short lines (C42, C43, C84) hold of the line breaking modelled here *)
Theorem C134_fills : forall fuel, fills (textwrap_fill (S fuel)).
Proof. exact textwrap_fills. Qed.
Theorem C134_model : forall fuel width text r, clean_run fuel width text = Some r -> clean_text (textwrap_fill fuel) width text = r.
Proof. exact clean_run_text. Qed.
(** more steps give the same result *)
Theorem C134_fuel : forall fuel fuel' width text r, (fuel <= fuel')%nat -> clean_run fuel width text = Some r -> clean_run fuel' width text = Some r.
Proof. exact clean_run_mono. Qed.

(** a header with a long command inside a file, and a long entry *)
Example C134_nonvacuous : Forall wf_node long_header /\ no_repeat (flat_map keys_in long_header) /\ no_repeat (flat_map keys_in (flat_map kept_part long_header)) /\
  NoDup (flat_map texts_in long_header) /\ prefix_free (flat_map texts_in long_header) /\
  Forall (breakable 150) (flat_map (places 0) (flat_map kept_part long_header)) /\ Forall (roomy 150) (flat_map (places 0) (flat_map kept_part long_header)) /\
  clean_header_run 1000 (flat_map (print_node 0) long_header) =
  Some (Ok [s "a.hdr:"; tab ++ s "rpict -vtv -vp 2.5 1.5 1.2 -vd 0.8 0.6 0 -vu 0 0 1 -vh 60 -vv 40 -x 2048 -y 1536 -ab 6 -ad 4096 -as 2048 -aa 0.1 -ar 512 -lw 0.0001 -ps 1 -pt 0.05 "; tab ++ s "   ...  -dj 0.9 scene.oct";
    s "COMMENT= the office on the third floor in the morning of the first of march under a clear sky with the blinds of the south window half closed and all "; s "COMMENT= of the lamps on"; s "EXPOSURE=2"; s "VIEW= -vtv"]).
Proof.
  split; [exact long_header_wf|]. split; [vm_compute; repeat split; discriminate|]. split; [vm_compute; repeat split; discriminate|]. split; [apply long_header_texts|]. split; [apply long_header_texts|].
  split; [exact long_header_breakable|]. split; [|exact long_header_out]. eapply Forall_impl; [|exact long_header_breakable]. intros p. apply breakable_roomy.
Qed.
Example C134_ends_nonvacuous : exists k v, wf_hline (HPlain k v) /\ (149 <= length k)%nat /\ (150 < length (k ++ s "=" ++ v))%nat.
Proof. exact never. Qed.
Print Assumptions C134_lines_partial.
Print Assumptions C134_words_partial.
Print Assumptions C134_again_partial.
Print Assumptions C134_ends_refuted.
Print Assumptions C134_width_refuted.
Print Assumptions C134_view_refuted.
Print Assumptions C134_hyphen_refuted.
Print Assumptions C134_fills.
Print Assumptions C134_model.
Print Assumptions C134_fuel.
