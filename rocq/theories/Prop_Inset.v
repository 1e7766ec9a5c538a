(** Property C135: the insets of a header, and the letters of the names of its items. *)
From Coq Require Import Ascii String.
From Verif Require Import Base M_Translate M_Mapper M_Utility M_Header M_Wrap S_Header S_Inset L_Inset.
Import ListNotations.
Local Open Scope list_scope.

(** C135: four spaces are as good as a tab, and one to three spaces more make no difference, wherever in the header: it is cleaned to the
    same lines and the same values are found in it *)
Theorem C135_spaces : forall fuel ls, Forall wf_inset_line ls ->
  clean_header_run fuel (map as_written ls) = clean_header_run fuel (map with_tabs ls) /\
  forall items, header_items_run fuel (map as_written ls) items = header_items_run fuel (map with_tabs ls) items.
Proof. exact clean_same. Qed.
(** C43, C135: two names are the same for header_items exactly when they differ in capital letters only *)
Theorem C135_letters : forall a b : str, lower a = lower b <-> Forall2 same_letter a b.
Proof. exact lower_same. Qed.
Example C135_nonvacuous : Forall wf_inset_line spaced /\
  clean_header_run 100 (map as_written spaced) =
    Some (Ok [s "a.hdr:"; "009"%char :: s "x.hdr:"; "009"%char :: "009"%char :: s "EXPOSURE=2"; "009"%char :: s "pcomb x.hdr"; s "SOFTWARE=R"]) /\
  header_items_run 100 (map as_written spaced) [s "exposure"] = Some (Ok [s "2"]).
Proof. split; [repeat constructor|split; vm_compute; reflexivity]. Qed.
Print Assumptions C135_spaces.
Print Assumptions C135_letters.
