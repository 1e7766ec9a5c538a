(** What counts as an inset, and as the same letter. *)
From Coq Require Import Ascii String.
From Verif Require Import Base M_Translate M_Mapper M_Utility M_Header S_Header.
Import ListNotations.
Local Open Scope list_scope.

(** one level of an inset is a tab or four spaces *)
Inductive level := ByTab | BySpaces.
Definition level_text (u : level) : str := match u with ByTab => ["009"%char] | BySpaces => s "    " end.
(** a line: the levels of its inset, up to three spaces more, and the text *)
Record inset_line := InsetLine { il_levels : list level; il_more : nat; il_text : str }.
Definition as_written (l : inset_line) : str := flat_map level_text (il_levels l) ++ repeat " "%char (il_more l) ++ il_text l.
(** the same line with one tab for each level *)
Definition with_tabs (l : inset_line) : str := repeat "009"%char (length (il_levels l)) ++ il_text l.
Definition wf_inset_line (l : inset_line) : Prop :=
  (il_more l < 4)%nat /\ Forall (fun c => is_break c = false) (il_text l) /\ match il_text l with c :: _ => is_space c = false | [] => False end.

Definition capitals : str := s "ABCDEFGHIJKLMNOPQRSTUVWXYZ".
Definition small_letters : str := s "abcdefghijklmnopqrstuvwxyz".
(** equal, or a capital letter and the small one *)
Definition same_letter (a b : ascii) : Prop := a = b \/ In (a, b) (combine capitals small_letters) \/ In (b, a) (combine capitals small_letters).
