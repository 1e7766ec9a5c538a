(** Long header lines: the words of the parts, for C134 *)
From Coq Require Import Ascii String.
From Verif Require Import Base M_Translate M_Mapper M_Utility M_Header S_Header S_Nested M_Wrap S_Wrap.
Import ListNotations.
Local Open Scope list_scope.

(** the parts end between words: they are the words, one blank between them, with at most one more blank on either side *)
Definition padded (g : list str) (r : str) : Prop := g <> [] /\ exists a b, (a = [] \/ a = s " ") /\ (b = [] \/ b = s " ") /\ r = a ++ join (s " ") g ++ b.
Definition whole_words (p : nat * hnode) (out : list str) : Prop :=
  own_line (snd p) -> exists first rest, out = (indent (fst p) ++ first) :: map (fun r => hanging (fst p) (snd p) ++ r) rest /\
    forall ws, own_text (snd p) = join (s " ") ws -> Forall unbroken ws -> exists g gs, g ++ concat gs = ws /\ padded g first /\ Forall2 padded gs rest.
