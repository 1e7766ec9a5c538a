(** Long header lines: what C134 says about them *)
From Coq Require Import Ascii String.
From Verif Require Import Base M_Translate M_Mapper M_Utility M_Header S_Header S_Nested M_Wrap.
Import ListNotations.
Local Open Scope list_scope.

(** the text of a line that stays *)
Definition own_text (x : hnode) : str :=
  match x with Entry (HPlain k v) => k ++ s "=" ++ v | Command p a => command_line p a | _ => [] end.
Definition node_line (d : nat) (x : hnode) : str :=
  indent d ++ match x with Nested n _ => n ++ s ":" | _ => own_text x end.
(** what the second and following lines of a broken line start with: the key again, or dots for a command *)
Definition hanging (d : nat) (x : hnode) : str :=
  indent d ++ match x with Entry (HPlain k _) => k ++ s "= " | _ => s "   ...  " end.
(** lines and files with their depth, from top to bottom *)
Fixpoint places (d : nat) (x : hnode) : list (nat * hnode) :=
  (d, x) :: match x with Nested _ c => flat_map (places (S d)) c | _ => [] end.
(** either nothing has to be broken, or there is room behind what the broken lines start with *)
Definition roomy (w : nat) (p : nat * hnode) : Prop :=
  (length (node_line (fst p) (snd p)) <= w)%nat \/ (own_line (snd p) /\ (length (hanging (fst p) (snd p)) < w)%nat).
(** the line cut into parts, none longer than w *)
Definition broken (w : nat) (p : nat * hnode) (out : list str) : Prop :=
  exists first rest, first ++ concat rest = node_line (fst p) (snd p) /\ out = first :: map (fun r => hanging (fst p) (snd p) ++ r) rest /\
    Forall (fun l => (length l <= w)%nat) out.

(** a word that is not broken at a hyphen: all hyphens are at its start, or followed by neither a letter nor another hyphen *)
Definition unbroken (u : str) : Prop :=
  u <> [] /\ Forall (fun c => is_space c = false) u /\ List.last u " "%char <> ":"%char /\
  forall a b, u = a ++ "-"%char :: b -> Forall (fun c => c = "-"%char) a \/ match b with c :: _ => letter c = false /\ c <> "-"%char | [] => True end.
(** the line fits, or it is made of words with one blank between them, short enough for what stands in front of them *)
Definition head_len (x : hnode) : nat := match x with Entry (HPlain k _) => length k + 2 | Command p _ => length p + 8 | _ => 0 end.
Definition breakable (w : nat) (p : nat * hnode) : Prop :=
  let '(d, x) := p in
  (length (node_line d x) <= w)%nat \/
  (own_line x /\ exists w1 ws, own_text x = join (s " ") (w1 :: ws) /\ Forall unbroken (w1 :: ws) /\ (d + length w1 <= w)%nat /\
     Forall (fun u => (d + head_len x + length u + 1 <= w)%nat) ws).
(** no line is the beginning of another one *)
Definition prefix_free (l : list str) : Prop := forall a b, In a l -> In (a ++ b) l -> b = [].
