(** Headers with files inside files: what C42, C43 and C84 say about them *)
From Coq Require Import Ascii String.
From Verif Require Import Base M_Translate M_Mapper M_Utility M_Header S_Header.
Import ListNotations.
Local Open Scope list_scope.

(** a header line, a command line (the name of a program, a blank and its arguments), or a file with its own header *)
Inductive hnode := Entry (h : hline) | Command (prog args : str) | Nested (name : str) (content : list hnode).
Definition command_line (prog args : str) : str := prog ++ s " " ++ args.
Definition indent (d : nat) : str := repeat "009"%char d.
(** the text: one more tab at every level *)
Fixpoint print_node (d : nat) (x : hnode) : list str :=
  match x with
  | Entry h => [indent d ++ print_hline h]
  | Command p a => [indent d ++ command_line p a]
  | Nested n c => (indent d ++ n ++ s ":") :: flat_map (print_node (S d)) c
  end.
(** what should be left: key=value lines and commands where they were, but no files without any *)
Fixpoint kept_part (x : hnode) : list hnode :=
  match x with
  | Entry (HPlain k v) => [x]
  | Entry _ => []
  | Command _ _ => [x]
  | Nested n c => match flat_map kept_part c with [] => [] | c' => [Nested n c'] end
  end.
(** the views, and the kept lines with key and value, from top to bottom *)
Fixpoint views_in (x : hnode) : list str :=
  match x with Entry h => views [h] | Command _ _ => [] | Nested _ c => flat_map views_in c end.
Fixpoint pairs_in (x : hnode) : list (str * str) :=
  match x with Entry h => plains [h] | Command p a => [(p, a)] | Nested _ c => flat_map pairs_in c end.
Fixpoint texts_in (x : hnode) : list str :=
  match x with Entry h => map pair_line (plains [h]) | Command p a => [command_line p a] | Nested _ c => flat_map texts_in c end.

(** a command is one line without an equals sign, and its name is one word that means nothing else *)
Definition wf_command (prog args : str) : Prop :=
  let l := command_line prog args in
  one_line l /\ trimmed l /\ ~ occurs (s "clasp_tmp") l /\ ~ In "="%char l /\ Forall (fun c => is_space c = false) prog /\
  match args with c :: _ => is_space c = false | [] => False end /\ ~ In prog [s "pvalue"; s "FORMAT"; s "VIEW"; s "..."].
(** lines that go: view, FORMAT and pvalue lines *)
Definition dropped (x : hnode) : Prop := match x with Entry (HPlain _ _) => False | Entry _ => True | _ => False end.
(** lines that stay *)
Definition own_line (x : hnode) : Prop := match x with Entry (HPlain _ _) => True | Command _ _ => True | _ => False end.
(** a program writes its own line below the headers of the files it read: nothing but lines that go follows it; a file may also have
    nothing to keep at all *)
Definition own_line_last (c : list hnode) : Prop :=
  Forall dropped c \/ exists above x below, c = above ++ x :: below /\ own_line x /\ Forall dropped below.
Inductive wf_node : hnode -> Prop :=
| wf_entry h : wf_hline h -> wf_node (Entry h)
| wf_cmd p a : wf_command p a -> wf_node (Command p a)
| wf_nested n c : wf_name n -> own_line_last c -> Forall wf_node c -> wf_node (Nested n c).
(** the keys from top to bottom; None where a file starts *)
Fixpoint keys_in (x : hnode) : list (option str) :=
  match x with
  | Entry (HPlain k _) => [Some k]
  | Entry _ => []
  | Command p _ => [Some p]
  | Nested _ c => None :: flat_map keys_in c
  end.
(** no key follows itself (a repeated key is read as a continuation of the line before, except right after the start of a file) *)
Fixpoint no_repeat (l : list (option str)) : Prop :=
  match l with
  | [] => True
  | o :: l => match o, l with Some a, Some b :: _ => a <> b | _, _ => True end /\ no_repeat l
  end.
