(** The messages of a program, for C140. *)
From Coq Require Import Ascii String.
From Verif Require Import Base M_Header M_Pipe.
Import ListNotations.
Local Open Scope list_scope.
(** what a program prints to stderr *)
Fixpoint message_text (prog : list (stream * ascii)) : str :=
  match prog with [] => [] | (Out, _) :: prog => message_text prog | (Err, c) :: prog => c :: message_text prog end.
