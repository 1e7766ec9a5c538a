(** What C124 speaks about. *)
From Coq Require Import Ascii String.
From Verif Require Import Base M_Header.
Import ListNotations.

(** the value of a search path variable names these directories: one after the other, separated by colons *)
Inductive directories : str -> list str -> Prop :=
| dirs_one d : ~ In ":"%char d -> directories d [d]
| dirs_more d v l : ~ In ":"%char d -> directories v l -> directories (d ++ ":"%char :: v) (d :: l).
(** f is a file of the directory d *)
Definition file_of (d f : str) : Prop :=
  exists name, ~ In "/"%char name /\
    ((exists e c, d = e ++ [c] /\ c <> "/"%char /\ f = d ++ s "/" ++ name) \/ d = s "/" /\ f = s "/" ++ name).
(** the directories a Radiance program searches: its defaults if the variable is not set. The first that holds a file
    provides it: [find] *)
Definition searched (defaults : list str) (env : option str) (l : list str) : Prop :=
  match env with Some v => directories v l | None => l = defaults end.
