(** What C112 and C113 speak about *)
From Coq Require Import Ascii String.
From Verif Require Import Base M_Utility M_Header S_Utility S_Paths.
Import ListNotations.
Local Open Scope list_scope.

(** a file name without blanks *)
Definition solid_name (n : str) : Prop := n <> [] /\ Forall (fun c => is_space c = false) n.
(** the signs of a Radiance resolution string *)
Definition axis_sign (c : ascii) : Prop := c = "+"%char \/ c = "-"%char.
(** the answer of getinfo -d for an image w pixels wide and h pixels high, rows first *)
Definition rows_first (name : str) (w h : Z) (out : str) : Prop :=
  exists a b wt ht, axis_sign a /\ axis_sign b /\ int_text w wt /\ int_text h ht /\
    out = name ++ s " " ++ (a :: s "Y ") ++ ht ++ s " " ++ (b :: s "X ") ++ wt ++ newline.
(** the same, columns first *)
Definition columns_first (name : str) (w h : Z) (out : str) : Prop :=
  exists a b wt ht, axis_sign a /\ axis_sign b /\ int_text w wt /\ int_text h ht /\
    out = name ++ s " " ++ (a :: s "X ") ++ wt ++ s " " ++ (b :: s "Y ") ++ ht ++ newline.
