(** Property C124: the search path of the Radiance programs after importing raytools. *)
From Coq Require Import Ascii String.
From Verif Require Import Base M_Header M_Raypath S_Raypath L_Raypath.
Import ListNotations.

(** C124: the new value names the current directory, the directory of the package and those of the old value, each
    once; a file is found in the first two of them, and otherwise where it was found before *)
Theorem C124_set_partial d f sub v l : file_of d f -> ~ In ":"%char (d ++ s "/" ++ sub) -> directories v l ->
  exists l', directories (set_raypath f (Some sub) (Some v)) l' /\ NoDup l' /\
    (forall x, In x l' <-> x = s "." \/ x = d ++ s "/" ++ sub \/ In x l) /\
    forall has, find has l' =
      if has (s ".") then Some (s ".") else if has (d ++ s "/" ++ sub) then Some (d ++ s "/" ++ sub) else find has l.
Proof. exact (raypath_set d f sub v l). Qed.
Print Assumptions C124_set_partial.
(** every value names directories *)
Theorem C124_directories v : exists l, directories v l /\ forall l', directories v l' -> l' = l.
Proof. exact (ex_intro _ _ (conj (directories_exist v) (fun l' H => eq_sym (split_directories v l' H)))). Qed.
Print Assumptions C124_directories.
(** a variable that was not set names these two directories *)
Theorem C124_unset d f sub : file_of d f -> ~ In ":"%char (d ++ s "/" ++ sub) ->
  directories (set_raypath f (Some sub) None) [s "."; d ++ s "/" ++ sub].
Proof. exact (raypath_unset d f sub). Qed.
Print Assumptions C124_unset.
(** doing it again changes nothing: programs started by this one keep the value *)
Theorem C124_again d f sub env : file_of d f -> ~ In ":"%char (d ++ s "/" ++ sub) ->
  set_raypath f (Some sub) (Some (set_raypath f (Some sub) env)) = set_raypath f (Some sub) env.
Proof. exact (raypath_again d f sub env). Qed.
Print Assumptions C124_again.
(** missing from _partial: when the variable is not set, the files of the default directories are not found any more *)
Theorem C124_default_refuted d f sub defaults dd : file_of d f -> ~ In ":"%char (d ++ s "/" ++ sub) ->
  In dd defaults -> dd <> s "." -> dd <> d ++ s "/" ++ sub ->
  exists has, (exists l, searched defaults None l /\ find has l = Some dd) /\
    exists l, searched defaults (Some (set_raypath f (Some sub) None)) l /\ find has l = None.
Proof. exact (raypath_default d f sub defaults dd). Qed.
Print Assumptions C124_default_refuted.
(** and the directory of the package is not searched if its path contains a colon *)
Theorem C124_colon_refuted d f sub env l : file_of d f -> In ":"%char (d ++ s "/" ++ sub) ->
  directories (set_raypath f (Some sub) env) l -> ~ In (d ++ s "/" ++ sub) l.
Proof. exact (raypath_colon d f sub env l). Qed.
Print Assumptions C124_colon_refuted.
(** the hypotheses are met *)
Example C124_example : file_of (s "/opt/raytools") (s "/opt/raytools/__init__.py") /\
  directories (s "/usr/lib/ray::.") [s "/usr/lib/ray"; []; s "."] /\
  set_raypath (s "/opt/raytools/__init__.py") (Some (s "cal")) (Some (s "/usr/lib/ray::.:/usr/lib/ray"))
  = s ".:/opt/raytools/cal:/usr/lib/ray:".
Proof. exact raypath_example. Qed.
