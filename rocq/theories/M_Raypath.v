(** Model of set_raypath (raytools/__init__.py), run when the package is imported, on a POSIX system (os.path.sep is
    "/", os.pathsep is ":"). *)
From Coq Require Import Ascii String.
From Verif Require Import Base M_Header.
Import ListNotations.

(** l.split(sep) for a separator of one character, __init__.py:28 *)
Fixpoint split_from (sep : ascii) (acc l : str) : list str :=
  match l with
  | [] => [rev acc]
  | c :: l => if char_eqb c sep then rev acc :: split_from sep [] l else split_from sep (c :: acc) l
  end.
(** l.split(sep), __init__.py:28 *)
Definition split_on (sep : ascii) (l : str) : list str := split_from sep [] l.
(** list(dict.fromkeys(l)), __init__.py:32: the first of equal entries stays *)
Fixpoint from_keys (seen l : list str) : list str :=
  match l with
  | [] => []
  | x :: l => if in_strs x seen then from_keys seen l else x :: from_keys (x :: seen) l
  end.
(** os.path.dirname, __init__.py:26: up to the last slash, without the slashes at the end unless there is nothing
    else *)
Definition dirname (f : str) : str :=
  let head := drop_while (fun c => negb (char_eqb c "/")) (rev f) in
  match drop_while (fun c => char_eqb c "/") head with [] => head | r => rev r end.
(** __init__.py:20-33 [set_raypath]: the variable RAYPATH afterwards; [env] is its value, None if it is not set *)
Definition set_raypath (basefile : str) (subd : option str) (env : option str) : str :=
  let suff := match subd with Some d => s "/" ++ d | None => [] end in
  let raypath_rt := [s "."; dirname basefile ++ suff] in
  match env with
  | None => join (s ":") raypath_rt
  | Some v => join (s ":") (from_keys [] (raypath_rt ++ split_on ":" v))
  end.
