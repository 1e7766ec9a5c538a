(** Specification vocabulary for Prop_Header.v *)
From Coq Require Import Ascii String.
From Verif Require Import Base M_Translate M_Mapper M_Utility M_Header.
Import ListNotations.

(** p is a substring of l *)
Definition occurs (p l : str) : Prop := exists a b, l = a ++ p ++ b.
(** no line break in l *)
Definition one_line (l : str) : Prop := Forall (fun c => is_break c = false) l.
(** neither end is blank *)
Definition trimmed (l : str) : Prop :=
  match l with [] => False | c :: _ => is_space c = false end /\
  match rev l with [] => False | c :: _ => is_space c = false /\ c <> ":"%char end.
(** textwrap.fill leaves lines alone that fit *)
Definition fills (fill : nat -> str -> str -> str) : Prop :=
  forall width l indent, (length l <= width)%nat -> fill width l indent = l.

(** a line as the parser of the header reads it: key and value *)
Inductive entry (l key val : str) : Prop :=
| entry_eq : l = key ++ s "=" ++ val -> ~ In "="%char key -> entry l key val
| entry_blank c w : ~ In "="%char l -> l = key ++ c :: w ++ val -> is_space c = true -> Forall (fun c => is_space c = true) w ->
    Forall (fun c => is_space c = false) key -> match val with c :: _ => is_space c = false | [] => False end -> entry l key val
| entry_word : ~ In "="%char l -> l = key -> val = [] -> Forall (fun c => is_space c = false) key -> entry l key val.

(** the text of a header line with temporary file names masked and blanks removed *)
Definition line_text (h : str) : str := sub_clasp (strip h).
(** h is a view line with value v *)
Definition view_line (h v : str) : Prop := is_file (line_text h) = false /\ entry (line_text h) (s "VIEW") v.
(** v is the value of the last view line *)
Definition last_view (lines : list str) (v : str) : Prop :=
  exists before h after, lines = before ++ h :: after /\ view_line h v /\ Forall (fun h => forall v, ~ view_line h v) after.

(** headers without file blocks: ordinary key=value lines, view, FORMAT and pvalue lines *)
Inductive hline := HPlain (key val : str) | HView (val : str) | HFormat (val : str) | HPvalue (args : str).
Definition print_hline (h : hline) : str :=
  match h with
  | HPlain k v => k ++ s "=" ++ v
  | HView v => s "VIEW=" ++ v
  | HFormat v => s "FORMAT=" ++ v
  | HPvalue a => s "pvalue " ++ a
  end.
Definition wf_hline (h : hline) : Prop :=
  one_line (print_hline h) /\ trimmed (print_hline h) /\ ~ occurs (s "clasp_tmp") (print_hline h) /\
  match h with
  | HPlain k v => ~ In "="%char k /\ ~ In k [s "pvalue"; s "FORMAT"; s "VIEW"; s "..."]
  | HPvalue a => ~ In "="%char a
  | _ => True
  end.
Definition plains (hs : list hline) : list (str * str) :=
  flat_map (fun h => match h with HPlain k v => [(k, v)] | _ => [] end) hs.
Definition views (hs : list hline) : list str :=
  flat_map (fun h => match h with HView v => [v] | _ => [] end) hs.
Definition last_of {A} (l : list A) : list A := match rev l with [] => [] | x :: _ => [x] end.
(** no two neighbours are equal *)
Fixpoint adjacent_distinct (l : list str) : Prop :=
  match l with a :: ((b :: _) as l') => a <> b /\ adjacent_distinct l' | _ => True end.
(** first occurrences, in order *)
Definition dedup (l : list str) : list str := rev (nodup (list_eq_dec ascii_dec) (rev l)).

(** the value of the last pair with the given key, ignoring case *)
Definition last_value (key : str) (l : list (str * str)) (out : str) : Prop :=
  (exists before k v after, l = before ++ (k, v) :: after /\ lower k = lower key /\ out = strip v /\
     Forall (fun p => lower (fst p) <> lower key) after) \/
  (Forall (fun p => lower (fst p) <> lower key) l /\ out = []).

(** headers with file blocks one level deep: lines at the outer level, and files with the lines of their own header
    indented by a tab *)
Inductive hsection := Top (h : hline) | Block (name : str) (lines : list hline).
Definition tab : str := ["009"%char].
Definition print_section (x : hsection) : list str :=
  match x with
  | Top h => [print_hline h]
  | Block n ls => (n ++ s ":") :: map (fun h => tab ++ print_hline h) ls
  end.
Definition wf_name (n : str) : Prop := one_line n /\ trimmed n /\ ~ occurs (s "clasp_tmp") (n ++ s ":") /\ ~ In "/"%char n.
Definition wf_section (x : hsection) : Prop :=
  match x with Top h => wf_hline h | Block n ls => wf_name n /\ Forall wf_hline ls end.
Definition lines_of (x : hsection) : list hline := match x with Top h => [h] | Block _ ls => ls end.
Definition pair_line (p : str * str) : str := fst p ++ s "=" ++ snd p.
(** what should be left of a section: a block without any lines goes *)
Definition kept_section (x : hsection) : list str :=
  match x with
  | Top h => map pair_line (plains [h])
  | Block n ls => match plains ls with [] => [] | ps => (n ++ s ":") :: map (fun p => tab ++ pair_line p) ps end
  end.
(** neighbouring lines have different keys (a repeated key is a continuation of the line before); [last] is the
    key before. The first line of a block may repeat it *)
Fixpoint fresh_keys (last : option str) (l : list hsection) : Prop :=
  match l with
  | [] => True
  | Top (HPlain k _) :: l => last <> Some k /\ fresh_keys (Some k) l
  | Top _ :: l => fresh_keys last l
  | Block _ ls :: l => adjacent_distinct (map fst (plains ls)) /\
      fresh_keys (match last_of (map fst (plains ls)) with k :: _ => Some k | [] => None end) l
  end.

(** a way of printing and reading the numbers [num] (say, the floating point numbers): reading gives back what was
    printed, and a printed number is one word without the letter v *)
Definition number_format (num : R -> Prop) (show : R -> str) (parse : str -> option R) : Prop :=
  forall x, num x -> parse (show x) = Some x /\ show x <> [] /\ Forall (fun c => is_space c = false) (show x) /\
            ~ In "V"%char (show x) /\ ~ In "v"%char (show x).
Definition num3 (num : R -> Prop) (v : vec3) : Prop := num (vx v) /\ num (vy v) /\ num (vz v).
(** the three numbers after the first word [key]; [dflt] without that word *)
Definition option3 (parse : str -> option R) (key : str) (dflt : vec3) (ws : list str) (v : vec3) : Prop :=
  ~ In key ws /\ v = dflt \/
  exists a x y z b, ws = a ++ [key; x; y; z] ++ b /\ ~ In key a /\ parse x = Some (vx v) /\ parse y = Some (vy v) /\ parse z = Some (vz v).
