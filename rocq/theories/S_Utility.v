(** Specification vocabulary for Prop_Utility.v *)
From Coq Require Import Ascii String.
From Verif Require Import Base M_Utility.
Import ListNotations.
Local Open Scope Z_scope.

(** a call that leaves the cap as it is: set_nproc(None) or a rejected set_nproc *)
Definition no_effect (o : nproc_op) : Prop := o = OpSet ArgNone \/ o = OpSet ArgOther.
(** a call that removes the cap *)
Definition resets (o : nproc_op) : Prop := o = OpUnset \/ exists n, n < 1 /\ o = OpSet (ArgInt n).
(** in the history h the last effective call is o *)
Definition last_effective (h : list nproc_op) (o : nproc_op) : Prop :=
  exists before after, h = before ++ o :: after /\ ~ no_effect o /\ Forall no_effect after.

(** every argument can be passed (star-unpacking succeeds when asked for) *)
Definition unpackable {V} (unpack : V -> option (list V)) (expandarg : bool) (args : list V) : Prop :=
  expandarg = true -> forall a, In a args -> unpack a <> None.

(** the positional arguments of the call for argument a: func( *a, *fixed) with expandarg, func(a, *fixed) without *)
Definition passed {V} (unpack : V -> option (list V)) (expandarg : bool) (fixed : list V) (a : V) (l : list V) : Prop :=
  if expandarg then exists items, unpack a = Some items /\ l = items ++ fixed else l = [a] ++ fixed.
(** the call for argument a returns b *)
Definition returns {V B} (unpack : V -> option (list V)) (expandarg : bool) (func : list V -> res B) (fixed : list V) (a : V) (b : B) : Prop :=
  exists l, passed unpack expandarg fixed a l /\ func l = Ok b.
(** the outcome of calling func for the arguments one after the other: the list of the
    results in the order of the arguments, or the exception of the first call that fails *)
Definition loop_outcome {V B} (unpack : V -> option (list V)) (expandarg : bool) (func : list V -> res B)
           (fixed args : list V) (r : res (list B)) : Prop :=
  (exists bs, r = Ok bs /\ Forall2 (returns unpack expandarg func fixed) args bs) \/
  (exists before bs a l after e, args = before ++ a :: after /\
     Forall2 (returns unpack expandarg func fixed) before bs /\
     passed unpack expandarg fixed a l /\ func l = Raise e /\ r = Raise e).

(** the character of a decimal digit, and the number a list of digits denotes *)
Definition digit_sign (d : nat) : Ascii.ascii :=
  nth d ["0"; "1"; "2"; "3"; "4"; "5"; "6"; "7"; "8"; "9"]%char "0"%char.
Definition decimal (ds : list nat) : Z := fold_left (fun v d => 10 * v + Z.of_nat d) ds 0.
(** the digits ds written one after the other, single underscores allowed between them *)
Inductive written : list nat -> list ascii -> Prop :=
| written_last d : (d < 10)%nat -> written [d] [digit_sign d]
| written_next d ds l : (d < 10)%nat -> written ds l -> written (d :: ds) (digit_sign d :: l)
| written_sep d ds l : (d < 10)%nat -> written ds l -> written (d :: ds) (digit_sign d :: "_"%char :: l).
(** characters int() skips around a number *)
Definition blank (c : Ascii.ascii) : Prop := In c [" "; "009"; "010"; "011"; "012"; "013"; "028"; "029"; "030"; "031"]%char.
(** the text s is the number v: blanks, an optional sign, digits, blanks *)
Definition number_text (s : list ascii) (v : Z) : Prop :=
  exists pre sgn ds l post, s = (pre ++ sgn ++ l ++ post)%list /\ Forall blank pre /\ Forall blank post /\ written ds l /\
    ((sgn = [] \/ sgn = ["+"%char]) /\ v = decimal ds \/ sgn = ["-"%char] /\ v = - decimal ds).
(** letter c is letter d or its capital *)
Definition same_letter (c d : ascii) : Prop :=
  c = d \/ In (c, d) [("A", "a"); ("D", "d"); ("E", "e"); ("H", "h"); ("R", "r"); ("S", "s"); ("T", "t")]%char.
(** the words that ask for threads, in any mixture of capitals *)
Definition thread_word (s : string) : Prop :=
  exists w, In w ["thread"; "t"; "threads"]%string /\
            Forall2 same_letter (list_ascii_of_string s) (list_ascii_of_string w).
