(** Runs of communicating processes, for C140 and C141. *)
From Coq Require Import Ascii String.
From Verif Require Import Base M_Utility M_Header M_Io M_Pipe.
Import ListNotations.
Local Open Scope list_scope.

(** [n] steps lead from x to y *)
Inductive steps {X} (step : X -> X -> Prop) : nat -> X -> X -> Prop :=
| steps_none x : steps step 0 x x
| steps_more n x y z : step x y -> steps step n y z -> steps step (S n) x z.
(** y can come about *)
Definition reachable {X} (step : X -> X -> Prop) (x y : X) : Prop := exists n, steps step n x y.
(** nothing can happen any more *)
Definition stuck {X} (step : X -> X -> Prop) (x : X) : Prop := forall y, ~ step x y.
(** whatever the order of the steps: it comes to an end, and the end is good *)
Definition always_ends {X} (step : X -> X -> Prop) (x : X) (good : X -> Prop) : Prop :=
  (exists bound, forall n y, steps step n x y -> (n <= bound)%nat) /\
  (forall y, reachable step x y -> stuck step y -> good y).
(** whatever the order of the steps: it never happens *)
Definition never {X} (step : X -> X -> Prop) (x : X) (event : X -> Prop) : Prop :=
  forall y, reachable step x y -> ~ event y.

(** a is the beginning of l *)
Definition begins {A} (a l : list A) : Prop := exists b, l = a ++ b.
(** what a program prints to stdout, and how many bytes to stderr *)
Fixpoint printed (prog : list (stream * ascii)) : str :=
  match prog with [] => [] | (Out, c) :: prog => c :: printed prog | (Err, _) :: prog => printed prog end.
Fixpoint messages (prog : list (stream * ascii)) : nat :=
  match prog with [] => 0 | (Out, _) :: prog => messages prog | (Err, _) :: prog => S (messages prog) end.

(** what pvalue prints for a picture of that size: the line -Y ny +X nx and four bytes for each number *)
Definition size_line (ny nx : nat) : str :=
  s "-Y " ++ py_str (Z.of_nat ny) ++ s " +X " ++ py_str (Z.of_nat nx).
Definition picture_text (ny nx : nat) (data : str) : str := size_line ny nx ++ "010"%char :: data.
(** the bytes of numbers *)
Definition as_text (bytes : list Z) : str := map (fun b => ascii_of_N (Z.to_N b)) bytes.

(** all that pvalue -r prints when it reads [data] *)
Fixpoint emitted (k : packer) (seen data : list Z) : list Z :=
  match data with [] => [] | b :: data => k_emit k (seen ++ [b]) ++ emitted k (seen ++ [b]) data end.
Definition packed (k : packer) (data : list Z) : list Z := k_start k ++ emitted k [] data.
