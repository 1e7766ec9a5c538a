(** What C131 and C132 speak about *)
From Coq Require Import List.
From Verif Require Import Base M_Utility.
Import ListNotations.

(** the call for argument number i has finished *)
Definition finished {B} (s : pool_state B) (i : nat) : Prop := exists r, nth_error (ps_futures s) i = Some (Done r).
(** every call has been submitted and has finished *)
Definition all_finished {V B} (args : list V) (s : pool_state B) : Prop := forall i, i < length args -> finished s i.
