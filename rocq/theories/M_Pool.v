(** Model of pool_call (raytools/utility.py) when a worker process dies. The steps without a death are in M_Utility.v. *)
From Coq Require Import List.
From Verif Require Import Base M_Utility.
Import ListNotations.

(** concurrent.futures.process.BrokenProcessPool, raised at utility.py:124, 126 (submit) and 129 (result) *)
Definition BrokenProcessPool : exn := OtherError 131.
(** what the executor does to a future when a worker has died: one that is not done gets the exception. Used at utility.py:129 *)
Definition give_up {B} (f : future B) : future B := match f with Done r => Done r | _ => Done (Raise BrokenProcessPool) end.
(** the death of a worker is noticed: all futures are done, and no worker is left (utility.py:119-130) *)
Definition broken {B} (s : pool_state B) : pool_state B := PS (map give_up (ps_futures s)) (ps_results s) (ps_out s) (ps_calls s).
(** one step after that: only the main thread makes steps (utility.py:119-131) *)
Inductive broken_step {V B} (unpack : V -> option (list V)) (expandarg : bool) (fixed args : list V) : pool_state B -> pool_state B -> Prop :=
(* utility.py:121-126: submit raises; star-unpacking comes first *)
| broken_submit s a l : ps_out s = None -> nth_error args (List.length (ps_futures s)) = Some a -> call_args unpack expandarg fixed a = Some l ->
    broken_step unpack expandarg fixed args s (PS (ps_futures s) (ps_results s) (Some (Raise BrokenProcessPool)) (ps_calls s))
| broken_submit_error s a : ps_out s = None -> nth_error args (List.length (ps_futures s)) = Some a -> call_args unpack expandarg fixed a = None ->
    broken_step unpack expandarg fixed args s (PS (ps_futures s) (ps_results s) (Some (Raise TypeError)) (ps_calls s))
(* utility.py:128-130 *)
| broken_gather s b : ps_out s = None -> List.length (ps_futures s) = List.length args ->
    nth_error (ps_futures s) (List.length (ps_results s)) = Some (Done (Ok b)) ->
    broken_step unpack expandarg fixed args s (PS (ps_futures s) (ps_results s ++ [b]) None (ps_calls s))
| broken_gather_error s e : ps_out s = None -> List.length (ps_futures s) = List.length args ->
    nth_error (ps_futures s) (List.length (ps_results s)) = Some (Done (Raise e)) ->
    broken_step unpack expandarg fixed args s (PS (ps_futures s) (ps_results s) (Some (Raise e)) (ps_calls s))
(* utility.py:131 *)
| broken_return s : ps_out s = None -> List.length (ps_results s) = List.length args ->
    broken_step unpack expandarg fixed args s (PS (ps_futures s) (ps_results s) (Some (Ok (ps_results s))) (ps_calls s)).
(** k steps after the death was noticed in the state [s0] (utility.py:119-131) *)
Inductive broken_run {V B} (unpack : V -> option (list V)) (expandarg : bool) (fixed args : list V) (s0 : pool_state B) : nat -> pool_state B -> Prop :=
| broken_start : broken_run unpack expandarg fixed args s0 0 (broken s0)
| broken_next k s s' : broken_run unpack expandarg fixed args s0 k s -> broken_step unpack expandarg fixed args s s' ->
    broken_run unpack expandarg fixed args s0 (S k) s'.
