(** Properties of pool_call when a worker dies (C131) and of what goes on after it has ended (C132) *)
From Coq Require Import List Lia Arith.
From Verif Require Import Base M_Utility S_Utility M_Pool S_Pool L_Pool.
Import ListNotations.

(** C131: wherever the death of a worker process falls, pool_call never returns anything but the results of the loop: it does what
    the loop does, or raises BrokenProcessPool, which it does only when a call was not submitted or had not finished *)
Theorem C131_outcome : forall V B (unpack : V -> option (list V)) expandarg (func : list V -> res B) fixed args workers n s0 k s r,
  unpackable unpack expandarg args -> pool_run unpack expandarg func fixed args workers n s0 ->
  broken_run unpack expandarg fixed args s0 k s -> ps_out s = Some r ->
  loop_outcome unpack expandarg func fixed args r \/ (r = Raise BrokenProcessPool /\ exists i, i < length args /\ ~ finished s0 i).
Proof. exact @broken_outcome. Qed.
(** a death after the last call has finished changes nothing *)
Theorem C131_none_lost : forall V B (unpack : V -> option (list V)) expandarg (func : list V -> res B) fixed args workers n s0 k s r,
  unpackable unpack expandarg args -> pool_run unpack expandarg func fixed args workers n s0 -> all_finished args s0 ->
  broken_run unpack expandarg fixed args s0 k s -> ps_out s = Some r -> loop_outcome unpack expandarg func fixed args r.
Proof. exact @broken_none_lost. Qed.
(** no call is started, or made again, after the death; nothing is left to wait for *)
Theorem C131_calls : forall V B (unpack : V -> option (list V)) expandarg (func : list V -> res B) fixed args workers n s0 k s,
  pool_run unpack expandarg func fixed args workers n s0 -> broken_run unpack expandarg fixed args s0 k s ->
  ps_calls s = ps_calls s0 /\ forall i f, nth_error (ps_futures s) i = Some f -> exists r, f = Done r.
Proof. exact @broken_calls. Qed.
(** pool_call does not hang: it goes on until it has ended, within one step per argument and one more *)
Theorem C131_goes_on : forall V B (unpack : V -> option (list V)) expandarg (func : list V -> res B) fixed args workers n s0 k s,
  pool_run unpack expandarg func fixed args workers n s0 -> broken_run unpack expandarg fixed args s0 k s -> ps_out s = None ->
  exists s', broken_step unpack expandarg fixed args s s'.
Proof. exact @broken_progress. Qed.
Theorem C131_ends : forall V B (unpack : V -> option (list V)) expandarg (func : list V -> res B) fixed args workers n s0 k s,
  pool_run unpack expandarg func fixed args workers n s0 -> broken_run unpack expandarg fixed args s0 k s -> k <= length args + 1.
Proof. exact @broken_ends. Qed.
(** two arguments, the first call has finished when a worker dies: the result of the first is gathered, then the exception comes *)
Example C131_nonvacuous : exists n s0 k s, pool_run (fun v : nat => Some [v]) true (fun l => Ok (length l)) [7] [3; 4] 1 n s0 /\
  unpackable (fun v : nat => Some [v]) true [3; 4] /\ broken_run (fun v : nat => Some [v]) true [7] [3; 4] s0 k s /\
  ps_results s = [2] /\ ps_out s = Some (Raise BrokenProcessPool).
Proof.
  do 4 eexists. split.
  - eapply run_step. eapply run_step. eapply run_step. eapply run_step. apply run_start.
    + eapply step_submit; reflexivity.
    + eapply step_submit; reflexivity.
    + apply (step_start _ _ _ _ _ _ _ 0); [reflexivity|intros; lia|cbv; lia].
    + eapply (step_finish _ _ _ _ _ _ _ 0); reflexivity.
  - split; [intros _ a _; discriminate|]. split; [|split].
    + eapply broken_next. eapply broken_next. apply broken_start.
      * eapply broken_gather; reflexivity.
      * eapply broken_gather_error; reflexivity.
    + reflexivity.
    + reflexivity.
Qed.
Print Assumptions C131_outcome.
Print Assumptions C131_none_lost.
Print Assumptions C131_calls.
Print Assumptions C131_goes_on.
Print Assumptions C131_ends.

(** C132: when pool_call returns, no call is waiting or running *)
Theorem C132_returned : forall V B (unpack : V -> option (list V)) expandarg (func : list V -> res B) fixed args workers n s bs,
  pool_run unpack expandarg func fixed args workers n s -> ps_out s = Some (Ok bs) -> all_finished args s /\ length (ps_futures s) = length args.
Proof. exact @returned_idle. Qed.
(** when it raises they go on: a failure of the first call can be raised before the second call is started, which then happens ... *)
Theorem C132_raised_refuted : forall V B (unpack : V -> option (list V)) expandarg (func : list V -> res B) fixed args workers a b rest l e,
  1 <= workers -> unpackable unpack expandarg args -> args = a :: b :: rest -> call_args unpack expandarg fixed a = Some l -> func l = Raise e ->
  exists n s s', pool_run unpack expandarg func fixed args workers n s /\ ps_out s = Some (Raise e) /\ ps_calls s = [0] /\
    pool_step unpack expandarg func fixed args workers s s' /\ ps_calls s' = [0; 1].
Proof. exact @goes_on. Qed.
(** ... and whichever fail, in the end all calls have been made *)
Theorem C132_all_made : forall V B (unpack : V -> option (list V)) expandarg (func : list V -> res B) fixed args workers n s,
  1 <= workers -> unpackable unpack expandarg args -> pool_run unpack expandarg func fixed args workers n s ->
  (forall s', ~ pool_step unpack expandarg func fixed args workers s s') ->
  all_finished args s /\ ps_calls s = seq 0 (length args).
Proof. exact @all_made. Qed.
Example C132_nonvacuous : 1 <= 2 /\ unpackable (fun v : nat => Some [v]) true [0; 4] /\ call_args (fun v : nat => Some [v]) true [7] 0 = Some [0; 7] /\
  (fun l : list nat => match l with 0 :: _ => Raise ValueError | _ => Ok 1 end) [0; 7] = Raise ValueError.
Proof. split; [lia|]. split; [intros _ a _; discriminate|]. split; reflexivity. Qed.
Print Assumptions C132_returned.
Print Assumptions C132_raised_refuted.
Print Assumptions C132_all_made.
