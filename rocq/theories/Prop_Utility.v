(** Property theorems for the process cap and pool_call: C32 - C34 *)
From Coq Require Import Lia Ascii String.
From Verif Require Import Base M_Utility S_Utility L_Utility L_Utility2.
Local Open Scope Z_scope.

(** C32: h is any history of set_nproc / unset_nproc calls, e the environment at its start *)
Theorem C32_last_cap_wins : forall cpus h n e, 1 <= n -> last_effective h (OpSet (ArgInt n)) ->
  get_nproc cpus None (nproc_run h e) = n.
Proof. exact cap_set. Qed.
Theorem C32_reset_gives_cpu_count : forall cpus h o e, resets o -> last_effective h o ->
  get_nproc cpus None (nproc_run h e) = cpus.
Proof. exact cap_reset. Qed.
Theorem C32_without_effective_call : forall cpus h, Forall no_effect h ->
  get_nproc cpus None (nproc_run h None) = cpus.
Proof. exact (fun cpus h F => cap_none cpus h None F). Qed.
Theorem C32_cases_cover_every_history : forall h,
  Forall no_effect h \/ (exists o, resets o /\ last_effective h o) \/
  exists n, 1 <= n /\ last_effective h (OpSet (ArgInt n)).
Proof. exact cap_total. Qed.
Theorem C32_no_effect_keeps_state : forall o e, no_effect o -> nproc_step e o = e.
Proof. exact (fun o e H => no_effect_step o e H). Qed.
Theorem C32_rejects_exactly_other_types : forall a e, snd (set_nproc a e) = Some ValueError <-> a = ArgOther.
Proof. exact set_rejects. Qed.
Theorem C32_argument_wins : forall cpus n e, get_nproc cpus (Some n) e = n.
Proof. exact (fun cpus n e => eq_refl). Qed.
(** a text in the environment variable: the number written there is the cap, any other text is ignored *)
Theorem C32_environment_number : forall cpus s v, number_text s v -> get_nproc cpus None (Some s) = v.
Proof. exact nproc_number. Qed.
Theorem C32_environment_other_text : forall cpus s, (forall v, ~ number_text s v) -> get_nproc cpus None (Some s) = cpus.
Proof. exact nproc_other. Qed.
Example C32_nonvacuous_texts : number_text (list_ascii_of_string " -1_2 ") (-12) /\ (forall v, ~ number_text [] v).
Proof.
  split.
  - exists [" "%char], ["-"%char], [1; 2]%nat, (list_ascii_of_string "1_2"), [" "%char]. split; [reflexivity|].
    split; [constructor; [now left|constructor]|]. split; [constructor; [now left|constructor]|]. split.
    + apply (written_sep 1 [2]%nat); [lia|]. apply (written_last 2). lia.
    + right. split; reflexivity.
  - intros v (pre & sgn & ds & l & post & E & _ & _ & W & _). destruct W; destruct pre, sgn; discriminate.
Qed.
Example C32_nonvacuous :
  last_effective [OpUnset; OpSet (ArgInt 12); OpSet ArgNone; OpSet ArgOther] (OpSet (ArgInt 12)) /\
  get_nproc 8 None (nproc_run [OpUnset; OpSet (ArgInt 12); OpSet ArgNone; OpSet ArgOther] None) = 12.
Proof.
  split; [|reflexivity]. exists [OpUnset], [OpSet ArgNone; OpSet ArgOther]. split; [reflexivity|].
  split; [intros [H|H]; discriminate|]. apply Forall_cons; [now left|]. apply Forall_cons; [now right|]. constructor.
Qed.
Print Assumptions C32_last_cap_wins.
Print Assumptions C32_reset_gives_cpu_count.
Print Assumptions C32_without_effective_call.
Print Assumptions C32_cases_cover_every_history.
Print Assumptions C32_no_effect_keeps_state.
Print Assumptions C32_rejects_exactly_other_types.
Print Assumptions C32_argument_wins.
Print Assumptions C32_environment_number.
Print Assumptions C32_environment_other_text.

(** C33: whatever order the workers finish in, the outcome is that of the sequential loop *)
Theorem C33_pool_equals_loop : forall V B (unpack : V -> option (list V)) expandarg (func : list V -> res B) fixed args workers n s r,
  unpackable unpack expandarg args ->
  pool_run unpack expandarg func fixed args workers n s -> ps_out s = Some r ->
  loop_outcome unpack expandarg func fixed args r.
Proof. exact @pool_outcome. Qed.
(** also without workers; and the loop has one outcome only *)
Theorem C33_no_workers_equals_loop : forall V B (unpack : V -> option (list V)) expandarg (func : list V -> res B) fixed args,
  unpackable unpack expandarg args ->
  loop_outcome unpack expandarg func fixed args (seq_call unpack expandarg func fixed args).
Proof. exact @seq_call_outcome. Qed.
Theorem C33_loop_outcome_unique : forall V B (unpack : V -> option (list V)) expandarg (func : list V -> res B) fixed args r q,
  loop_outcome unpack expandarg func fixed args r -> loop_outcome unpack expandarg func fixed args q -> r = q.
Proof. exact @outcome_unique. Qed.
Theorem C33_every_run_ends : forall V B (unpack : V -> option (list V)) expandarg (func : list V -> res B) fixed args workers n s,
  pool_run unpack expandarg func fixed args workers n s -> (n <= 4 * List.length args + 1)%nat.
Proof. exact @steps_bounded. Qed.
Theorem C33_never_stuck : forall V B (unpack : V -> option (list V)) expandarg (func : list V -> res B) fixed args workers n s,
  (1 <= workers)%nat -> pool_run unpack expandarg func fixed args workers n s -> ps_out s = None ->
  exists s', pool_step unpack expandarg func fixed args workers s s'.
Proof. exact @progress. Qed.
Theorem C33_each_call_at_most_once : forall V B (unpack : V -> option (list V)) expandarg (func : list V -> res B) fixed args workers n s,
  pool_run unpack expandarg func fixed args workers n s -> NoDup (ps_calls s).
Proof. exact @calls_once. Qed.
Theorem C33_all_calls_made_on_return : forall V B (unpack : V -> option (list V)) expandarg (func : list V -> res B) fixed args workers n s bs,
  pool_run unpack expandarg func fixed args workers n s -> ps_out s = Some (Ok bs) ->
  ps_calls s = seq 0 (List.length args).
Proof. exact @calls_complete. Qed.
(** without the unpackable hypothesis: an argument that cannot be star-unpacked is reported before the failure of an earlier call *)
Theorem C33_unpackable_is_needed :
  let unpack (v : nat) := match v with 0%nat => Some [0%nat] | _ => None end in
  let func (_ : list nat) : res nat := Raise ValueError in
  seq_call unpack true func [] [0%nat; 1%nat] = Raise ValueError /\
  (forall w n s r, pool_run unpack true func [] [0%nat; 1%nat] w n s -> ps_out s = Some r -> r = Raise TypeError).
Proof. exact submit_first. Qed.
(** a run in which the second call finishes before the first *)
Example C33_nonvacuous : exists n s,
  pool_run (fun v : nat => Some [v]) true (fun l => Ok (List.length l)) [7%nat] [3%nat; 4%nat] 2 n s /\
  ps_out s = Some (Ok [2%nat; 2%nat]).
Proof.
  pose (st := @pool_step nat nat (fun v => Some [v]) true (fun l => Ok (List.length l)) [7%nat] [3%nat; 4%nat] 2).
  do 2 eexists. split.
  - eapply run_step. eapply run_step. eapply run_step. eapply run_step. eapply run_step.
    eapply run_step. eapply run_step. eapply run_step. eapply run_step. apply run_start.
    + eapply step_submit; reflexivity.
    + eapply step_submit; reflexivity.
    + apply (step_start _ _ _ _ _ _ _ 0); [reflexivity|intros; lia|cbv; lia].
    + apply (step_start _ _ _ _ _ _ _ 1); [reflexivity|intros j J; destruct j as [|j]; [discriminate|lia]|cbv; lia].
    + eapply (step_finish _ _ _ _ _ _ _ 1); reflexivity.
    + eapply (step_finish _ _ _ _ _ _ _ 0); reflexivity.
    + eapply step_gather; reflexivity.
    + eapply step_gather; reflexivity.
    + eapply step_return; reflexivity.
  - reflexivity.
Qed.
Print Assumptions C33_pool_equals_loop.
Print Assumptions C33_no_workers_equals_loop.
Print Assumptions C33_loop_outcome_unique.
Print Assumptions C33_every_run_ends.
Print Assumptions C33_never_stuck.
Print Assumptions C33_each_call_at_most_once.
Print Assumptions C33_all_calls_made_on_return.
Print Assumptions C33_unpackable_is_needed.

(** C34 *)
Theorem C34_process_cap_partial : forall V B (unpack : V -> option (list V)) expandarg (func : list V -> res B) fixed args cpus cap e workers n s,
  1 <= cap -> pool_size ProcessPool cpus (Some cap) e = Ok workers ->
  pool_run unpack expandarg func fixed args workers n s -> Z.of_nat (running (ps_futures s)) <= cap.
Proof. exact @cap_respected. Qed.
Theorem C34_bad_cap_rejected : forall cpus cap e, cap < 1 -> pool_size ProcessPool cpus (Some cap) e = Raise ValueError.
Proof. exact process_size_bad. Qed.
(** thread workers ignore the cap *)
Theorem C34_thread_cap_refuted : forall V B (unpack : V -> option (list V)) (func : list V -> res B) fixed args cpus cap e workers,
  1 <= cpus -> cap < Z.min 32 (cpus + 4) -> Z.min 32 (cpus + 4) <= Z.of_nat (List.length args) ->
  pool_size ThreadPool cpus (Some cap) e = Ok workers ->
  exists n s, pool_run unpack false func fixed args workers n s /\ cap < Z.of_nat (running (ps_futures s)).
Proof. exact @cap_ignored. Qed.
(** which values of workers select threads, processes and no pool *)
Theorem C34_threads_selected : forall s, worker_kind (WStr s) = ThreadPool <-> thread_word s.
Proof. exact thread_iff. Qed.
Theorem C34_processes_selected : forall w, worker_kind w = ProcessPool <->
  w = WBool true \/ exists s, w = WStr s /\ s <> ""%string /\ ~ thread_word s.
Proof. exact process_iff. Qed.
Theorem C34_no_pool_selected : forall w, worker_kind w = NoPool <-> w = WBool false \/ w = WStr "".
Proof. exact nopool_iff. Qed.
Example C34_nonvacuous : worker_kind (WStr "Threads") = ThreadPool /\ worker_kind (WBool true) = ProcessPool /\
  pool_size ThreadPool 4 (Some 1) None = Ok 8%nat /\ pool_size ProcessPool 4 (Some 1) None = Ok 1%nat.
Proof. repeat split; reflexivity. Qed.
Print Assumptions C34_process_cap_partial.
Print Assumptions C34_bad_cap_rejected.
Print Assumptions C34_thread_cap_refuted.
Print Assumptions C34_threads_selected.
Print Assumptions C34_processes_selected.
Print Assumptions C34_no_pool_selected.
