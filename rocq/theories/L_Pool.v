From Coq Require Import List Lia Arith.
From Verif Require Import Base M_Utility S_Utility L_Utility L_Utility2 M_Pool S_Pool.
Import ListNotations.

Section Pool.
Context {V B : Type}.
Variable unpack : V -> option (list V).
Variable expandarg : bool.
Variable func : list V -> res B.
Variables fixed args : list V.
Variable w : nat.
Notation ca := (call_args unpack expandarg fixed).
Notation seqc := (seq_call unpack expandarg func fixed).
Notation step := (pool_step unpack expandarg func fixed args w).
Notation run := (pool_run unpack expandarg func fixed args w).
Notation bstep := (broken_step unpack expandarg fixed args).
Notation brun := (broken_run unpack expandarg fixed args).
Notation inv := (inv unpack expandarg func fixed args).
Notation okc := (okcall unpack expandarg func fixed).

Lemma nth_give_up (l : list (future B)) i : nth_error (map give_up l) i = option_map give_up (nth_error l i).
Proof. revert i. induction l as [|f l IH]; intros [|i]; cbn; auto. Qed.
Record binv (s0 s : pool_state B) : Prop := {
  bi_fut : ps_futures s = map give_up (ps_futures s0);
  bi_calls : ps_calls s = ps_calls s0;
  bi_res : Forall2 okc (firstn (length (ps_results s)) args) (ps_results s);
  bi_len : length (ps_results s) <= length args;
  bi_out : forall r, ps_out s = Some r -> r = seqc args \/ (r = Raise TypeError /\ exists a, In a args /\ ca a = None) \/
           (r = Raise BrokenProcessPool /\ exists i, i < length args /\ ~ finished s0 i) }.
Lemma binv_start s0 : inv s0 -> binv s0 (broken s0).
Proof.
  intros [I1 I2 I3 I4 I5 I6 I7 I8]. split; cbn [broken ps_futures ps_results ps_out ps_calls]; auto.
  intros r H. destruct (I6 r H); auto.
Qed.
Lemma binv_step s0 s s' : inv s0 -> binv s0 s -> bstep s s' -> binv s0 s'.
Proof.
  intros I [F C R L O] S. destruct I as [I1 I2 I3 _ _ _ _ _].
  destruct S as [s a l E N Ca|s a E N Ca|s b E Le N|s e E Le N|s E Le]; split; cbn [ps_futures ps_results ps_out ps_calls]; auto.
  - intros r [= <-]. right. right. split; [reflexivity|]. exists (length (ps_futures s)). split; [apply nth_error_Some; congruence|].
    intros [r K]. assert (length (ps_futures s) < length (ps_futures s0)) by (apply nth_error_Some; congruence). rewrite F, map_length in H. lia.
  - intros r [= <-]. right. left. split; [reflexivity|]. exists a. split; [eapply nth_error_In; eauto|exact Ca].
  - rewrite F, nth_give_up in N. destruct (nth_error (ps_futures s0) (length (ps_results s))) as [f|] eqn:Q; [|discriminate N]. cbn in N. destruct f as [| |r]; [discriminate N|discriminate N|]. injection N as ->.
    destruct (I3 _ _ Q) as (a & l & Na & Cc & Fe).
    rewrite app_length. cbn [length]. rewrite Nat.add_1_r, (firstn_snoc _ _ _ Na). apply Forall2_app; [exact R|]. constructor; [|constructor]. exists l. auto.
  - rewrite app_length. cbn [length]. assert (length (ps_results s) < length args); [|lia]. rewrite <- Le. apply nth_error_Some. congruence.
  - discriminate.
  - intros r [= <-]. rewrite F, nth_give_up in N. destruct (nth_error (ps_futures s0) (length (ps_results s))) as [f|] eqn:Q; [|discriminate N]. cbn in N.
    assert (length (ps_results s) < length args) as LL. { rewrite <- Le, F, map_length. apply nth_error_Some. congruence. }
    destruct f as [| |r]; cbn in N.
    + injection N as <-. right. right. split; [reflexivity|]. exists (length (ps_results s)). split; [exact LL|]. intros [r K]. congruence.
    + injection N as <-. right. right. split; [reflexivity|]. exists (length (ps_results s)). split; [exact LL|]. intros [r K]. congruence.
    + injection N as ->. destruct (I3 _ _ Q) as (a & l & Na & Cc & Fe). left. rewrite (split_nth _ _ _ Na). symmetry. eapply seq_fail; eauto.
  - intros r [= <-]. left. rewrite Le, firstn_all in R. symmetry. now apply seq_ok.
Qed.
Lemma binv_run s0 k s : inv s0 -> brun s0 k s -> binv s0 s.
Proof. intros I. induction 1; [now apply binv_start|eapply binv_step; eauto]. Qed.

Lemma broken_outcome n s0 k s r : unpackable unpack expandarg args -> run n s0 -> brun s0 k s -> ps_out s = Some r ->
  loop_outcome unpack expandarg func fixed args r \/ (r = Raise BrokenProcessPool /\ exists i, i < length args /\ ~ finished s0 i).
Proof.
  intros U R K O. destruct (bi_out _ _ (binv_run _ _ _ (inv_run _ _ _ _ _ _ _ _ R) K) r O) as [->|[[_ (a & A & N)]|H]]; [left; now apply seq_call_outcome| |now right].
  exfalso. exact (unpackable_ca _ _ _ _ U a A N).
Qed.
Lemma broken_none_lost n s0 k s r : unpackable unpack expandarg args -> run n s0 -> all_finished args s0 -> brun s0 k s -> ps_out s = Some r ->
  loop_outcome unpack expandarg func fixed args r.
Proof. intros U R A K O. destruct (broken_outcome n s0 k s r U R K O) as [H|(_ & i & I & N)]; [exact H|]. exfalso. apply N, A, I. Qed.
Lemma broken_calls n s0 k s : run n s0 -> brun s0 k s -> ps_calls s = ps_calls s0 /\ forall i f, nth_error (ps_futures s) i = Some f -> exists r, f = Done r.
Proof.
  intros R K. pose proof (binv_run _ _ _ (inv_run _ _ _ _ _ _ _ _ R) K) as [F C _ _ _]. split; [exact C|]. intros i f H. rewrite F, nth_give_up in H.
  destruct (nth_error (ps_futures s0) i) as [g|]; [|discriminate]. cbn in H. injection H as <-. destruct g; cbn; eauto.
Qed.
Lemma broken_ends n s0 k s : run n s0 -> brun s0 k s -> k <= length args + 1.
Proof.
  intros R K. pose proof (inv_run _ _ _ _ _ _ _ _ R) as I.
  enough (k + (length args - length (ps_results s)) + (match ps_out s with None => 1 | Some _ => 0 end) <= length args + 1) by lia.
  induction K as [|k s s' K IH S]; [cbn [broken ps_results ps_out]; destruct (ps_out s0); lia|].
  pose proof (bi_len _ _ (binv_step _ _ _ I (binv_run _ _ _ I K) S)) as L.
  destruct S as [s a l E N Ca|s a E N Ca|s b E Le N|s e E Le N|s E Le]; cbn [ps_futures ps_results ps_out ps_calls] in *; rewrite E in IH; try lia.
  rewrite app_length in *. cbn [length] in *. lia.
Qed.
Lemma broken_progress n s0 k s : run n s0 -> brun s0 k s -> ps_out s = None -> exists s', bstep s s'.
Proof.
  intros R K O. pose proof (inv_run _ _ _ _ _ _ _ _ R) as I. pose proof (binv_run _ _ _ I K) as [F C Re L _].
  destruct (nth_error args (length (ps_futures s))) as [a|] eqn:Na.
  { destruct (ca a) as [l|] eqn:Cc; eexists; [eapply broken_submit|eapply broken_submit_error]; eauto. }
  apply nth_error_None in Na. assert (length (ps_futures s) = length args) as E. { pose proof (iv_len _ _ _ _ _ _ I). rewrite F, map_length in *. lia. }
  destruct (Nat.eq_dec (length (ps_results s)) (length args)) as [Q|Q]; [eexists; eapply broken_return; eauto|].
  destruct (nth_error (ps_futures s) (length (ps_results s))) as [f|] eqn:N; [|apply nth_error_None in N; lia].
  destruct (broken_calls n s0 k s R K) as [_ D]. destruct (D _ _ N) as [[b|e] ->]; eexists; [eapply broken_gather|eapply broken_gather_error]; eauto.
Qed.

(** the end of pool_call *)
Lemma returned_idle n s bs : run n s -> ps_out s = Some (Ok bs) -> all_finished args s /\ length (ps_futures s) = length args.
Proof.
  intros R O. pose proof (inv_run _ _ _ _ _ _ _ _ R) as I. destruct (iv_full _ _ _ _ _ _ I _ O) as [A Bl]. pose proof (iv_len _ _ _ _ _ _ I).
  split; [|lia]. intros i Hi. apply (iv_resdone _ _ _ _ _ _ I). lia.
Qed.
Lemma all_made n s : 1 <= w -> unpackable unpack expandarg args -> run n s -> (forall s', ~ step s s') ->
  all_finished args s /\ ps_calls s = seq 0 (length args).
Proof.
  intros W U R E. pose proof (inv_run _ _ _ _ _ _ _ _ R) as I.
  assert (exists r, ps_out s = Some r) as [r O]. { destruct (ps_out s) as [r|] eqn:O; [eauto|]. destruct (progress _ _ _ _ _ _ _ _ W R O) as [s' S]. now apply E in S. }
  assert (length (ps_futures s) = length args) as L.
  { clear E. revert r O. clear W I. induction R as [|n s s' R IH S]; intros r O; [discriminate|].
    destruct S as [s a l Q N Ca|s a Q N Ca|s i N M Wk|s i a l N Na Ca|s b Q Le N|s e Q Le N|s Q Le]; cbn [ps_futures ps_results ps_out ps_calls] in *; try discriminate; rewrite ?set_nth_length; eauto.
    - exfalso. exact (unpackable_ca _ _ _ _ U a (nth_error_In _ _ N) Ca).
    - destruct (iv_full _ _ _ _ _ _ (inv_run _ _ _ _ _ _ _ _ (run_step _ _ _ _ _ _ _ _ _ R (step_return _ _ _ _ _ _ _ Q Le))) _ eq_refl) as [_ X].
      pose proof (iv_len _ _ _ _ _ _ (inv_run _ _ _ _ _ _ _ _ R)). cbn [ps_futures] in X. lia. }
  assert (running (ps_futures s) = 0) as Z.
  { destruct (first_running (ps_futures s)) as [[i A]|Z]; [exfalso|exact Z].
    destruct (nth_error args i) as [a|] eqn:Na. 2:{ apply nth_error_None in Na. assert (i < length (ps_futures s)) by (apply nth_error_Some; congruence). lia. }
    destruct (ca a) as [l|] eqn:Ca; [|exact (iv_sub _ _ _ _ _ _ I _ _ _ A Na Ca)]. eapply E. eapply step_finish; eauto. }
  assert (forall i, nth_error (ps_futures s) i <> Some Pending) as P.
  { destruct (first_pending (ps_futures s)) as [(i & A & M)|P]; [exfalso|exact P]. eapply E. eapply step_start; eauto. lia. }
  assert (all_finished args s) as A.
  { intros i Hi. destruct (nth_error (ps_futures s) i) as [f|] eqn:N; [|apply nth_error_None in N; lia]. destruct f as [| |q]; [now apply P in N| |now exists q].
    exfalso. assert (In Running (filter is_running (ps_futures s))) as IN by (apply filter_In; split; [eapply nth_error_In; eauto|reflexivity]).
    unfold running in Z. destruct (filter is_running (ps_futures s)); [destruct IN|discriminate]. }
  split; [exact A|]. destruct (calls_prefix _ _ _ _ _ _ _ _ R) as (k & Ek & K & ST). rewrite Ek. f_equal.
  destruct (Nat.lt_ge_cases k (length args)) as [Lk|Lk]; [|lia]. destruct (A k Lk) as [q Q]. apply ST in Q. cbn in Q. assert (k < k) by tauto. lia.
Qed.
Lemma submit_all : unpackable unpack expandarg args -> forall m, m <= length args -> run m (PS (repeat Pending m) [] None []).
Proof.
  intros U. induction m as [|m IH]; intros M; [apply run_start|]. eapply run_step; [apply IH; lia|].
  destruct (nth_error args m) as [a|] eqn:N; [|apply nth_error_None in N; lia]. destruct (ca a) as [l|] eqn:C; [|exfalso; exact (unpackable_ca _ _ _ _ U a (nth_error_In _ _ N) C)].
  replace (repeat Pending (S m)) with (repeat (@Pending B) m ++ [Pending]). 2:{ clear. induction m as [|m IH]; [reflexivity|]. cbn [repeat app]. now rewrite IH. }
  apply (step_submit unpack expandarg func fixed args w (PS (repeat Pending m) [] None []) a l); [reflexivity|cbn [ps_futures]; now rewrite repeat_length|exact C].
Qed.
Lemma goes_on a b rest l e : 1 <= w -> unpackable unpack expandarg args -> args = a :: b :: rest -> ca a = Some l -> func l = Raise e ->
  exists n s s', run n s /\ ps_out s = Some (Raise e) /\ ps_calls s = [0] /\ step s s' /\ ps_calls s' = [0; 1].
Proof.
  intros W U A C F. pose proof (submit_all U (length args) (le_n _)) as R.
  pose proof (repeat_length (@Pending B) (length rest)) as RL. set (p := repeat Pending (length rest)) in *.
  replace (repeat (@Pending B) (length args)) with (Pending :: Pending :: p) in R by (unfold p; now rewrite A). rename R into R0.
  assert (Z : running p = 0). { unfold p, running. clear. induction (length rest); cbn; auto. }
  assert (running (Pending :: Pending :: p) = 0) as Z0 by exact Z.
  assert (R1 : run (S (length args)) (PS (Running :: Pending :: p) [] None [0])).
  { eapply run_step; [exact R0|]. apply (step_start unpack expandarg func fixed args w (PS (Pending :: Pending :: p) [] None []) 0); [reflexivity|lia|cbn [ps_futures]; lia]. }
  assert (R2 : run (S (S (length args))) (PS (Done (Raise e) :: Pending :: p) [] None [0])).
  { eapply run_step; [exact R1|]. rewrite <- F. apply (step_finish unpack expandarg func fixed args w (PS (Running :: Pending :: p) [] None [0]) 0 a l); [reflexivity|now rewrite A|exact C]. }
  eexists. exists (PS (Done (Raise e) :: Pending :: p) [] (Some (Raise e)) [0]). eexists. split.
  { eapply run_step; [exact R2|]. apply (step_gather_error unpack expandarg func fixed args w (PS (Done (Raise e) :: Pending :: p) [] None [0]) e); [reflexivity| |reflexivity].
    cbn [ps_futures length]. rewrite A, RL. reflexivity. }
  split; [reflexivity|]. split; [reflexivity|]. split.
  { apply (step_start unpack expandarg func fixed args w (PS (Done (Raise e) :: Pending :: p) [] (Some (Raise e)) [0]) 1); [reflexivity| |].
    - intros j J. assert (j = 0) as -> by lia. discriminate.
    - cbn [ps_futures]. change (running (Done (Raise e) :: Pending :: p)) with (running p). lia. }
  reflexivity.
Qed.
End Pool.
