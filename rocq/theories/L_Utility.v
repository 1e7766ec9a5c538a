From Coq Require Import Lia Ascii Arith.
From Verif Require Import Base M_Utility S_Utility.
Local Open Scope Z_scope.

(** * decimal printing and parsing *)
Lemma digit_char_ok d : 0 <= d < 10 -> digit (digit_char d) = Some d /\ is_space (digit_char d) = false /\
  digit_char d <> "_"%char /\ digit_char d <> "-"%char /\ digit_char d <> "+"%char.
Proof.
  intros H. assert (d = 0 \/ d = 1 \/ d = 2 \/ d = 3 \/ d = 4 \/ d = 5 \/ d = 6 \/ d = 7 \/ d = 8 \/ d = 9) as E by lia.
  repeat (destruct E as [E|E]; [subst; repeat split; try reflexivity; discriminate|]).
  subst; repeat split; try reflexivity; discriminate.
Qed.

Lemma digits_from_cons acc d l : 0 <= d < 10 -> digits_from acc (digit_char d :: l) = digits_from (10 * acc + d) l.
Proof.
  intros H. destruct (digit_char_ok d H) as (A & _ & B & _). cbn [digits_from].
  destruct (digit_char d) as [b0 b1 b2 b3 b4 b5 b6 b7] eqn:E.
  destruct b0, b1, b2, b3, b4, b5, b6, b7; try (now rewrite A); exfalso; apply B; reflexivity.
Qed.

Fixpoint all_digits (l : list ascii) : Prop :=
  match l with [] => True | c :: l => (exists d, 0 <= d < 10 /\ c = digit_char d) /\ all_digits l end.

Lemma print_pos_all fuel : forall n acc, 0 <= n -> all_digits acc -> all_digits (print_pos fuel n acc).
Proof.
  induction fuel as [|k IH]; intros n acc N A; [exact A|]. cbn [print_pos].
  assert (all_digits (digit_char (n mod 10) :: acc)) as D.
  { split; [|exact A]. exists (n mod 10). split; [apply Z.mod_pos_bound; lia|reflexivity]. }
  destruct (n <? 10); [exact D|]. apply IH; [apply Z.div_pos; lia|exact D].
Qed.

Lemma log2_div10 n : 10 <= n -> Z.log2 (n / 10) < Z.log2 n.
Proof.
  intros H. apply Z.log2_lt_pow2; [apply Z.div_str_pos; lia|].
  pose proof (Z.log2_spec n ltac:(lia)) as [A B]. 
  apply Z.div_lt_upper_bound; [lia|]. rewrite Z.pow_succ_r in B by (apply Z.log2_nonneg). lia.
Qed.

Lemma print_pos_value fuel : forall n acc m, 0 <= n -> (Z.to_nat (Z.log2 n) < fuel)%nat -> all_digits acc ->
  exists k, 0 <= k /\ digits_from m (print_pos fuel n acc) = digits_from (m * 10 ^ k + n) acc.
Proof.
  induction fuel as [|f IH]; intros n acc m N F A; [lia|]. cbn [print_pos].
  pose proof (Z.mod_pos_bound n 10 ltac:(lia)) as MB.
  destruct (Z.ltb_spec n 10) as [L|L].
  - exists 1. split; [lia|]. rewrite digits_from_cons by exact MB. rewrite Z.mod_small by lia. f_equal. lia.
  - destruct (IH (n / 10) (digit_char (n mod 10) :: acc) m) as [k [K E]].
    + apply Z.div_pos; lia.
    + pose proof (log2_div10 n L). pose proof (Z.log2_nonneg (n / 10)). lia.
    + split; [exists (n mod 10); auto|exact A].
    + exists (k + 1). split; [lia|]. rewrite E, digits_from_cons by exact MB. f_equal.
      rewrite Z.pow_add_r by lia. pose proof (Z.div_mod n 10 ltac:(lia)). lia.
Qed.

Lemma print_pos_nonnil fuel : forall n acc, acc <> [] \/ (0 < fuel)%nat -> print_pos fuel n acc <> [].
Proof.
  induction fuel as [|f IH]; intros n acc H; cbn [print_pos]; [destruct H; [assumption|lia]|].
  destruct (n <? 10); [discriminate|]. apply IH. left; discriminate.
Qed.

Lemma lstrip_nospace c l : is_space c = false -> lstrip (c :: l) = c :: l.
Proof. intros H; cbn [lstrip]; now rewrite H. Qed.

Lemma strip_digits l : all_digits l -> strip l = l.
Proof.
  intros A. unfold strip.
  assert (lstrip l = l) as E.
  { destruct l as [|c l]; [reflexivity|]. destruct A as [[d [D ->]] _]. apply lstrip_nospace. now apply digit_char_ok. }
  rewrite E. assert (lstrip (rev l) = rev l) as E2; [|rewrite E2; apply rev_involutive].
  destruct (rev l) as [|c l'] eqn:R; [reflexivity|]. apply lstrip_nospace.
  assert (In c l) as I. { apply in_rev. rewrite R. now left. }
  clear -A I. induction l as [|x l IH]; [destruct I|]. destruct A as [[d [D ->]] A], I as [<-|I]; [now apply digit_char_ok|auto].
Qed.

Lemma digits_str n : 0 <= n -> digits (print_pos (S (Z.to_nat (Z.log2 n))) n []) = Some n.
Proof.
  intros N. set (p := print_pos _ n []).
  assert (all_digits p) as A by (apply print_pos_all; simpl; auto).
  destruct (print_pos_value (S (Z.to_nat (Z.log2 n))) n [] 0 N ltac:(lia) I) as [k [K E]]. fold p in E.
  assert (p <> []) as NN by (apply print_pos_nonnil; right; lia).
  unfold digits. destruct p as [|c l]; [congruence|]. destruct A as [[d [D ->]] _].
  destruct (digit_char_ok d D) as [-> _]. rewrite E. reflexivity.
Qed.

Lemma py_int_str n : 0 <= n -> py_int (py_str n) = Some n.
Proof.
  intros N. unfold py_str. destruct (Z.ltb_spec n 0) as [L|_]; [lia|].
  pose proof (digits_str n N) as DS. set (p := print_pos _ n []) in *.
  assert (all_digits p) as A by (apply print_pos_all; simpl; auto).
  unfold py_int. rewrite strip_digits by exact A.
  destruct p as [|c l]; [exact DS|]. destruct A as [[d [D ->]] _].
  destruct (digit_char_ok d D) as (_ & _ & _ & B & C).
  destruct (digit_char d) as [b0 b1 b2 b3 b4 b5 b6 b7].
  destruct b0, b1, b2, b3, b4, b5, b6, b7; try exact DS; exfalso; (apply B; reflexivity) || (apply C; reflexivity).
Qed.

(** * process cap *)
Lemma no_effect_step o e : no_effect o -> nproc_step e o = e.
Proof. intros [->| ->]; reflexivity. Qed.
Lemma no_effect_run l : forall e, Forall no_effect l -> nproc_run l e = e.
Proof.
  induction l as [|o l IH]; intros e F; [reflexivity|]. inversion F; subst. cbn [nproc_run fold_left].
  rewrite no_effect_step by assumption. apply IH; assumption.
Qed.
Lemma run_last h o e : last_effective h o -> exists e', nproc_run h e = nproc_step e' o.
Proof.
  intros (b & a & -> & _ & F). exists (nproc_run b e). unfold nproc_run. rewrite fold_left_app. cbn [fold_left].
  exact (no_effect_run a _ F).
Qed.

Lemma cap_set cpus h n e : 1 <= n -> last_effective h (OpSet (ArgInt n)) -> get_nproc cpus None (nproc_run h e) = n.
Proof.
  intros N L. destruct (run_last _ _ e L) as [e' ->]. cbn [nproc_step set_nproc].
  destruct (Z.ltb_spec n 1) as [B|B]; [lia|]. cbn [fst get_nproc]. rewrite py_int_str by lia. reflexivity.
Qed.
Lemma cap_reset cpus h o e : resets o -> last_effective h o -> get_nproc cpus None (nproc_run h e) = cpus.
Proof.
  intros R L. destruct (run_last _ _ e L) as [e' ->]. destruct R as [->|[n [N ->]]]; [reflexivity|].
  cbn [nproc_step set_nproc]. destruct (Z.ltb_spec n 1) as [B|B]; [reflexivity|lia].
Qed.
Lemma cap_none cpus h e : Forall no_effect h -> get_nproc cpus None (nproc_run h e) = get_nproc cpus None e.
Proof. intros F. now rewrite no_effect_run. Qed.

Lemma no_effect_dec o : {no_effect o} + {~ no_effect o}.
Proof.
  destruct o as [[|n|]|]; [left; now left|right; intros [?|?]; congruence|left; now right|right; intros [?|?]; congruence].
Qed.
Lemma effective_or_not h : Forall no_effect h \/ exists o, last_effective h o.
Proof.
  induction h as [|o h IH] using rev_ind; [left; constructor|].
  destruct (no_effect_dec o) as [N|N].
  - destruct IH as [F|[x (b & a & -> & X & F)]].
    + left. apply Forall_app. auto.
    + right. exists x. exists b, (a ++ [o]). rewrite <- app_assoc. split; [reflexivity|]. split; [exact X|]. apply Forall_app; auto.
  - right. exists o. exists h, []. auto.
Qed.
Lemma effective_kinds o : ~ no_effect o -> resets o \/ exists n, 1 <= n /\ o = OpSet (ArgInt n).
Proof.
  intros N. destruct o as [[|n|]|]; try (exfalso; apply N; (now left) || (now right)).
  - destruct (Z_lt_le_dec n 1) as [L|L]; [left; right; eauto|right; eauto].
  - left; now left.
Qed.
Lemma cap_total h : Forall no_effect h \/ (exists o, resets o /\ last_effective h o) \/
  exists n, 1 <= n /\ last_effective h (OpSet (ArgInt n)).
Proof.
  destruct (effective_or_not h) as [F|[o L]]; [auto|]. right.
  assert (~ no_effect o) as N by (destruct L as (b & a & _ & N & _); exact N).
  destruct (effective_kinds o N) as [R|[n [? ->]]]; eauto.
Qed.
Lemma set_rejects a e : snd (set_nproc a e) = Some ValueError <-> a = ArgOther.
Proof. destruct a as [|n|]; cbn; [split; discriminate| |tauto]. destruct (n <? 1); split; discriminate. Qed.

(** * pool_call *)
Section Pool.
Context {V B : Type}.
Variable unpack : V -> option (list V).
Variable expandarg : bool.
Variable func : list V -> res B.
Variables fixed args : list V.
Variable w : nat.
Notation ca := (call_args unpack expandarg fixed).
Notation seqc := (seq_call unpack expandarg func fixed).
Notation step := (pool_step unpack expandarg func fixed args w).
Notation run := (pool_run unpack expandarg func fixed args w).
Definition okcall (a : V) (b : B) : Prop := exists l, ca a = Some l /\ func l = Ok b.

Lemma seq_ok : forall xs bs, Forall2 okcall xs bs -> seqc xs = Ok bs.
Proof.
  induction 1 as [|a b xs bs [l [E F]] _ IH]; [reflexivity|]. cbn [seq_call]. rewrite E, F. cbn [bind]. rewrite IH. reflexivity.
Qed.
Lemma seq_fail : forall xs bs a l e ys, Forall2 okcall xs bs -> ca a = Some l -> func l = Raise e ->
  seqc (xs ++ a :: ys) = Raise e.
Proof.
  induction 1 as [|x b xs bs [m [E F]] _ IH]; intros C D; cbn [app seq_call].
  - rewrite C, D. reflexivity.
  - rewrite E, F. cbn [bind]. rewrite IH by assumption. reflexivity.
Qed.

Lemma set_nth_length {A} (l : list A) : forall i x, List.length (set_nth l i x) = List.length l.
Proof. induction l; intros [|i] x; simpl; auto. Qed.
Lemma set_nth_same {A} (l : list A) : forall i x y, nth_error l i = Some y -> nth_error (set_nth l i x) i = Some x.
Proof. induction l; intros [|i] x y H; simpl in *; try discriminate; eauto. Qed.
Lemma set_nth_other {A} (l : list A) : forall i j x, i <> j -> nth_error (set_nth l i x) j = nth_error l j.
Proof. induction l; intros [|i] [|j] x H; simpl; try reflexivity; try congruence. apply IHl. congruence. Qed.
Lemma set_nth_inv {A} (l : list A) i j x y : nth_error (set_nth l i x) j = Some y ->
  (i = j /\ y = x) \/ (i <> j /\ nth_error l j = Some y).
Proof.
  intros H. destruct (Nat.eq_dec i j) as [->|N].
  - left. split; [reflexivity|]. destruct (nth_error l j) as [z|] eqn:E.
    + rewrite (set_nth_same _ _ _ _ E) in H. congruence.
    + apply nth_error_None in E. assert (nth_error (set_nth l j x) j <> None) as N by congruence.
      apply nth_error_Some in N. rewrite set_nth_length in N. lia.
  - right. rewrite set_nth_other in H by exact N. auto.
Qed.

Record inv (s : pool_state B) : Prop := {
  iv_len : (List.length (ps_futures s) <= List.length args)%nat;
  iv_sub : forall i f a, nth_error (ps_futures s) i = Some f -> nth_error args i = Some a -> ca a <> None;
  iv_done : forall i r, nth_error (ps_futures s) i = Some (Done r) ->
            exists a l, nth_error args i = Some a /\ ca a = Some l /\ r = func l;
  iv_res : Forall2 okcall (firstn (List.length (ps_results s)) args) (ps_results s);
  iv_reslen : (List.length (ps_results s) <= List.length args)%nat;
  iv_out : forall r, ps_out s = Some r ->
           r = seqc args \/ (r = Raise TypeError /\ exists a, In a args /\ ca a = None);
  iv_full : forall bs, ps_out s = Some (Ok bs) -> List.length (ps_results s) = List.length args /\ (List.length args <= List.length (ps_futures s))%nat;
  iv_resdone : forall i, (i < List.length (ps_results s))%nat -> exists r, nth_error (ps_futures s) i = Some (Done r)
}.

Lemma firstn_snoc (l : list V) : forall n a, nth_error l n = Some a -> firstn (S n) l = firstn n l ++ [a].
Proof.
  induction l as [|x l IH]; intros [|n] a H; simpl in H; try discriminate; [inversion H; reflexivity|].
  cbn [firstn app]. f_equal. apply IH. exact H.
Qed.
Lemma split_nth (l : list V) : forall n a, nth_error l n = Some a -> l = firstn n l ++ a :: skipn (S n) l.
Proof.
  induction l as [|x l IH]; intros [|n] a H; simpl in H; try discriminate; [inversion H; reflexivity|].
  cbn [firstn app skipn]. f_equal. apply IH. exact H.
Qed.

Lemma inv_init : inv pool_init.
Proof.
  split; simpl; try (intros; discriminate); try lia; try constructor.
  - intros [|i] f a H; discriminate.
  - intros [|i] r H; discriminate.
Qed.

Lemma nth_app_snoc {A} (l : list A) x i y : nth_error (l ++ [x]) i = Some y ->
  nth_error l i = Some y \/ (i = List.length l /\ y = x).
Proof.
  intros H. destruct (Nat.lt_ge_cases i (List.length l)) as [L|L].
  - rewrite nth_error_app1 in H by exact L. auto.
  - rewrite nth_error_app2 in H by exact L. destruct (i - List.length l)%nat as [|k] eqn:E; [|destruct k; discriminate].
    right. split; [lia|]. simpl in H. congruence.
Qed.

Lemma inv_step s s' : inv s -> step s s' -> inv s'.
Proof.
  intros I S. destruct S as [s a l O N C|s a O N C|s i N M W|s i a l N Na C|s b O L N|s e O L N|s O L];
    destruct I as [I1 I2 I3 I4 I5 I6 I7 I8]; cbn [ps_futures ps_results ps_out ps_calls] in *.
  - split; cbn [ps_futures ps_results ps_out]; auto; try discriminate.
    + rewrite app_length. simpl. assert (List.length (ps_futures s) < List.length args)%nat by (apply nth_error_Some; congruence). lia.
    + intros i f b H Hb. destruct (nth_app_snoc _ _ _ _ H) as [H'|[-> _]]; [eauto|]. congruence.
    + intros i r H. destruct (nth_app_snoc _ _ _ _ H) as [H'|[_ Q]]; [eauto|discriminate].
    + intros i Hi. destruct (I8 i Hi) as [r Hr]. exists r. rewrite nth_error_app1; [exact Hr|]. apply nth_error_Some. congruence.
  - split; cbn [ps_futures ps_results ps_out]; auto; try (intros; discriminate).
    intros r H. inversion H. right. split; [reflexivity|]. exists a. split; [eapply nth_error_In; eauto|exact C].
  - split; cbn [ps_futures ps_results ps_out]; auto.
    + now rewrite set_nth_length.
    + intros j f b H Hb. destruct (set_nth_inv _ _ _ _ _ H) as [[<- _]|[_ H']]; eauto.
    + intros j r H. destruct (set_nth_inv _ _ _ _ _ H) as [[_ Q]|[_ H']]; [discriminate|eauto].
    + intros bs Hb. rewrite set_nth_length. eauto.
    + intros j Hj. destruct (I8 j Hj) as [r Hr]. exists r. rewrite set_nth_other; [exact Hr|]. intros ->. congruence.
  - split; cbn [ps_futures ps_results ps_out]; auto.
    + now rewrite set_nth_length.
    + intros j f b H Hb. destruct (set_nth_inv _ _ _ _ _ H) as [[<- _]|[_ H']]; eauto.
    + intros j r H. destruct (set_nth_inv _ _ _ _ _ H) as [[<- Q]|[_ H']]; [|eauto]. inversion Q; subst. eauto.
    + intros bs Hb. rewrite set_nth_length. eauto.
    + intros j Hj. destruct (I8 j Hj) as [r Hr]. exists r. rewrite set_nth_other; [exact Hr|]. intros ->. congruence.
  - destruct (I3 _ _ N) as (a & l & Na & C & F).
    split; cbn [ps_futures ps_results ps_out]; auto; try discriminate.
    + rewrite app_length. cbn [List.length]. rewrite Nat.add_1_r, (firstn_snoc _ _ _ Na).
      apply Forall2_app; [exact I4|]. constructor; [|constructor]. exists l. auto.
    + rewrite app_length. simpl. assert (List.length (ps_results s) < List.length args)%nat by (apply nth_error_Some; congruence). lia.
    + intros i Hi. rewrite app_length in Hi. simpl in Hi. destruct (Nat.eq_dec i (List.length (ps_results s))) as [->|NE]; [eauto|].
      apply I8. lia.
  - destruct (I3 _ _ N) as (a & l & Na & C & F).
    split; cbn [ps_futures ps_results ps_out]; auto; try (intros; discriminate).
    intros r H. inversion H. left. rewrite (split_nth _ _ _ Na). symmetry. eapply seq_fail; eauto.
  - split; cbn [ps_futures ps_results ps_out]; auto; try (intros; discriminate).
    + intros r H. inversion H. left. rewrite L, firstn_all in I4. symmetry. now apply seq_ok.
    + intros bs _. split; [exact L|]. destruct (List.length args) as [|n] eqn:E; [lia|].
      destruct (I8 n) as [r Hr]; [lia|]. assert (n < List.length (ps_futures s))%nat by (apply nth_error_Some; congruence). lia.
Qed.

Lemma inv_run n s : run n s -> inv s.
Proof. induction 1; [apply inv_init|eapply inv_step; eauto]. Qed.

Lemma unpackable_ca : unpackable unpack expandarg args -> forall a, In a args -> ca a <> None.
Proof.
  intros U a H. unfold call_args. destruct expandarg; [|discriminate]. specialize (U eq_refl a H).
  destruct (unpack a); [discriminate|congruence].
Qed.

Lemma pool_equals_loop n s r : unpackable unpack expandarg args -> run n s -> ps_out s = Some r -> r = seqc args.
Proof.
  intros U R O. destruct (iv_out _ (inv_run _ _ R) _ O) as [E|[_ [a [H N]]]]; [exact E|].
  exfalso. exact (unpackable_ca U a H N).
Qed.

(** termination *)
Definition weight (f : future B) : nat := match f with Pending => 2 | Running => 1 | Done _ => 0 end.
Definition measure (s : pool_state B) : nat :=
  (3 * (List.length args - List.length (ps_futures s)) + list_sum (map weight (ps_futures s)) +
   (List.length args - List.length (ps_results s)) + match ps_out s with None => 1 | Some _ => 0 end)%nat.

Lemma sum_set (l : list (future B)) : forall i f g, nth_error l i = Some f ->
  (list_sum (map weight (set_nth l i g)) + weight f = list_sum (map weight l) + weight g)%nat.
Proof.
  induction l as [|x l IH]; intros [|i] f g H; simpl in H; try discriminate.
  - inversion H; subst. simpl. lia.
  - simpl. specialize (IH i f g H). lia.
Qed.

Lemma measure_step s s' : inv s -> step s s' -> (measure s' < measure s)%nat.
Proof.
  intros I S. destruct I as [I1 I2 I3 I4 I5 I6 I7 I8].
  destruct S as [s a l O N C|s a O N C|s i N M W|s i a l N Na C|s b O L N|s e O L N|s O L];
    unfold measure; cbn [ps_futures ps_results ps_out]; try rewrite O.
  - assert (List.length (ps_futures s) < List.length args)%nat by (apply nth_error_Some; congruence).
    rewrite app_length, map_app, list_sum_app. simpl. lia.
  - lia.
  - rewrite set_nth_length. pose proof (sum_set _ _ _ Running N) as E. simpl in E. lia.
  - rewrite set_nth_length. pose proof (sum_set _ _ _ (Done (func l)) N) as E. simpl in E. lia.
  - assert (List.length (ps_results s) < List.length args)%nat.
    { rewrite <- L. apply nth_error_Some. congruence. }
    rewrite app_length. simpl. lia.
  - lia.
  - lia.
Qed.

Lemma run_bound n s : run n s -> (n + measure s <= 4 * List.length args + 1)%nat.
Proof.
  induction 1 as [|n s s' R IH S]; [unfold measure; simpl; lia|].
  pose proof (measure_step _ _ (inv_run _ _ R) S). lia.
Qed.

Lemma steps_bounded n s : run n s -> (n <= 4 * List.length args + 1)%nat.
Proof. intros R. pose proof (run_bound _ _ R). lia. Qed.

(** progress *)
Lemma first_pending (l : list (future B)) : (exists i, nth_error l i = Some Pending /\ forall j, (j < i)%nat -> nth_error l j <> Some Pending) \/
  (forall i, nth_error l i <> Some Pending).
Proof.
  induction l as [|f l IH]; [right; intros [|i]; discriminate|].
  destruct f as [| |r].
  - left. exists 0%nat. split; [reflexivity|lia].
  - destruct IH as [[i [A M]]|N]; [left; exists (S i); split; [exact A|intros [|j] J; [discriminate|apply M; lia]]|right; intros [|i]; [discriminate|apply N]].
  - destruct IH as [[i [A M]]|N]; [left; exists (S i); split; [exact A|intros [|j] J; [discriminate|apply M; lia]]|right; intros [|i]; [discriminate|apply N]].
Qed.
Lemma first_running (l : list (future B)) : (exists i, nth_error l i = Some Running) \/ running l = 0%nat.
Proof.
  induction l as [|f l IH]; [now right|]. destruct f as [| |r].
  - destruct IH as [[i A]|E]; [left; exists (S i); exact A|right; exact E].
  - left. exists 0%nat. reflexivity.
  - destruct IH as [[i A]|E]; [left; exists (S i); exact A|right; exact E].
Qed.

Lemma progress n s : (1 <= w)%nat -> run n s -> ps_out s = None -> exists s', step s s'.
Proof.
  intros W R O. pose proof (inv_run _ _ R) as I. destruct I as [I1 I2 I3 I4 I5 I6 I7 I8].
  destruct (nth_error args (List.length (ps_futures s))) as [a|] eqn:Na.
  { destruct (ca a) as [l|] eqn:C; eexists; [eapply step_submit|eapply step_submit_error]; eauto. }
  apply nth_error_None in Na. assert (List.length (ps_futures s) = List.length args) as L by lia.
  destruct (Nat.eq_dec (List.length (ps_results s)) (List.length args)) as [E|NE].
  { eexists. eapply step_return; eauto. }
  destruct (first_running (ps_futures s)) as [[i A]|Z].
  { assert (exists a, nth_error args i = Some a) as [a Ha].
    { destruct (nth_error args i) as [a|] eqn:Ea; [eauto|]. apply nth_error_None in Ea.
      assert (i < List.length (ps_futures s))%nat by (apply nth_error_Some; congruence). lia. }
    destruct (ca a) as [l|] eqn:C; [|exfalso; eapply I2; eauto]. eexists. eapply step_finish; eauto. }
  destruct (first_pending (ps_futures s)) as [[i [A M]]|NP].
  { eexists. eapply step_start; eauto. lia. }
  assert (exists f, nth_error (ps_futures s) (List.length (ps_results s)) = Some f) as [f Hf].
  { destruct (nth_error (ps_futures s) (List.length (ps_results s))) eqn:E; [eauto|]. apply nth_error_None in E. lia. }
  destruct f as [| |r].
  - exfalso. eapply NP; eauto.
  - exfalso. assert (In Running (filter is_running (ps_futures s))) as IN.
    { apply filter_In. split; [eapply nth_error_In; eauto|reflexivity]. }
    unfold running in Z. destruct (filter is_running (ps_futures s)); [destruct IN|discriminate].
  - destruct r as [b|e]; eexists; [eapply step_gather|eapply step_gather_error]; eauto.
Qed.

(** at most w calls run at the same time *)
Lemma running_app (l m : list (future B)) : running (l ++ m) = (running l + running m)%nat.
Proof. unfold running. rewrite filter_app, app_length. reflexivity. Qed.
Lemma running_set (l : list (future B)) : forall i f g, nth_error l i = Some f ->
  (running (set_nth l i g) + (if is_running f then 1 else 0) = running l + (if is_running g then 1 else 0))%nat.
Proof.
  induction l as [|x l IH]; intros [|i] f g H; simpl in H; try discriminate.
  - inversion H; subst. unfold running. simpl. destruct (is_running f), (is_running g); simpl; lia.
  - specialize (IH i f g H). unfold running in *. simpl. destruct (is_running x); simpl; lia.
Qed.
Lemma running_bound n s : run n s -> (running (ps_futures s) <= w)%nat.
Proof.
  induction 1 as [|n s s' R IH S]; [unfold running; simpl; lia|].
  destruct S as [s a l O N C|s a O N C|s i N M W|s i a l N Na C|s b O L N|s e O L N|s O L]; cbn [ps_futures]; auto.
  - rewrite running_app. unfold running at 2. simpl. lia.
  - pose proof (running_set _ _ _ Running N) as E. simpl in E. lia.
  - pose proof (running_set _ _ _ (Done (func l)) N) as E. simpl in E. lia.
Qed.

(** every call is started at most once, in submission order; all are started when the call returns *)
Definition started (f : future B) : bool := match f with Pending => false | _ => true end.
Lemma calls_prefix n s : run n s -> exists k, ps_calls s = seq 0 k /\ (k <= List.length (ps_futures s))%nat /\
  (forall i f, nth_error (ps_futures s) i = Some f -> (i < k)%nat <-> started f = true).
Proof.
  induction 1 as [|n s s' R IH S].
  { exists 0%nat. split; [reflexivity|]. split; [simpl; lia|]. intros [|i] f H; discriminate. }
  destruct IH as (k & E & K & ST).
  destruct S as [s a l O N C|s a O N C|s i N M W|s i a l N Na C|s b O L N|s e O L N|s O L]; cbn [ps_futures ps_calls]; eauto.
  - exists k. split; [exact E|]. split; [rewrite app_length; lia|]. intros i f H.
    destruct (nth_app_snoc _ _ _ _ H) as [H'|[-> ->]]; [auto|]. simpl. split; [lia|discriminate].
  - assert (i = k) as ->.
    { pose proof (proj1 (ST _ _ N)) as A. destruct (Nat.lt_total i k) as [L|[L|L]]; [specialize (A L); discriminate|exact L|].
      exfalso. assert (k < List.length (ps_futures s))%nat as KL.
      { assert (i < List.length (ps_futures s))%nat by (apply nth_error_Some; congruence). lia. }
      destruct (nth_error (ps_futures s) k) as [f|] eqn:Q; [|apply nth_error_None in Q; lia].
      pose proof (ST _ _ Q) as SQ. destruct f; [exact (M k L Q)| |]; simpl in SQ; assert (k < k)%nat by (apply SQ; reflexivity); lia. }
    exists (S k). split; [rewrite E, seq_S; reflexivity|]. split.
    + rewrite set_nth_length. apply nth_error_Some. congruence.
    + intros j f H. destruct (set_nth_inv _ _ _ _ _ H) as [[<- ->]|[NE H']]; [simpl; split; [reflexivity|lia]|].
      rewrite <- (ST _ _ H'). lia.
  - exists k. split; [exact E|]. split; [now rewrite set_nth_length|]. intros j f H.
    destruct (set_nth_inv _ _ _ _ _ H) as [[<- ->]|[NE H']]; [|auto]. pose proof (ST _ _ N) as SN. simpl in SN. simpl. tauto.
Qed.
Lemma calls_once n s : run n s -> NoDup (ps_calls s).
Proof. intros R. destruct (calls_prefix _ _ R) as (k & -> & _). apply seq_NoDup. Qed.
Lemma calls_complete n s bs : run n s -> ps_out s = Some (Ok bs) -> ps_calls s = seq 0 (List.length args).
Proof.
  intros R O. destruct (calls_prefix _ _ R) as (k & E & K & ST). pose proof (inv_run _ _ R) as I.
  destruct (iv_full _ I _ O) as [A Bl]. pose proof (iv_len _ I) as LE.
  assert (k = List.length args) as ->; [|exact E].
  destruct (Nat.lt_ge_cases k (List.length args)) as [L|L]; [exfalso|lia].
  destruct (iv_resdone _ I k) as [r Hr]; [lia|]. assert (k < k)%nat; [|lia]. apply (ST _ _ Hr). reflexivity.
Qed.
End Pool.

(** a schedule that starts k calls at once *)
Lemma start_all {V B} (unpack : V -> option (list V)) (func : list V -> res B) fixed args w m :
  (m <= w)%nat -> (m <= List.length args)%nat ->
  exists n s, pool_run unpack false func fixed args w n s /\ running (ps_futures s) = m.
Proof.
  intros Mw Ma.
  (* submit k *)
  assert (forall k, (k <= List.length args)%nat -> pool_run unpack false func fixed args w k (PS (repeat Pending k) [] None [])) as SUB.
  { induction k as [|k IH]; intros K; [constructor|]. econstructor; [apply IH; lia|].
    destruct (nth_error args k) as [a|] eqn:E; [|apply nth_error_None in E; lia].
    change (S k) with (1 + k)%nat. replace (1 + k)%nat with (k + 1)%nat by lia. rewrite repeat_app. cbn [repeat].
    eapply (step_submit _ _ _ _ _ _ (PS (repeat Pending k) [] None [])); cbn [ps_futures ps_out]; [reflexivity|rewrite repeat_length; exact E|reflexivity]. }
  assert (forall k, (k <= m)%nat -> pool_run unpack false func fixed args w (m + k) (PS (repeat Running k ++ repeat Pending (m - k)) [] None (seq 0 k))) as ST.
  { induction k as [|k IH]; intros K.
    - rewrite Nat.add_0_r, Nat.sub_0_r. apply SUB. lia.
    - rewrite Nat.add_succ_r. econstructor; [apply IH; lia|].
      assert (PS (repeat Running (S k) ++ repeat Pending (m - S k)) [] None (seq 0 (S k)) =
              PS (set_nth (repeat Running k ++ repeat Pending (m - k)) k (@Running B)) [] None (seq 0 k ++ [k])) as ->.
      { f_equal.
        - replace (m - k)%nat with (S (m - S k)) by lia. cbn [repeat]. clear.
          assert (forall n (l : list (future B)), set_nth (repeat Running n ++ Pending :: l) n Running = repeat Running (S n) ++ l) as H.
          { induction n as [|n IH]; intros l; [reflexivity|]. cbn [repeat app set_nth]. rewrite IH. reflexivity. }
          rewrite H. reflexivity.
        - rewrite seq_S. reflexivity. }
      apply (step_start _ _ _ _ _ _ (PS (repeat Running k ++ repeat Pending (m - k)) [] None (seq 0 k)) k); cbn [ps_futures].
      + rewrite nth_error_app2 by (rewrite repeat_length; lia). rewrite repeat_length, Nat.sub_diag.
        destruct (m - k)%nat eqn:E; [lia|reflexivity].
      + intros j J. rewrite nth_error_app1 by (rewrite repeat_length; lia). intros H.
        apply nth_error_In in H. apply repeat_spec in H. discriminate.
      + unfold running. rewrite filter_app, app_length.
        assert (forall n, filter is_running (repeat (@Pending B) n) = []) as -> by (induction n; simpl; auto).
        assert (forall n, List.length (filter is_running (repeat (@Running B) n)) = n) as ->; [|simpl; lia].
        induction n as [|n IHn]; simpl; auto. }
  exists (m + m)%nat. eexists. split; [apply ST; lia|]. cbn [ps_futures]. rewrite Nat.sub_diag. cbn [repeat]. rewrite app_nil_r.
  unfold running. clear. induction m; simpl; auto.
Qed.

Lemma thread_size cpus cap e : pool_size ThreadPool cpus cap e = Ok (Z.to_nat (Z.min 32 (cpus + 4))).
Proof. reflexivity. Qed.
Lemma process_size cpus n e : 1 <= n -> pool_size ProcessPool cpus (Some n) e = Ok (Z.to_nat n).
Proof. intros H. unfold pool_size, get_nproc. destruct (Z.ltb_spec n 1); [lia|reflexivity]. Qed.
Lemma process_size_bad cpus n e : n < 1 -> pool_size ProcessPool cpus (Some n) e = Raise ValueError.
Proof. intros H. unfold pool_size, get_nproc. destruct (Z.ltb_spec n 1); [reflexivity|lia]. Qed.

Lemma cap_respected {V B} (unpack : V -> option (list V)) expandarg (func : list V -> res B) fixed args cpus cap e w n s :
  1 <= cap -> pool_size ProcessPool cpus (Some cap) e = Ok w ->
  pool_run unpack expandarg func fixed args w n s -> Z.of_nat (running (ps_futures s)) <= cap.
Proof.
  intros C W R. rewrite process_size in W by exact C. inversion W; subst w.
  pose proof (running_bound _ _ _ _ _ _ _ _ R). lia.
Qed.
Lemma cap_ignored {V B} (unpack : V -> option (list V)) (func : list V -> res B) fixed args cpus cap e w :
  1 <= cpus -> cap < Z.min 32 (cpus + 4) -> Z.min 32 (cpus + 4) <= Z.of_nat (List.length args) ->
  pool_size ThreadPool cpus (Some cap) e = Ok w ->
  exists n s, pool_run unpack false func fixed args w n s /\ cap < Z.of_nat (running (ps_futures s)).
Proof.
  intros C L A W. inversion W as [E]. destruct (start_all unpack func fixed args w w) as (n & s & R & Q); [lia|lia|].
  exists n, s. rewrite E. split; [exact R|]. rewrite Q. lia.
Qed.

(** an argument that cannot be unpacked hides an earlier failure *)
Lemma submit_first : 
  let unpack (v : nat) := match v with 0%nat => Some [0%nat] | _ => None end in
  let func (_ : list nat) : res nat := Raise ValueError in
  seq_call unpack true func [] [0%nat; 1%nat] = Raise ValueError /\
  (forall w n s r, pool_run unpack true func [] [0%nat; 1%nat] w n s -> ps_out s = Some r -> r = Raise TypeError).
Proof.
  intros unpack func. split; [reflexivity|]. intros w n s r R O.
  assert (List.length (ps_futures s) <= 1)%nat as L.
  { assert (List.length (ps_futures s) <= 1 /\ ps_results s = [])%nat; [|tauto]. clear O r.
    induction R as [|n s s' R IH S]; [simpl; auto|]. destruct IH as [IH IR].
    destruct S as [s a l O N C|s a O N C|s i N M W|s i a l N Na C|s b O L N|s e O L N|s O L]; cbn [ps_futures ps_results]; rewrite ?set_nth_length; auto.
    - split; [|exact IR]. rewrite app_length. cbn [List.length]. destruct (List.length (ps_futures s)) as [|[|k]]; [lia| |lia].
      cbn in N. inversion N; subst a. discriminate C.
    - simpl in L. lia. }
  induction R as [|n s s' R IH S]; [discriminate|].
  destruct S as [s a l O' N C|s a O' N C|s i N M W|s i a l N Na C|s b O' L' N|s e O' L' N|s O' L']; cbn [ps_out ps_futures] in *; try discriminate.
  - inversion O. reflexivity.
  - apply IH; [exact O|]. rewrite set_nth_length in L. exact L.
  - apply IH; [exact O|]. rewrite set_nth_length in L. exact L.
  - simpl in L'. lia.
  - exfalso. assert (ps_results s = []) as E; [|rewrite E in L'; discriminate L'].
    clear - R L. induction R as [|n s s' R IH S]; [reflexivity|].
    destruct S as [s a l O N C|s a O N C|s i N M W|s i a l N Na C|s b O L' N|s e O L' N|s O L']; cbn [ps_futures ps_results] in *; auto.
    + apply IH. rewrite app_length in L. lia.
    + rewrite set_nth_length in L. auto.
    + rewrite set_nth_length in L. auto.
    + simpl in L'. lia.
Qed.
