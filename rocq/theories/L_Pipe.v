(** The runs of reading and of writing, for C140 and C141. *)
From Coq Require Import Ascii String Lia Bool.
From Verif Require Import Base M_Utility M_Header M_Io M_Pipe S_Pipe.
Import ListNotations.
Local Open Scope list_scope.

Lemma run_invariant {X} (step : X -> X -> Prop) (I : X -> Prop) x y :
  (forall u v, I u -> step u v -> I v) -> I x -> reachable step x y -> I y.
Proof. intros H Hx [n R]. induction R as [|n u v w S R IH]; [exact Hx|]. apply IH. now apply (H u). Qed.
Lemma run_measure {X} (step : X -> X -> Prop) (m : X -> nat) n x y :
  (forall u v, step u v -> m v < m u)%nat -> steps step n x y -> (n <= m x)%nat.
Proof. intros H R. induction R as [|n u v w S R IH]; [lia|]. specialize (H u v S). lia. Qed.

(** * reading *)
Definition r_measure {A} (t : reading A) : nat :=
  2 * length (r_todo t) + length (r_out t) + (match r_result t with None => 1 | _ => 0 end).
Lemma r_down {A} dies cap (f : str -> res A) t u : read_step dies cap f t u -> (r_measure u < r_measure t)%nat.
Proof.
  intros H. destruct H; unfold r_measure; cbn [r_todo r_out r_result]; rewrite ?app_length; cbn [length]; try lia.
  destruct todo; [congruence|]. cbn [length]. lia.
Qed.

Definition r_inv {A} cap (f : str -> res A) prog (t : reading A) : Prop :=
  r_got t ++ r_out t ++ printed (r_todo t) = printed prog /\ (r_err t + messages (r_todo t) = messages prog)%nat /\
  (r_err t <= cap)%nat /\
  forall r, r_result t = Some r -> r = f (r_got t) /\ (bad_line (r_got t) = true \/ (r_todo t = [] /\ r_out t = [])).
Lemma r_inv_start {A} cap (f : str -> res A) prog : r_inv cap f prog (reading_start prog).
Proof. unfold r_inv, reading_start. cbn. repeat split; try lia; congruence. Qed.
Lemma r_inv_step {A} cap (f : str -> res A) prog t u : r_inv cap f prog t -> read_step false cap f t u -> r_inv cap f prog u.
Proof.
  intros (I1 & I2 & I3 & I4) H. destruct H; unfold r_inv in *;
    cbn [r_todo r_out r_err r_got r_result printed messages] in *.
  - repeat split; try lia; [rewrite <- app_assoc; exact I1|..]; intros; destruct (I4 _ H0) as [E [B|[B _]]]; auto; congruence.
  - repeat split; try lia; auto; intros; destruct (I4 _ H0) as [E [B|[B _]]]; auto; congruence.
  - repeat split; try lia; try congruence. rewrite <- app_assoc. exact I1.
  - repeat split; try lia; auto; intros; injection H0 as <-; auto.
  - repeat split; try lia; auto; intros; injection H as <-; auto.
  - discriminate.
Qed.
Lemma r_progress {A} cap (f : str -> res A) prog t : (0 < cap)%nat -> (messages prog <= cap)%nat -> r_inv cap f prog t ->
  stuck (read_step false cap f) t -> r_result t <> None.
Proof.
  intros C M (I1 & I2 & I3 & I4) S E. destruct t as [todo out err got r]. cbn in *. subst r.
  destruct out as [|c out]; [|apply (S _ (R_read _ _ _ _ _ _ _ _))].
  destruct todo as [|[[|] c] todo].
  - apply (S _ (R_end _ _ _ _ _)).
  - eapply S. apply R_print. cbn. lia.
  - eapply S. apply R_message. cbn in I2. lia.
Qed.
Lemma read_ends {A} cap (f : str -> res A) prog : (0 < cap)%nat -> (messages prog <= cap)%nat ->
  (forall a b, bad_line a = true -> f (a ++ b) = f a) ->
  always_ends (read_step false cap f) (reading_start prog) (fun t => r_result t = Some (f (printed prog))).
Proof.
  intros C M F. split.
  - exists (r_measure (A:=A) (reading_start prog)). intros n y. apply run_measure. intros u v. apply r_down.
  - intros y R S. assert (r_inv cap f prog y) as I.
    { apply (run_invariant _ (r_inv cap f prog) _ _ (r_inv_step cap f prog) (r_inv_start cap f prog) R). }
    pose proof (r_progress cap f prog y C M I S) as P. destruct (r_result y) as [r|] eqn:E; [|congruence].
    destruct I as (I1 & _ & _ & I4). destruct (I4 r E) as [-> B]. f_equal. rewrite <- I1. destruct B as [B|[B1 B2]].
    + symmetry. now apply F.
    + rewrite B1, B2. cbn. now rewrite app_nil_r.
Qed.

(** a program that dies *)
Definition r_inv2 {A} (f : str -> res A) prog (t : reading A) : Prop :=
  (exists x, r_got t ++ r_out t ++ printed (r_todo t) ++ x = printed prog) /\
  forall r, r_result t = Some r -> r = f (r_got t).
Lemma r_inv2_step {A} dies cap (f : str -> res A) prog t u : r_inv2 f prog t -> read_step dies cap f t u -> r_inv2 f prog u.
Proof.
  intros ((x & I1) & I4) H. destruct H; unfold r_inv2 in *; cbn [r_todo r_out r_err r_got r_result printed] in *.
  - split; [exists x; rewrite <- app_assoc; exact I1|auto].
  - split; [exists x; exact I1|auto].
  - split; [exists x; rewrite <- app_assoc; exact I1|congruence].
  - split; [exists x; exact I1|]. intros r E. now injection E as <-.
  - split; [exists x; exact I1|]. intros r E. now injection E as <-.
  - split; [exists (printed todo ++ x); exact I1|auto].
Qed.
Lemma read_dies {A} dies cap (f : str -> res A) prog t r : reachable (read_step dies cap f) (reading_start prog) t ->
  r_result t = Some r -> exists got, begins got (printed prog) /\ r = f got.
Proof.
  intros R E. assert (r_inv2 f prog t) as ((x & I1) & I2).
  { apply (run_invariant _ (r_inv2 f prog) _ _ (r_inv2_step dies cap f prog)) with (2 := R).
    split; [exists []; cbn; now rewrite app_nil_r|discriminate]. }
  exists (r_got t). split; [exists (r_out t ++ printed (r_todo t) ++ x); now symmetry|now apply I2].
Qed.

(** too many messages *)
Lemma readline_app a b : existsb (fun c => char_eqb c "010") a = true -> readline (a ++ b) = (fst (readline a), snd (readline a) ++ b).
Proof.
  induction a as [|c a IH]; cbn [existsb readline app]; [discriminate|]. intros H. destruct (char_eqb c "010"); [reflexivity|].
  cbn in H. rewrite (IH H). destruct (readline a). reflexivity.
Qed.
Lemma bad_more a b : bad_line a = true -> bad_line (a ++ b) = true.
Proof.
  unfold bad_line. intros H. apply andb_true_iff in H. destruct H as [H1 H2]. rewrite existsb_app, H1, readline_app by exact H1.
  exact H2.
Qed.
Definition r_inv3 {A} (cap : nat) pre c post (t : reading A) : Prop :=
  exists pre', r_todo t = pre' ++ (Err, c) :: post /\ (r_err t + messages pre' = cap)%nat /\
    r_got t ++ r_out t ++ printed pre' = printed pre /\ r_result t = None.
Lemma r_inv3_step {A} cap (f : str -> res A) pre c post t u : bad_line (printed pre) = false ->
  r_inv3 cap pre c post t -> read_step false cap f t u -> r_inv3 cap pre c post u.
Proof.
  intros B (pre' & I1 & I2 & I3 & I4) H. destruct H; unfold r_inv3 in *; cbn [r_todo r_out r_err r_got r_result] in *.
  - destruct pre' as [|[st d] pre']; [discriminate|]. cbn in I1. injection I1 as <- <- ->. cbn [printed messages] in *.
    exists pre'. rewrite <- app_assoc. auto.
  - destruct pre' as [|[st d] pre'].
    + cbn in I1. injection I1 as -> ->. cbn in I2. lia.
    + cbn in I1. injection I1 as <- <- ->. cbn [printed messages] in *. exists pre'. repeat split; auto; lia.
  - exists pre'. rewrite <- app_assoc. auto.
  - exfalso. rewrite <- I3 in B. rewrite (bad_more _ _ H) in B. discriminate.
  - destruct pre'; discriminate.
  - discriminate.
Qed.
Lemma read_blocks {A} cap (f : str -> res A) pre c post : messages pre = cap -> bad_line (printed pre) = false ->
  never (read_step false cap f) (reading_start (pre ++ (Err, c) :: post)) (fun t => r_result t <> None).
Proof.
  intros M B t R N. assert (r_inv3 cap pre c post t) as (pre' & _ & _ & _ & E); [|congruence].
  apply (run_invariant _ (r_inv3 cap pre c post) _ _ (fun u v => r_inv3_step cap f pre c post u v B)) with (2 := R).
  exists pre. cbn. auto.
Qed.

(** * writing *)
Lemma emitted_app k a : forall seen b, emitted k seen (a ++ b) = emitted k seen a ++ emitted k (seen ++ a) b.
Proof.
  induction a as [|x a IH]; intros seen b; cbn [emitted app]; [now rewrite app_nil_r|].
  rewrite IH, <- !app_assoc. reflexivity.
Qed.
Definition w_measure (k : packer) (t : writing) : nat :=
  2 * length (w_todo t) + length (w_in t) + 2 * (length (w_pend t) + length (emitted k (w_seen t) (w_in t ++ w_todo t))) +
  length (w_mid t) + (if w_closed t then 0 else 1) + (if runs (w_pvalue t) then 1 else 0) + (if runs (w_getinfo t) then 1 else 0) +
  (match w_result t with None => 1 | _ => 0 end).
Lemma w_down dies header cap k t u : write_step dies header cap k t u -> (w_measure k u < w_measure k t)%nat.
Proof.
  intros H. destruct H; unfold w_measure; cbn [w_todo w_in w_closed w_seen w_pend w_pvalue w_mid w_getinfo w_file w_result runs length app];
    rewrite ?app_nil_r, <- ?app_assoc; cbn [app emitted]; rewrite ?app_length; cbn [length]; try lia.
Qed.

Definition w_inv (header : bool) cap k data (t : writing) : Prop :=
  w_seen t ++ w_in t ++ w_todo t = data /\
  w_file t ++ w_mid t ++ w_pend t = packed k (w_seen t) /\
  (length (w_seen t) <= k_need k)%nat /\ (length (w_in t) <= cap)%nat /\
  (header = false -> w_mid t = []) /\ (w_closed t = true -> header = false /\ w_todo t = []).
Lemma w_inv_start header cap k data : w_inv header cap k data (writing_start k data).
Proof. unfold w_inv, writing_start, packed. cbn. rewrite app_nil_r. repeat split; try lia; congruence. Qed.
Lemma packed_snoc k seen b : packed k (seen ++ [b]) = packed k seen ++ k_emit k (seen ++ [b]).
Proof. unfold packed. rewrite emitted_app. cbn [emitted app]. now rewrite app_nil_r, <- app_assoc. Qed.
Lemma w_inv_step dies header cap k data t u : w_inv header cap k data t -> write_step dies header cap k t u -> w_inv header cap k data u.
Proof.
  intros (I1 & I2 & I3 & I4 & I5 & I6) H. destruct H; unfold w_inv in *;
    cbn [w_todo w_in w_closed w_seen w_pend w_pvalue w_mid w_getinfo w_file w_result] in *;
    rewrite ?app_length; cbn [length] in *; try (repeat split; auto; try lia; try congruence; try (apply I6; assumption); fail).
  - split; [rewrite <- !app_assoc; exact I1|]. repeat split; auto; try lia; [apply I6; assumption|].
    destruct (I6 H0) as [_ X]. discriminate.
  - split; [rewrite <- !app_assoc; exact I1|]. split.
    { rewrite packed_snoc, <- I2, app_nil_r, <- app_assoc. reflexivity. }
    repeat split; auto; try lia; apply I6; assumption.
  - split; [exact I1|]. split; [rewrite <- app_assoc; exact I2|]. repeat split; auto; try congruence; apply I6; assumption.
  - split; [exact I1|]. split; [rewrite (I5 H) in *; rewrite <- app_assoc; exact I2|]. repeat split; auto; try congruence; apply I6; assumption.
  - split; [exact I1|]. split; [rewrite <- app_assoc; exact I2|]. repeat split; auto; try congruence; apply I6; assumption.
Qed.
(** nobody was killed *)
Definition w_ok (header : bool) k (t : writing) : Prop :=
  w_pvalue t <> Killed /\ w_getinfo t <> Killed /\
  (w_pvalue t = Ended -> w_pend t = [] /\ ((k_need k <= length (w_seen t))%nat \/ (w_closed t = true /\ w_in t = []))) /\
  (w_getinfo t = Ended -> header = true /\ w_mid t = [] /\ w_pvalue t = Ended) /\
  (forall e, w_result t = Some (Raise e) -> e = BrokenPipe /\ w_pvalue t = Ended /\ w_todo t <> []) /\
  (w_result t = Some (Ok tt) -> w_todo t = [] /\ w_pvalue t = Ended /\ (header = true -> w_getinfo t = Ended)).
Lemma w_ok_start header k data : w_ok header k (writing_start k data).
Proof. unfold w_ok, writing_start. cbn. repeat split; congruence. Qed.
Ltac fin := repeat split; intros; repeat match goal with
  | I : ?P -> _, H : ?P |- _ => match type of P with Prop => specialize (I H) end
  | I : forall e, ?r = Some (Raise e) -> _, H : ?r = Some (Raise _) |- _ => specialize (I _ H)
  | I : _ /\ _ |- _ => destruct I end; auto; try congruence.
Lemma w_ok_step header cap k t u : w_ok header k t -> write_step false header cap k t u -> w_ok header k u.
Proof.
  intros (I1 & I2 & I3 & I4 & I5 & I6) H. destruct H; unfold w_ok in *;
    cbn [w_todo w_in w_closed w_seen w_pend w_pvalue w_mid w_getinfo w_file w_result] in *; try discriminate.
  - fin.
  - assert (pv = Ended) as -> by (destruct pv; cbn in H; congruence). fin.
  - fin. match goal with X : _ \/ _ |- _ => destruct X as [X|[X _]]; [now left|discriminate] end.
  - assert (pv = Ended) as ->.
    { destruct header; [|destruct H as [_ H]; destruct pv; cbn in H; congruence].
      assert (gi = Ended) as G by (destruct gi; cbn in H; congruence). apply (I4 G). }
    fin. subst header. destruct gi; cbn in *; congruence.
  - fin.
  - fin.
  - fin.
  - fin.
  - fin.
  - assert (pv = Ended) as -> by (destruct pv; cbn in H0; congruence). fin.
Qed.

(** the end *)
Lemma w_final header cap k data t : (0 < cap)%nat -> w_inv header cap k data t -> w_ok header k t ->
  (header = true -> (k_need k <= length data)%nat) -> stuck (write_step false header cap k) t ->
  w_result t <> None /\ w_pvalue t = Ended /\ w_pend t = [] /\ w_mid t = [].
Proof.
  intros C (I1 & I2 & I3 & I4 & I5 & I6) (J1 & J2 & J3 & J4 & J5 & J6) L S.
  destruct t as [todo i cl seen pend pv mid gi file r]. cbn [w_todo w_in w_closed w_seen w_pend w_pvalue w_mid w_getinfo w_file w_result] in *.
  assert (gi <> Ended -> gi = Runs) as G by (destruct gi; congruence).
  assert (pv = Ended) as ->.
  { destruct pv; [exfalso|reflexivity|congruence]. destruct pend as [|b pend].
    - destruct (Nat.le_gt_cases (k_need k) (length seen)) as [Q|Q]; [eapply S; apply P_done; auto|].
      destruct i as [|b i]; [|eapply S; apply P_read; exact Q].
      destruct todo as [|b todo].
      + cbn in I1. rewrite app_nil_r in I1. subst seen. destruct header; [specialize (L eq_refl); lia|].
        destruct cl; [eapply S; apply P_done; auto|]. destruct r as [[[]|e]|].
        * destruct (J6 eq_refl) as (_ & X & _). discriminate.
        * destruct (J5 e eq_refl) as (_ & X & _). discriminate.
        * eapply S. apply W_close. reflexivity.
      + destruct r as [[[]|e]|].
        * destruct (J6 eq_refl) as (_ & X & _). discriminate.
        * destruct (J5 e eq_refl) as (_ & X & _). discriminate.
        * eapply S. apply W_write. cbn. lia.
    - destruct header; [|eapply S; apply P_file; reflexivity].
      destruct (Nat.lt_ge_cases (length mid) cap) as [Q|Q]; [eapply S; apply P_print; auto|].
      destruct mid as [|x mid]; [cbn in Q; lia|]. rewrite G in S; [eapply S; apply G_read; reflexivity|].
      intros E. destruct (J4 E) as (_ & _ & X). discriminate. }
  destruct (J3 eq_refl) as [-> Q].
  assert (mid = []) as ->.
  { destruct header; [|now apply I5]. destruct mid as [|x mid]; [reflexivity|]. exfalso.
    rewrite G in S; [eapply S; apply G_read; reflexivity|]. intros E. destruct (J4 E) as (_ & X & _). discriminate. }
  repeat split. intros ->. destruct todo as [|b todo]; [|eapply S; apply W_broken; reflexivity].
  destruct header.
  - destruct gi; [eapply S; apply G_end; reflexivity|eapply S; apply W_return; reflexivity|congruence].
  - destruct cl; [eapply S; apply W_return; auto|eapply S; apply W_close; reflexivity].
Qed.
Lemma w_reach header cap k data t : reachable (write_step false header cap k) (writing_start k data) t ->
  w_inv header cap k data t /\ w_ok header k t.
Proof.
  intros R. split.
  - apply (run_invariant _ _ _ _ (w_inv_step false header cap k data) (w_inv_start header cap k data) R).
  - apply (run_invariant _ _ _ _ (w_ok_step header cap k) (w_ok_start header k data) R).
Qed.
Lemma w_bounded dies header cap k x : exists bound, forall n y, steps (write_step dies header cap k) n x y -> (n <= bound)%nat.
Proof. exists (w_measure k x). intros n y. apply run_measure. intros u v. apply w_down. Qed.

Lemma write_ends header cap k data : (0 < cap)%nat -> k_need k = length data ->
  always_ends (write_step false header cap k) (writing_start k data) (fun t => w_result t = Some (Ok tt) /\ w_file t = packed k data).
Proof.
  intros C N. split; [apply w_bounded|]. intros t R S. destruct (w_reach header cap k data t R) as [I J].
  destruct (w_final header cap k data t C I J ltac:(lia) S) as (F1 & F2 & F3 & F4).
  destruct I as (I1 & I2 & I3 & I4 & I5 & I6). destruct J as (J1 & J2 & J3 & J4 & J5 & J6).
  assert (w_seen t = data /\ w_todo t = []) as [E1 E2].
  { destruct (J3 F2) as [_ [Q|[Q1 Q2]]].
    - pose proof (f_equal (@length Z) I1) as E. rewrite !app_length in E.
      destruct (w_in t); [|cbn in E; lia]. destruct (w_todo t); [|cbn in E; lia]. cbn in I1. rewrite app_nil_r in I1. auto.
    - destruct (I6 Q1) as [_ Q3]. rewrite Q2, Q3 in I1. cbn in I1. rewrite app_nil_r in I1. auto. }
  rewrite F3, F4, E1 in I2. cbn [app] in I2. rewrite app_nil_r in I2. split; [|exact I2].
  destruct (w_result t) as [[[]|e]|]; [reflexivity| |congruence]. destruct (J5 e eq_refl) as (_ & _ & X). congruence.
Qed.
(** too few bytes *)
Lemma write_waits cap k data : (length data < k_need k)%nat ->
  never (write_step false true cap k) (writing_start k data) (fun t => w_result t <> None).
Proof.
  intros L t R N. destruct (w_reach true cap k data t R) as [(I1 & I2 & I3 & I4 & I5 & I6) (J1 & J2 & J3 & J4 & J5 & J6)].
  assert (w_pvalue t = Ended) as E.
  { destruct (w_result t) as [[[]|e]|]; [apply J6; reflexivity|apply (J5 e eq_refl)|congruence]. }
  destruct (J3 E) as [_ [Q|[Q _]]].
  - pose proof (f_equal (@length Z) I1) as X. rewrite !app_length in X. lia.
  - destruct (I6 Q) as [X _]. discriminate.
Qed.
Lemma write_short cap k data : (0 < cap)%nat -> (length data < k_need k)%nat ->
  always_ends (write_step false false cap k) (writing_start k data) (fun t => w_result t = Some (Ok tt) /\ w_file t = packed k data).
Proof.
  intros C N. split; [apply w_bounded|]. intros t R S. destruct (w_reach false cap k data t R) as [I J].
  destruct (w_final false cap k data t C I J ltac:(discriminate) S) as (F1 & F2 & F3 & F4).
  destruct I as (I1 & I2 & I3 & I4 & I5 & I6). destruct J as (J1 & J2 & J3 & J4 & J5 & J6).
  assert (w_seen t = data /\ w_todo t = []) as [E1 E2].
  { destruct (J3 F2) as [_ [Q|[Q1 Q2]]].
    - pose proof (f_equal (@length Z) I1) as E. rewrite !app_length in E. lia.
    - destruct (I6 Q1) as [_ Q3]. rewrite Q2, Q3 in I1. cbn in I1. rewrite app_nil_r in I1. auto. }
  rewrite F3, F4, E1 in I2. cbn [app] in I2. rewrite app_nil_r in I2. split; [|exact I2].
  destruct (w_result t) as [[[]|e]|]; [reflexivity| |congruence]. destruct (J5 e eq_refl) as (_ & _ & X). congruence.
Qed.
(** too many bytes *)
Lemma write_more header cap k data : (0 < cap)%nat -> (k_need k < length data)%nat ->
  always_ends (write_step false header cap k) (writing_start k data) (fun t =>
    w_file t = packed k (firstn (k_need k) data) /\
    (w_result t = Some (Raise BrokenPipe) \/ w_result t = Some (Ok tt) /\ (length data <= k_need k + cap)%nat)).
Proof.
  intros C N. split; [apply w_bounded|]. intros t R S. destruct (w_reach header cap k data t R) as [I J].
  destruct (w_final header cap k data t C I J ltac:(lia) S) as (F1 & F2 & F3 & F4).
  destruct I as (I1 & I2 & I3 & I4 & I5 & I6). destruct J as (J1 & J2 & J3 & J4 & J5 & J6).
  pose proof (f_equal (@length Z) I1) as E. rewrite !app_length in E.
  assert (length (w_seen t) = k_need k) as E1.
  { destruct (J3 F2) as [_ [Q|[Q1 Q2]]]; [lia|]. destruct (I6 Q1) as [_ Q3]. rewrite Q2, Q3 in E. cbn in E. lia. }
  rewrite F3, F4 in I2. cbn [app] in I2. rewrite app_nil_r in I2. split.
  - rewrite I2. f_equal. rewrite <- I1, <- E1, firstn_app, Nat.sub_diag, firstn_all. cbn. now rewrite app_nil_r.
  - destruct (w_result t) as [[[]|e]|]; [right|left|congruence].
    + split; [reflexivity|]. destruct (J6 eq_refl) as (X & _). rewrite X in E. cbn in E. lia.
    + now destruct (J5 e eq_refl) as (-> & _).
Qed.
(** at every moment, whoever was killed *)
Lemma write_prefix dies header cap k data t : reachable (write_step dies header cap k) (writing_start k data) t ->
  begins (w_file t) (packed k data).
Proof.
  intros R. assert (w_inv header cap k data t) as (I1 & I2 & _).
  { apply (run_invariant _ _ _ _ (w_inv_step dies header cap k data) (w_inv_start header cap k data) R). }
  exists (w_mid t ++ w_pend t ++ emitted k (w_seen t) (w_in t ++ w_todo t)).
  rewrite <- I1. unfold packed at 1. rewrite emitted_app. cbn [app]. rewrite app_assoc. fold (packed k (w_seen t)). rewrite <- I2.
  now rewrite <- !app_assoc.
Qed.
(** getinfo is killed *)
Definition no_getinfo (k : packer) (data : list Z) : writing := Writing data [] false [] (k_start k) Runs [] Killed [] None.
Lemma no_getinfo_reach header cap k data : header = true -> reachable (write_step true header cap k) (writing_start k data) (no_getinfo k data).
Proof. intros H. exists 1%nat. eapply steps_more; [|apply steps_none]. unfold writing_start, no_getinfo. apply G_dies; auto. Qed.
Lemma steps_trans {X} (step : X -> X -> Prop) n m x y z : steps step n x y -> steps step m y z -> steps step (n + m) x z.
Proof. intros R. induction R; cbn; [auto|]. intros T. eapply steps_more; eauto. Qed.
Lemma fill header cap k : forall data i seen file gi cl, (length i + length data <= cap)%nat ->
  steps (write_step true header cap k) (length data) (Writing data i cl seen (k_start k) Runs [] gi file None)
    (Writing [] (i ++ data) cl seen (k_start k) Runs [] gi file None).
Proof.
  induction data as [|b data IH]; intros i seen file gi cl L; cbn [length] in *; [rewrite app_nil_r; apply steps_none|].
  eapply steps_more; [apply W_write; lia|]. replace (i ++ b :: data) with ((i ++ [b]) ++ data) by (rewrite <- app_assoc; reflexivity).
  apply IH. rewrite app_length. cbn. lia.
Qed.
Lemma killed_unseen cap k data : (length data <= cap)%nat ->
  exists t, reachable (write_step true true cap k) (writing_start k data) t /\ w_result t = Some (Ok tt) /\ w_file t = [].
Proof.
  intros L. eexists. split; [|split].
  - destruct (no_getinfo_reach true cap k data eq_refl) as [n R]. exists (n + (length data + 1))%nat.
    eapply steps_trans; [exact R|]. eapply steps_trans; [apply (fill true cap k data [] [] [] Killed false L)|].
    eapply steps_more; [apply W_return; reflexivity|apply steps_none].
  - reflexivity.
  - reflexivity.
Qed.
Definition w_inv4 cap k j data (t : writing) : Prop :=
  w_getinfo t = Killed /\ w_file t = [] /\ (length (w_mid t) <= cap)%nat /\ (length (w_seen t) <= j)%nat /\
  w_pvalue t = Runs /\ w_result t = None /\ w_inv true cap k data t.
Lemma packed_mono k a b : (length (packed k a) <= length (packed k (a ++ b)))%nat.
Proof. unfold packed. rewrite emitted_app, !app_length. lia. Qed.
Lemma w_inv4_step cap k j data t u : (cap < length (packed k (firstn j data)))%nat -> (j + cap < length data)%nat -> k_need k = length data ->
  w_inv4 cap k j data t -> write_step false true cap k t u -> w_inv4 cap k j data u.
Proof.
  intros O L N (K1 & K2 & K3 & K4 & K5 & K6 & I) H. pose proof (w_inv_step false true cap k data t u I H) as I'.
  destruct I as (I1 & I2 & I3 & I4 & I5 & I6). pose proof (f_equal (@length Z) I1) as E. rewrite !app_length in E.
  destruct H; unfold w_inv4; cbn [w_todo w_in w_closed w_seen w_pend w_pvalue w_mid w_getinfo w_file w_result] in *; subst; try discriminate;
    try (refine (conj _ (conj _ (conj _ (conj _ (conj _ (conj _ I')))))); solve [auto]).
  - cbn in E. lia.
  - assert (length seen < j)%nat as Q.
    { destruct (Nat.lt_ge_cases (length seen) j) as [Q|Q]; [exact Q|]. exfalso.
      assert (firstn j (seen ++ (b :: i) ++ todo) = seen) as X.
      { assert (length seen = j) as <- by lia. rewrite firstn_app, Nat.sub_diag, firstn_all. cbn. now rewrite app_nil_r. }
      rewrite X, <- I2 in O. cbn in O. rewrite app_nil_r in O. lia. }
    refine (conj _ (conj _ (conj _ (conj _ (conj _ (conj _ I')))))); auto; rewrite app_length; cbn; lia.
  - refine (conj _ (conj _ (conj _ (conj _ (conj _ (conj _ I')))))); auto; rewrite app_length; cbn; lia.
  - destruct H as [H|[H _]]; [lia|]. destruct (I6 H). discriminate.
Qed.
Lemma killed_hangs cap k data j : (cap < length (packed k (firstn j data)))%nat -> (j + cap < length data)%nat -> k_need k = length data ->
  exists t, reachable (write_step true true cap k) (writing_start k data) t /\
    never (write_step false true cap k) t (fun u => w_result u <> None).
Proof.
  intros O L N. exists (no_getinfo k data). split; [now apply no_getinfo_reach|]. intros u R X.
  assert (w_inv4 cap k j data u) as (_ & _ & _ & _ & _ & E & _); [|congruence].
  apply (run_invariant _ _ _ _ (fun x y => w_inv4_step cap k j data x y O L N)) with (2 := R).
  unfold w_inv4, no_getinfo, w_inv, packed. cbn. rewrite app_nil_r. repeat split; auto; try lia; congruence.
Qed.
