(** Lemmas for Prop_Utility.v: the specification loop, environment texts and worker words *)
From Coq Require Import Lia Ascii Arith String.
From Verif Require Import Base M_Utility S_Utility L_Utility.
Import ListNotations.
Local Open Scope Z_scope.

(** * the loop *)
Lemma call_args_passed {V} (unpack : V -> option (list V)) x fixed a l :
  call_args unpack x fixed a = Some l <-> passed unpack x fixed a l.
Proof.
  unfold call_args, passed. destruct x; cbn [app].
  - destruct (unpack a) as [m|]; cbn [option_map]; split.
    + intros [= <-]. eauto.
    + intros (k & [= <-] & ->). reflexivity.
    + discriminate.
    + intros (k & K & _). discriminate.
  - split; [intros [= <-]; reflexivity | intros ->; reflexivity].
Qed.

Lemma seq_call_outcome {V B} (unpack : V -> option (list V)) x (func : list V -> res B) fixed args :
  unpackable unpack x args -> loop_outcome unpack x func fixed args (seq_call unpack x func fixed args).
Proof.
  induction args as [|a args IH]; intros U.
  - left. exists []. split; [reflexivity | constructor].
  - cbn [seq_call]. destruct (call_args unpack x fixed a) as [l|] eqn:C.
    + apply call_args_passed in C. destruct (func l) as [b|e] eqn:F; cbn [bind].
      * destruct IH as [(bs & E & H) | (p & bs & a' & l' & q & e & E & H & K & R & S)].
        { intros T a0 I. apply (U T). now right. }
        -- rewrite E. cbn [bind]. left. exists (b :: bs). split; [reflexivity|]. constructor; auto. exists l; auto.
        -- rewrite S. cbn [bind]. right. exists (a :: p), (b :: bs), a', l', q, e. subst args.
           repeat split; auto. constructor; auto. exists l; auto.
      * right. exists [], [], a, l, args, e. repeat split; auto.
    + exfalso. unfold call_args in C. destruct x; [|discriminate].
      apply (U eq_refl a (or_introl eq_refl)). destruct (unpack a); [discriminate|reflexivity].
Qed.

Lemma pool_outcome {V B} (unpack : V -> option (list V)) x (func : list V -> res B) fixed args workers n s r :
  unpackable unpack x args ->
  pool_run unpack x func fixed args workers n s -> ps_out s = Some r ->
  loop_outcome unpack x func fixed args r.
Proof.
  intros U R O. rewrite (pool_equals_loop unpack x func fixed args workers n s r U R O). now apply seq_call_outcome.
Qed.

Lemma passed_fun {V} (unpack : V -> option (list V)) x fixed a l m :
  passed unpack x fixed a l -> passed unpack x fixed a m -> l = m.
Proof. intros A C. apply call_args_passed in A, C. congruence. Qed.

Lemma outcome_unique {V B} (unpack : V -> option (list V)) x (func : list V -> res B) fixed args : forall r q,
  loop_outcome unpack x func fixed args r -> loop_outcome unpack x func fixed args q -> r = q.
Proof.
  assert (K : forall r, loop_outcome unpack x func fixed args r -> r = seq_call unpack x func fixed args).
  { assert (G : forall xs bs, Forall2 (returns unpack x func fixed) xs bs ->
                Forall2 (okcall unpack x func fixed) xs bs).
    { induction 1 as [|a b xs bs (l & P & F) _ IH]; constructor; auto. exists l. split; auto. now apply call_args_passed. }
    intros r [(bs & -> & H) | (p & bs & a & l & q & e & -> & H & P & F & ->)].
    - symmetry. apply seq_ok. auto.
    - symmetry. apply (seq_fail unpack x func fixed p bs a l); auto. now apply call_args_passed. }
  intros r q R Q. rewrite (K r R), (K q Q). reflexivity.
Qed.

(** * texts *)
Lemma digit_sign_char d : (d < 10)%nat -> digit_sign d = digit_char (Z.of_nat d).
Proof. intros H. do 10 (destruct d as [|d]; [reflexivity|]). lia. Qed.

Lemma from_plain acc c l : c <> "_"%char ->
  digits_from acc (c :: l) = match digit c with Some d => digits_from (10 * acc + d) l | None => None end.
Proof.
  intros N. cbn [digits_from]. destruct c as [b0 b1 b2 b3 b4 b5 b6 b7]. destruct b0, b1, b2, b3, b4, b5, b6, b7; try reflexivity.
  exfalso; apply N; reflexivity.
Qed.
Lemma digit_is_sign c v : digit c = Some v -> exists d, (d < 10)%nat /\ c = digit_sign d /\ v = Z.of_nat d.
Proof.
  destruct c as [b0 b1 b2 b3 b4 b5 b6 b7]. destruct b0, b1, b2, b3, b4, b5, b6, b7; cbn; intros [= <-];
  match goal with |- exists d, _ /\ _ /\ ?v = _ => exists (Z.to_nat v) end; repeat split; cbn; lia.
Qed.
Lemma sign_digit d : (d < 10)%nat -> digit (digit_sign d) = Some (Z.of_nat d).
Proof. intros H. do 10 (destruct d as [|d]; [reflexivity|]). lia. Qed.
Lemma sign_plain d : (d < 10)%nat -> digit_sign d <> "_"%char /\ digit_sign d <> "+"%char /\ digit_sign d <> "-"%char /\ is_space (digit_sign d) = false.
Proof. intros H. do 10 (destruct d as [|d]; [repeat split; discriminate|]). lia. Qed.
Lemma written_head ds l : written ds l -> exists d r, (d < 10)%nat /\ l = digit_sign d :: r.
Proof. destruct 1; eauto. Qed.

Lemma from_written ds l : written ds l -> forall acc,
  digits_from acc l = Some (fold_left (fun v d => 10 * v + Z.of_nat d) ds acc).
Proof.
  induction 1 as [d D | d ds l D W IH | d ds l D W IH]; intros acc;
  rewrite from_plain by (apply sign_plain; auto); rewrite sign_digit by auto; cbn [fold_left].
  - reflexivity.
  - apply IH.
  - rewrite <- IH. destruct (written_head _ _ W) as (e & r & E & ->).
    change (match digit (digit_sign e) with Some _ => digits_from (10 * acc + Z.of_nat d) (digit_sign e :: r) | None => None end =
            digits_from (10 * acc + Z.of_nat d) (digit_sign e :: r)).
    rewrite sign_digit by auto. reflexivity.
Qed.
Lemma written_from n : forall l acc v c dv, (List.length l <= n)%nat -> digit c = Some dv -> digits_from acc (c :: l) = Some v ->
  exists ds, written ds (c :: l) /\ v = fold_left (fun v d => 10 * v + Z.of_nat d) ds acc.
Proof.
  induction n as [|n IH]; intros l acc v c dv L C H;
  destruct (digit_is_sign c dv C) as (d & D & -> & ->); rewrite from_plain in H by (apply sign_plain; auto);
  rewrite sign_digit in H by auto; (destruct l as [|x l];
    [cbn in H; injection H as <-; exists [d]; split; [now constructor | reflexivity]|]); cbn [List.length] in L; [lia|].
  destruct (ascii_dec x "_"%char) as [-> | N].
  - destruct l as [|y l]; [discriminate H|].
    change (match digit y with Some _ => digits_from (10 * acc + Z.of_nat d) (y :: l) | None => None end = Some v) in H.
    destruct (digit y) as [dy|] eqn:Y; [|discriminate].
    destruct (IH l _ v y dy ltac:(cbn [List.length] in L; lia) Y H) as (ds & W & ->).
    exists (d :: ds). split; [now constructor | reflexivity].
  - destruct (digit x) as [dx|] eqn:X.
    + destruct (IH l _ v x dx ltac:(lia) X H) as (ds & W & ->). exists (d :: ds). split; [now constructor | reflexivity].
    + rewrite from_plain, X in H by auto. discriminate.
Qed.
Lemma digits_written l v : digits l = Some v <-> exists ds, written ds l /\ v = decimal ds.
Proof.
  split.
  - unfold digits. destruct l as [|c l]; [discriminate|]. destruct (digit c) as [dv|] eqn:C; [|discriminate].
    intros H. exact (written_from _ l 0 v c dv (le_n _) C H).
  - intros (ds & W & ->). unfold decimal. rewrite <- (from_written _ _ W). destruct (written_head _ _ W) as (d & r & D & ->).
    unfold digits. rewrite sign_digit by auto. reflexivity.
Qed.

Lemma blank_space c : blank c -> is_space c = true.
Proof. intros H. repeat (destruct H as [<-|H]; [reflexivity|]). destruct H. Qed.
Lemma space_blank c : is_space c = true -> blank c.
Proof.
  destruct c as [b0 b1 b2 b3 b4 b5 b6 b7]; destruct b0, b1, b2, b3, b4, b5, b6, b7; intros H;
  (discriminate H || (unfold blank; cbn; tauto)).
Qed.

Lemma lstrip_app pre l : Forall blank pre -> lstrip (pre ++ l)%list = lstrip l.
Proof. induction 1 as [|c pre C _ IH]; [reflexivity|]. cbn [app lstrip]. rewrite blank_space by auto. exact IH. Qed.

Lemma strip_app pre l post : Forall blank pre -> Forall blank post -> l <> [] ->
  Forall (fun c => is_space c = false) l -> strip (pre ++ l ++ post)%list = l.
Proof.
  intros A C N S. unfold strip. rewrite lstrip_app by auto.
  assert (E : lstrip (l ++ post)%list = (l ++ post)%list).
  { destruct l as [|c l]; [congruence|]. inversion S; subst. cbn [app]. now apply lstrip_nospace. }
  rewrite E, rev_app_distr, lstrip_app by (apply Forall_rev; auto).
  assert (E2 : lstrip (rev l) = rev l).
  { destruct (rev l) as [|c r] eqn:R; [reflexivity|]. apply lstrip_nospace.
    apply (proj1 (Forall_forall _ l) S). apply in_rev. rewrite R. now left. }
  rewrite E2. apply rev_involutive.
Qed.

Lemma written_nospace ds l : written ds l -> Forall (fun c => is_space c = false) l.
Proof. induction 1; repeat (constructor; [now apply sign_plain || reflexivity|]); auto. Qed.

Lemma lstrip_split l : exists pre, l = (pre ++ lstrip l)%list /\ Forall blank pre.
Proof.
  induction l as [|c l (pre & E & F)]; [exists []; split; [reflexivity|constructor]|]. cbn [lstrip].
  destruct (is_space c) eqn:C.
  - exists (c :: pre). cbn [app]. rewrite <- E. split; [reflexivity|]. constructor; auto. now apply space_blank.
  - exists []. split; [reflexivity|constructor].
Qed.
Lemma strip_split l : exists pre post, l = (pre ++ strip l ++ post)%list /\ Forall blank pre /\ Forall blank post.
Proof.
  destruct (lstrip_split l) as (pre & E & F). destruct (lstrip_split (rev (lstrip l))) as (post & E2 & F2).
  exists pre, (rev post). split; [|split; auto using Forall_rev].
  rewrite E at 1. f_equal. rewrite <- (rev_involutive (lstrip l)) at 1. rewrite E2 at 1. unfold strip.
  rewrite rev_app_distr. reflexivity.
Qed.

Lemma py_int_iff s v : py_int s = Some v <-> number_text s v.
Proof.
  split.
  - intros H. destruct (strip_split s) as (pre & post & E & F & G). unfold py_int in H.
    assert (K1 : forall l, strip s = "-"%char :: l -> option_map Z.opp (digits l) = Some v -> number_text s v).
    { intros l S D. destruct (digits l) as [x|] eqn:X; [|discriminate]. injection D as <-.
      apply digits_written in X. destruct X as (ds & W & ->). rewrite S in E.
      exists pre, ["-"%char], ds, l, post. repeat split; auto. }
    assert (K2 : forall l, strip s = "+"%char :: l -> digits l = Some v -> number_text s v).
    { intros l S D. apply digits_written in D. destruct D as (ds & W & ->). rewrite S in E.
      exists pre, ["+"%char], ds, l, post. repeat split; auto. }
    assert (K3 : digits (strip s) = Some v -> number_text s v).
    { intros D. apply digits_written in D. destruct D as (ds & W & ->).
      exists pre, [], ds, (strip s), post. repeat split; auto. }
    destruct (strip s) as [|x l] eqn:S; [discriminate|].
    destruct x as [b0 b1 b2 b3 b4 b5 b6 b7]; destruct b0, b1, b2, b3, b4, b5, b6, b7; try (exact (K3 H)); eauto.
  - intros (pre & sgn & ds & l & post & -> & F & G & W & V). rewrite (app_assoc sgn).
    pose proof (written_nospace _ _ W) as NS. destruct (written_head _ _ W) as (d & r & D & E).
    assert (X : digits l = Some (decimal ds)) by (apply digits_written; eauto).
    unfold py_int. rewrite strip_app; auto.
    + destruct V as [[[-> | ->] ->] | [-> ->]]; cbn [app].
      * destruct (sign_plain d D) as (_ & P & M & _). subst l.
        destruct (digit_sign d) as [b0 b1 b2 b3 b4 b5 b6 b7].
        destruct b0, b1, b2, b3, b4, b5, b6, b7; try exact X; exfalso; (apply P; reflexivity) || (apply M; reflexivity).
      * exact X.
      * rewrite X. reflexivity.
    + subst l. destruct sgn; discriminate.
    + apply Forall_app. split; auto. destruct V as [[[-> | ->] _] | [-> _]]; repeat constructor.
Qed.

Lemma nproc_number cpus s v : number_text s v -> get_nproc cpus None (Some s) = v.
Proof. intros H. apply py_int_iff in H. unfold get_nproc. now rewrite H. Qed.
Lemma nproc_other cpus s : (forall v, ~ number_text s v) -> get_nproc cpus None (Some s) = cpus.
Proof.
  intros H. unfold get_nproc. destruct (py_int s) as [v|] eqn:P; [|reflexivity]. exfalso. apply (H v). now apply py_int_iff.
Qed.

(** * worker words *)
Lemma lower_letter c d : In d ["a"; "d"; "e"; "h"; "r"; "s"; "t"]%char -> (lower c = d <-> same_letter c d).
Proof.
  intros I. split.
  - intros <-. unfold same_letter. destruct c as [b0 b1 b2 b3 b4 b5 b6 b7];
    destruct b0, b1, b2, b3, b4, b5, b6, b7; cbn in I |- *;
    (left; reflexivity) || (right; tauto) || (exfalso; repeat (destruct I as [I|I]; [discriminate I|]); exact I).
  - intros [-> | H].
    + repeat (destruct I as [<-|I]; [reflexivity|]). destruct I.
    + repeat (destruct H as [H|H]; [injection H as <- <-; reflexivity|]). destruct H.
Qed.

Lemma lower_word l : forall w, Forall (fun d => In d ["a"; "d"; "e"; "h"; "r"; "s"; "t"]%char) w ->
  (map lower l = w <-> Forall2 same_letter l w).
Proof.
  induction l as [|c l IH]; intros w W; split; intros H.
  - subst w. constructor.
  - inversion H. reflexivity.
  - subst w. cbn [map] in *. inversion W; subst. constructor; [now apply lower_letter | now apply IH].
  - inversion H; subst. inversion W; subst. cbn [map]. f_equal; [now apply lower_letter | now apply IH].
Qed.

Lemma thread_iff s : worker_kind (WStr s) = ThreadPool <-> thread_word s.
Proof.
  unfold worker_kind, thread_word.
  assert (K : forall w, Forall (fun d => In d ["a"; "d"; "e"; "h"; "r"; "s"; "t"]%char) (list_ascii_of_string w) ->
    (str_lower s = w <-> Forall2 same_letter (list_ascii_of_string s) (list_ascii_of_string w))).
  { intros w W. rewrite <- lower_word by auto. unfold str_lower. split.
    - intros <-. now rewrite list_ascii_of_string_of_list_ascii.
    - intros E. rewrite E. apply string_of_list_ascii_of_string. }
  assert (W1 : forall w, In w ["thread"; "t"; "threads"]%string ->
    Forall (fun d => In d ["a"; "d"; "e"; "h"; "r"; "s"; "t"]%char) (list_ascii_of_string w)).
  { intros w I. repeat (destruct I as [<-|I]; [cbn; repeat apply Forall_cons; try apply Forall_nil; cbn; tauto|]). destruct I. }
  destruct (string_dec s "") as [-> | N].
  - split; [discriminate|]. intros (w & I & F). cbn in F.
    repeat (destruct I as [<-|I]; [cbn in F; inversion F|]). destruct I.
  - destruct (existsb _ _) eqn:E.
    + split; auto. intros _. apply existsb_exists in E. destruct E as (w & I & E).
      exists w. split; auto. apply (K w (W1 w I)). destruct (string_dec (str_lower s) w); congruence.
    + split; [discriminate|]. intros (w & I & F). apply (K w (W1 w I)) in F.
      assert (X : existsb (fun t => if string_dec (str_lower s) t then true else false) ["thread"; "t"; "threads"]%string = true).
      { apply existsb_exists. exists w. split; auto. destruct (string_dec (str_lower s) w); congruence. }
      congruence.
Qed.
Lemma process_iff w : worker_kind w = ProcessPool <-> w = WBool true \/ exists s, w = WStr s /\ s <> ""%string /\ ~ thread_word s.
Proof.
  destruct w as [b|s].
  - destruct b; cbn; split; auto; try discriminate; intros [H | (s & H & _)]; discriminate.
  - pose proof (thread_iff s) as T. split.
    + intros H. right. exists s. split; [reflexivity|]. split.
      * intros ->. discriminate.
      * intros W. apply T in W. congruence.
    + intros [H | (s' & [= <-] & N & W)]; [discriminate|].
      unfold worker_kind in *. destruct (string_dec s ""); [congruence|]. destruct (existsb _ _); [|reflexivity].
      exfalso. apply W, T. reflexivity.
Qed.
Lemma nopool_iff w : worker_kind w = NoPool <-> w = WBool false \/ w = WStr "".
Proof.
  destruct w as [b|s].
  - destruct b; cbn; split; auto; try discriminate; intros [H | H]; discriminate.
  - unfold worker_kind. destruct (string_dec s "") as [-> | N].
    + split; auto.
    + split; [destruct (existsb _ _); discriminate|]. intros [H | [= H]]; [discriminate|congruence].
Qed.
