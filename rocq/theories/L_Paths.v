From Coq Require Import Ascii String Lra Lia Decimal DecimalString.
From Verif Require Import Base L_Base M_Header M_Paths S_Paths.
Import ListNotations.
Local Open Scope R_scope.

Lemma drop_while_app f (a b : str) : Forall (fun c => f c = true) a -> drop_while f (a ++ b) = drop_while f b.
Proof. induction 1 as [|c a H _ IH]; cbn [app drop_while]; [reflexivity|]. now rewrite H. Qed.
Lemma drop_while_all f (a : str) : Forall (fun c => f c = true) a -> drop_while f a = [].
Proof. induction 1 as [|c a H _ IH]; cbn [drop_while]; [reflexivity|]. now rewrite H. Qed.
Lemma take_while_app f (a b : str) : Forall (fun c => f c = true) a -> take_while f (a ++ b) = a ++ take_while f b.
Proof. induction 1 as [|c a H _ IH]; cbn [app take_while]; [reflexivity|]. now rewrite H, IH. Qed.
Lemma not_char c (l : str) : ~ In c l -> Forall (fun x => negb (char_eqb x c) = true) (rev l).
Proof.
  intros H. apply Forall_forall. intros x Hx. apply in_rev in Hx. unfold char_eqb. destruct (ascii_dec x c) as [->|]; [easy|reflexivity].
Qed.
(** the stem ends before the last dot *)
Lemma stem_dot a e : ~ In "."%char e -> stem (a ++ "."%char :: e) = a.
Proof.
  intros H. unfold stem. rewrite rev_app_distr. cbn [rev]. rewrite <- app_assoc. rewrite drop_while_app by now apply not_char. cbn [app].
  cbn [drop_while]. unfold char_eqb at 1. destruct (ascii_dec "." "."); [|easy]. cbn [negb]. apply rev_involutive.
Qed.
Lemma stem_none a : ~ In "."%char a -> stem a = a.
Proof. intros H. unfold stem. now rewrite drop_while_all by now apply not_char. Qed.
Lemma stem_hdr a : stem (a ++ s ".hdr") = a.
Proof. apply (stem_dot a (s "hdr")). cbn. intuition discriminate. Qed.
Lemma base_slash d b : ~ In "/"%char b -> base_name (d ++ "/"%char :: b) = b.
Proof.
  intros H. unfold base_name. rewrite rev_app_distr. cbn [rev]. rewrite <- app_assoc. rewrite take_while_app by now apply not_char. cbn [app take_while].
  unfold char_eqb at 1. destruct (ascii_dec "/" "/"); [|easy]. cbn [negb]. now rewrite app_nil_r, rev_involutive.
Qed.

(** what a command appends to the stem *)
Definition label (c : command) : str :=
  match c with
  | Project true => s "_ang.hdr"
  | Project false => s "_uv.hdr"
  | Align r ct first => rotate_label r ct first ++ s ".hdr"
  | Solid2ang false => s "_2vta.hdr"
  | Solid2ang true => s "_2vts.hdr"
  | Gss _ suffix => suffix
  end.
Lemma out_label c f : beside c -> out_path c f = stem f ++ label c.
Proof. destruct c as [[]| |[]|[d|] suffix]; intros B; try reflexivity. easy. Qed.
Lemma show_nonempty z : show_int z <> [].
Proof.
  unfold show_int. intros H. assert (NilZero.string_of_int (Z.to_int z) = EmptyString) as E.
  { rewrite <- (string_of_list_ascii_of_string (NilZero.string_of_int (Z.to_int z))), H. reflexivity. }
  assert (NilZero.int_of_string (NilZero.string_of_int (Z.to_int z)) = None) as X by (rewrite E; reflexivity).
  destruct (Z.to_int z) as [d|d] eqn:Ez; cbn in X; destruct d; cbn in E, X; discriminate.
Qed.
Lemma rotate_label_nonempty r ct first : r <> 0 \/ ct <> None -> rotate_label r ct first <> [].
Proof.
  intros H E. unfold rotate_label in E. assert ((if Reqb r 0 then [] else s "_r" ++ show_int2 (truncate r)) = [] /\
     match ct with Some c => s "_" ++ show_int (nth 0 c 0%Z) ++ s "-" ++ show_int (nth 1 c 0%Z) | None => [] end = []) as [E1 E2].
  { destruct first; apply app_eq_nil in E; tauto. }
  destruct H as [H|H].
  - unfold Reqb in E1. destruct (Req_EM_T r 0); [easy|discriminate].
  - destruct ct; [discriminate|easy].
Qed.
Lemma label_hdr c : labelled c -> label c <> s ".hdr".
Proof.
  destruct c as [[]|r ct first|[]|d suffix]; cbn [labelled label]; intros H; try discriminate; [|exact H].
  intros E. apply (rotate_label_nonempty r ct first H). apply (f_equal (@length ascii)) in E. rewrite app_length in E.
  change (length (s ".hdr")) with 4%nat in E. destruct (rotate_label r ct first); [reflexivity|cbn in E; lia].
Qed.
Lemma own_path c f : labelled c -> beside c -> hdr_path f -> out_path c f <> f.
Proof. intros L B [a ->] E. rewrite (out_label c _ B), stem_hdr in E. apply app_inv_head in E. now apply (label_hdr c L). Qed.
Lemma distinct_paths c f g : beside c -> hdr_path f -> hdr_path g -> out_path c f = out_path c g -> f = g.
Proof. intros B [a ->] [b ->] E. rewrite !(out_label c _ B), !stem_hdr in E. apply app_inv_tail in E. now subst. Qed.
Lemma one_label c : beside c -> exists lab, (labelled c -> lab <> s ".hdr") /\ forall a, out_path c (a ++ s ".hdr") = a ++ lab.
Proof. intros B. exists (label c). split; [apply label_hdr|]. intros a. now rewrite (out_label c _ B), stem_hdr. Qed.

(** * runs *)
Section Run.
Context {C : Type} (f : C -> C) (out : str -> str) (imgs : list str).
Notation steps := (fold_left (step f out imgs)).
Lemma str_eqb_eq a b : str_eqb a b = true <-> a = b.
Proof. unfold str_eqb. destruct (list_eq_dec ascii_dec a b); split; easy. Qed.
Lemma files_kept l d p : (forall k, In (Write k) l -> out (nth k imgs []) <> p) -> d_files (steps l d) p = d_files d p.
Proof.
  revert d. induction l as [|x l IH]; intros d H; [reflexivity|]. cbn [fold_left]. rewrite IH by (intros k Hk; apply H; now right).
  destruct x as [k|k]; cbn [step d_files]; [reflexivity|]. destruct (str_eqb p (out (nth k imgs []))) eqn:E; [|reflexivity].
  apply str_eqb_eq in E. exfalso. apply (H k); [now left|now symmetry].
Qed.
Lemma read_kept l d k : ~ In (Read k) l -> d_read (steps l d) k = d_read d k.
Proof.
  revert d. induction l as [|x l IH]; intros d H; [reflexivity|]. cbn [fold_left]. rewrite IH by (intros Hk; apply H; now right).
  destruct x as [j|j]; cbn [step d_read]; [|reflexivity]. destruct (Nat.eqb_spec k j) as [->|]; [|reflexivity]. exfalso. apply H. now left.
Qed.
Theorem run_results files l : schedule (length imgs) l -> NoDup (map out imgs) ->
  (forall x y, In x imgs -> In y imgs -> out x <> y) ->
  (forall k, (k < length imgs)%nat -> run f out imgs files l (out (nth k imgs [])) = option_map f (files (nth k imgs []))) /\
  (forall p, ~ In p (map out imgs) -> run f out imgs files l p = files p).
Proof.
  intros [S1 S2] N D. split.
  - intros k Hk. destruct (S1 k Hk) as (a & b & c & -> & Hr & Hw). unfold run.
    assert (forall j, (j < length imgs)%nat -> In (out (nth j imgs [])) (map out imgs)) as Hj.
    { intros j Hj. apply in_map. now apply nth_In. }
    rewrite fold_left_app. cbn [fold_left]. rewrite fold_left_app. cbn [fold_left].
    rewrite files_kept.
    + cbn [step d_files]. assert (str_eqb (out (nth k imgs [])) (out (nth k imgs [])) = true) as -> by now apply str_eqb_eq.
      rewrite read_kept by (intros X; apply Hr; apply in_or_app; right; apply in_or_app; now left).
      cbn [d_read step]. rewrite Nat.eqb_refl. rewrite files_kept; [reflexivity|].
      intros j Hin. apply D; apply nth_In; [|exact Hk]. apply S2. right. apply in_or_app. now left.
    + intros j Hin E. assert (j < length imgs)%nat as Lj.
      { apply S2. right. apply in_or_app. right. right. apply in_or_app. right. now right. }
      assert (j = k) as ->; [|apply Hw; apply in_or_app; right; apply in_or_app; now right].
      rewrite NoDup_nth with (d := out []) in N. apply N; rewrite ?map_length; auto. rewrite !map_nth. exact E.
  - intros p Hp. unfold run. rewrite files_kept; [reflexivity|]. intros k Hk E. apply Hp. subst p. apply in_map, nth_In. apply S2. now right.
Qed.
End Run.
Lemma schedule_in_turn n : schedule n (in_turn n).
Proof.
  split.
  - intros k Hk. unfold in_turn. replace n with (k + S (n - S k))%nat by lia. rewrite seq_app. cbn [seq plus]. rewrite flat_map_app. cbn [flat_map app].
    exists (flat_map (fun k => [Read k; Write k]) (seq 0 k)), [], (flat_map (fun k => [Read k; Write k]) (seq (S k) (n - S k))).
    cbn [app]. split; [reflexivity|]. split; intros H; apply in_app_or in H as [H|H]; apply in_flat_map in H as (j & Hj & H); apply in_seq in Hj;
      destruct H as [[= E]|[[= E]|[]]]; lia.
  - intros k H. unfold in_turn in H. destruct H as [H|H]; apply in_flat_map in H as (j & Hj & H); apply in_seq in Hj; destruct H as [[= E]|[[= E]|[]]]; lia.
Qed.
Theorem command_results {C} (f : C -> C) c imgs files l : beside c -> Forall hdr_path imgs -> NoDup imgs ->
  (forall x y, In x imgs -> In y imgs -> out_path c x <> y) -> schedule (length imgs) l ->
  (forall k, (k < length imgs)%nat ->
     run f (out_path c) imgs files l (out_path c (nth k imgs [])) = option_map f (files (nth k imgs []))) /\
  (forall p, ~ In p (map (out_path c) imgs) -> run f (out_path c) imgs files l p = files p).
Proof.
  intros B H N D S. apply run_results; [exact S| |exact D].
  clear S D. induction N as [|x l' Hx _ IH]; [constructor|]. inversion H as [|? ? Hh Ht]; subst. cbn [map]. constructor; [|now apply IH].
  intros Hin. apply in_map_iff in Hin as (y & E & Hy). rewrite Forall_forall in Ht. apply distinct_paths in E; auto. now subst.
Qed.
(** * counterexamples *)
Lemma align_own f first : hdr_path f -> out_path (Align 0 None first) f = f.
Proof.
  intros [a ->]. cbn [out_path]. rewrite stem_hdr. unfold rotate_label, Reqb. destruct (Req_EM_T 0 0); [|lra]. now destruct first.
Qed.
Lemma align_overwrites {C} (g : C -> C) f first files l : hdr_path f -> schedule 1 l ->
  run g (out_path (Align 0 None first)) [f] files l f = option_map g (files f).
Proof.
  intros H S. destruct S as [S1 S2]. destruct (S1 0%nat) as (a & b & c & -> & Hr & Hw); [lia|].
  assert (forall x, In x (a ++ Read 0 :: b ++ Write 0 :: c) -> x = Read 0 \/ x = Write 0) as X.
  { intros [k|k] Hk; assert (k < 1)%nat by (apply S2; tauto); assert (k = 0)%nat by lia; subst; tauto. }
  assert (a = [] /\ b = [] /\ c = []) as (-> & -> & ->).
  { assert (forall y l', incl (y :: l') (a ++ b ++ c) -> False) as Y.
    { intros y l' I. assert (In y (a ++ b ++ c)) as Hy by (apply I; now left).
      assert (y = Read 0 \/ y = Write 0) as [->| ->]; [|exact (Hr Hy)|exact (Hw Hy)]. apply X.
      apply in_app_or in Hy as [Hy|Hy]; [apply in_or_app; now left|]. apply in_or_app. right. right. apply in_app_or in Hy as [Hy|Hy]; apply in_or_app; [now left|right; now right]. }
    repeat split; [destruct a as [|y a]|destruct b as [|y b]|destruct c as [|y c]]; try reflexivity; exfalso; eapply Y; intros z Hz.
    - apply in_or_app. left. exact Hz.
    - apply in_or_app. right. apply in_or_app. left. exact Hz.
    - apply in_or_app. right. apply in_or_app. right. exact Hz. }
  cbn -[out_path]. rewrite (align_own f first H). assert (str_eqb f f = true) as -> by now apply str_eqb_eq. reflexivity.
Qed.
Lemma same_stem c f g : stem f = stem g -> out_path c f = out_path c g.
Proof. intros E. destruct c as [[]|r ct first|[]|[d|] suffix]; cbn [out_path]; now rewrite E. Qed.
Lemma stem_ext a e : ~ In "."%char e -> forall c, out_path c (a ++ s "." ++ e) = out_path c (a ++ s ".hdr").
Proof. intros H c. apply same_stem. rewrite stem_hdr. now apply stem_dot. Qed.
Lemma dot_directory c a b : beside c -> ~ In "."%char b -> exists lab, out_path c (a ++ s "." ++ b) = a ++ lab.
Proof. intros B H. exists (label c). rewrite (out_label c _ B). f_equal. now apply stem_dot. Qed.
Lemma outdir_same d suffix a b n : ~ In "/"%char (n ++ suffix) ->
  out_path (Gss (Some d) suffix) (a ++ s "/" ++ n ++ s ".hdr") = out_path (Gss (Some d) suffix) (b ++ s "/" ++ n ++ s ".hdr").
Proof.
  intros H. cbn [out_path]. do 2 f_equal. rewrite !(app_assoc _ (s "/")), !app_assoc, !stem_hdr. rewrite <- !app_assoc. cbn [app list_ascii_of_string].
  rewrite !(base_slash _ (n ++ suffix) H). reflexivity.
Qed.
Lemma outdir_distinct d suffix a b n m : ~ In "/"%char (n ++ suffix) -> ~ In "/"%char (m ++ suffix) -> n <> m ->
  out_path (Gss (Some d) suffix) (a ++ s "/" ++ n ++ s ".hdr") <> out_path (Gss (Some d) suffix) (b ++ s "/" ++ m ++ s ".hdr").
Proof.
  intros H H' N. cbn [out_path]. rewrite !(app_assoc _ (s "/")), !app_assoc, !stem_hdr. rewrite <- !app_assoc. cbn [app list_ascii_of_string].
  rewrite !base_slash by assumption. intros E. apply app_inv_head in E. injection E as E. apply app_inv_tail in E. easy.
Qed.
Lemma rotate_same f ct first : out_path (Align 10.2 ct first) f = out_path (Align 10.7 ct first) f.
Proof.
  cbn [out_path]. do 2 f_equal. unfold rotate_label.
  assert (Rfloor 10.2 = 10%Z) as F1. { unfold Rfloor. replace (up 10.2) with 11%Z; [reflexivity|]. apply tech_up; lra. }
  assert (Rfloor 10.7 = 10%Z) as F2. { unfold Rfloor. replace (up 10.7) with 11%Z; [reflexivity|]. apply tech_up; lra. }
  assert (truncate 10.2 = 10%Z /\ truncate 10.7 = 10%Z) as [-> ->].
  { unfold truncate, Rltb. destruct (Rlt_dec 10.2 0); [lra|]. destruct (Rlt_dec 10.7 0); [lra|]. now rewrite F1, F2. }
  unfold Reqb. destruct (Req_EM_T 10.2 0); [lra|]. destruct (Req_EM_T 10.7 0); [lra|]. reflexivity.
Qed.
Lemma center_same f r x y l m first : out_path (Align r (Some (x :: y :: l)) first) f = out_path (Align r (Some (x :: y :: m)) first) f.
Proof. reflexivity. Qed.
Lemma gss_twice f imgs : ~ NoDup (metric_images true true (f :: imgs)).
Proof. unfold metric_images. cbn [map app]. intros H. inversion H as [|? ? X _]; subst. apply X. apply in_or_app. right. now left. Qed.

(** the order matters when a result is also an image *)
Lemma order_matters : let imgs := [s "x.hdr"; s "x_uv.hdr"] in
  exists l1 l2, schedule 2 l1 /\ schedule 2 l2 /\ Forall hdr_path imgs /\ NoDup imgs /\
    run S (out_path (Project false)) imgs two_files l1 (s "x_uv_uv.hdr") = Some 2%nat /\
    run S (out_path (Project false)) imgs two_files l2 (s "x_uv_uv.hdr") = Some 11%nat.
Proof.
  exists (in_turn 2), [Read 0; Read 1; Write 0; Write 1]. split; [apply schedule_in_turn|]. split.
  { split.
    - intros k Hk. destruct k as [|[|k]]; [| |lia].
      + exists [], [Read 1], [Write 1]. cbn. repeat split; intros X; repeat (destruct X as [X|X]; [discriminate|]); exact X.
      + exists [Read 0], [Write 0], []. cbn. repeat split; intros X; repeat (destruct X as [X|X]; [discriminate|]); exact X.
    - intros k [H|H]; cbn in H; repeat (destruct H as [E|H]; [try discriminate E; injection E as <-; lia|]); easy. }
  split; [repeat apply Forall_cons; try apply Forall_nil; [exists (s "x")|exists (s "x_uv")]; reflexivity|].
  split; [repeat constructor; cbn; intuition discriminate|]. split; vm_compute; reflexivity.
Qed.
Lemma paths_example : let imgs := [s "a.hdr"; s "b.c/d.hdr"] in Forall hdr_path imgs /\ NoDup imgs /\
  (forall x y, In x imgs -> In y imgs -> out_path (Project true) x <> y) /\
  out_path (Project true) (s "b.c/d.hdr") = s "b.c/d_ang.hdr" /\
  out_path (Solid2ang false) (s "b.c/d.hdr") = s "b.c/d_2vta.hdr" /\
  out_path (Gss (Some (s "o")) gss_suffix) (s "b.c/d.hdr") = s "o/d_rg.hdr".
Proof.
  split; [repeat apply Forall_cons; try apply Forall_nil; [exists (s "a")|exists (s "b.c/d")]; reflexivity|].
  split; [repeat constructor; cbn; intuition discriminate|]. split; [|repeat split].
  intros x y [<-|[<-|[]]] [<-|[<-|[]]] E; vm_compute in E; discriminate.
Qed.
Lemma align_example f : hdr_path f -> out_path (Align 7 (Some [12; -3]%Z) true) f = stem f ++ s "_r07_12--3.hdr".
Proof.
  intros _. cbn [out_path]. f_equal. unfold rotate_label. assert (Rfloor 7 = 7%Z) as F. { unfold Rfloor. replace (up 7) with 8%Z; [reflexivity|]. apply tech_up; lra. }
  unfold truncate, Rltb, Reqb. destruct (Rlt_dec 7 0); [lra|]. destruct (Req_EM_T 7 0); [lra|]. rewrite F. reflexivity.
Qed.
