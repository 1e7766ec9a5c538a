From Coq Require Import Ascii String Lia.
From Verif Require Import Base L_Base M_Header M_Raypath S_Raypath L_Paths.
Import ListNotations.

Lemma char_eqb_eq a b : char_eqb a b = true <-> a = b.
Proof. unfold char_eqb. destruct (ascii_dec a b); split; easy. Qed.
Lemma in_strs_in x l : in_strs x l = true <-> In x l.
Proof.
  unfold in_strs. rewrite existsb_exists. split.
  - intros (y & H & E). apply str_eqb_eq in E. now subst.
  - intros H. exists x. split; [exact H|now apply str_eqb_eq].
Qed.
Lemma split_no_sep sep acc l : ~ In sep l -> split_from sep acc l = [rev acc ++ l].
Proof.
  revert acc. induction l as [|c l IH]; intros acc H; cbn [split_from]; [now rewrite app_nil_r|].
  destruct (char_eqb c sep) eqn:E; [apply char_eqb_eq in E; subst; exfalso; apply H; now left|].
  rewrite IH by (intros K; apply H; now right). cbn [rev]. now rewrite <- app_assoc.
Qed.
Lemma split_sep sep acc d l : ~ In sep d -> split_from sep acc (d ++ sep :: l) = (rev acc ++ d) :: split_from sep [] l.
Proof.
  revert acc. induction d as [|c d IH]; intros acc H; cbn [app split_from].
  - rewrite (proj2 (char_eqb_eq sep sep) eq_refl). now rewrite app_nil_r.
  - destruct (char_eqb c sep) eqn:E; [apply char_eqb_eq in E; subst; exfalso; apply H; now left|].
    rewrite IH by (intros K; apply H; now right). cbn [rev]. now rewrite <- app_assoc.
Qed.
Lemma split_directories v l : directories v l -> split_on ":" v = l.
Proof.
  unfold split_on. induction 1 as [d H|d v l H _ IH].
  - now rewrite split_no_sep.
  - now rewrite split_sep, IH.
Qed.
Lemma directories_split_from acc v : ~ In ":"%char acc -> directories (rev acc ++ v) (split_from ":" acc v).
Proof.
  revert acc. induction v as [|c v IH]; intros acc H; cbn [split_from].
  - rewrite app_nil_r. constructor. now rewrite <- in_rev.
  - destruct (char_eqb c ":") eqn:E.
    + apply char_eqb_eq in E. subst. constructor; [now rewrite <- in_rev|]. now apply (IH []).
    + replace (rev acc ++ c :: v) with (rev (c :: acc) ++ v) by (cbn [rev]; now rewrite <- app_assoc). apply IH.
      intros [K|K]; [subst; now rewrite (proj2 (char_eqb_eq _ _) eq_refl) in E|easy].
Qed.
(** every value names directories *)
Lemma directories_exist v : directories v (split_on ":" v).
Proof. exact (directories_split_from [] v (fun H => H)). Qed.
Lemma directories_clean v l : directories v l -> Forall (fun d => ~ In ":"%char d) l.
Proof. induction 1; auto. Qed.
Lemma directories_join l : l <> [] -> Forall (fun d => ~ In ":"%char d) l -> directories (join (s ":") l) l.
Proof.
  intros N H. induction H as [|d l Hd Hl IH]; [easy|]. destruct l as [|e l]; [now constructor|].
  change (join (s ":") (d :: e :: l)) with (d ++ ":"%char :: join (s ":") (e :: l)). constructor; [exact Hd|now apply IH].
Qed.
Lemma from_keys_in seen l d : In d (from_keys seen l) <-> In d l /\ ~ In d seen.
Proof.
  revert seen. induction l as [|x l IH]; intros seen; cbn [from_keys In]; [tauto|].
  destruct (in_strs x seen) eqn:E.
  - rewrite IH. apply in_strs_in in E. split; [tauto|]. intros [[->|H] K]; [easy|tauto].
  - cbn [In]. rewrite IH. cbn [In]. assert (~ In x seen) by (rewrite <- in_strs_in; now rewrite E).
    destruct (list_eq_dec ascii_dec x d) as [->|]; [tauto|]. split; [intros [->|H1]; tauto|tauto].
Qed.
Lemma from_keys_nodup seen l : NoDup (from_keys seen l).
Proof.
  revert seen. induction l as [|x l IH]; intros seen; cbn [from_keys]; [constructor|]. destruct (in_strs x seen); [auto|].
  constructor; [|auto]. rewrite from_keys_in. cbn [In]. tauto.
Qed.
Lemma from_keys_find has seen l : (forall d, In d seen -> has d = false) -> find has (from_keys seen l) = find has l.
Proof.
  revert seen. induction l as [|x l IH]; intros seen H; cbn [from_keys find]; [reflexivity|]. destruct (in_strs x seen) eqn:E.
  - apply in_strs_in in E. rewrite (H x E). now apply IH.
  - cbn [find]. destruct (has x) eqn:Hx; [reflexivity|]. apply IH. intros d [<-|K]; auto.
Qed.
Lemma from_keys_id seen l : NoDup l -> (forall d, In d l -> ~ In d seen) -> from_keys seen l = l.
Proof.
  intros N. revert seen. induction N as [|x l Hx N IH]; intros seen H; cbn [from_keys]; [reflexivity|].
  destruct (in_strs x seen) eqn:E; [apply in_strs_in in E; exfalso; apply (H x); [now left|easy]|]. f_equal. apply IH.
  intros d Hd [<-|K]; [easy|]. apply (H d); [now right|easy].
Qed.
Lemma from_keys_drop seen a l : incl a seen -> from_keys seen (a ++ l) = from_keys seen l.
Proof.
  induction a as [|x a IH]; intros H; cbn [app from_keys]; [reflexivity|].
  assert (in_strs x seen = true) as -> by (apply in_strs_in, H; now left). apply IH. intros y Hy. apply H. now right.
Qed.
Lemma from_keys_twice a b l : a <> b -> NoDup (a :: b :: l) -> from_keys [] (a :: b :: a :: b :: l) = a :: b :: l.
Proof.
  intros D N. inversion_clear N as [|? ? N1 N2]. inversion_clear N2 as [|? ? N3 N4]. cbn [from_keys].
  change (in_strs a []) with false. cbv iota. assert (in_strs b [a] = false) as ->.
  { destruct (in_strs b [a]) eqn:Q; [|reflexivity]. apply in_strs_in in Q. destruct Q as [Q|[]]. easy. }
  rewrite (proj2 (in_strs_in a [b; a])) by (cbn; auto). rewrite (proj2 (in_strs_in b [b; a])) by (cbn; auto).
  do 2 f_equal. apply from_keys_id; [exact N4|]. intros x Hx [<-|[<-|[]]]; [easy|apply N1; now right].
Qed.
Lemma dirname_file d f : file_of d f -> dirname f = d.
Proof.
  intros (name & N & [(e & c & -> & C & ->)|(-> & ->)]); unfold dirname.
  2: { rewrite rev_app_distr, drop_while_app by now apply not_char. reflexivity. }
  rewrite !rev_app_distr. change (rev (s "/")) with ["/"%char]. cbn [rev app]. rewrite <- !app_assoc.
  rewrite drop_while_app by now apply not_char. cbn [app]. cbn [drop_while]. rewrite (proj2 (char_eqb_eq "/" "/") eq_refl). cbn [negb].
  cbn [drop_while]. rewrite (proj2 (char_eqb_eq "/" "/") eq_refl). destruct (char_eqb c "/") eqn:E; [apply char_eqb_eq in E; easy|].
  cbn [rev]. now rewrite rev_involutive.
Qed.
Lemma rt_entries d f sub : file_of d f ->
  [s "."; dirname f ++ match Some sub with Some d => s "/" ++ d | None => [] end] = [s "."; d ++ s "/" ++ sub].
Proof. intros H. now rewrite (dirname_file d f H). Qed.
Lemma cal_not_dot d f sub : file_of d f -> d ++ s "/" ++ sub <> s ".".
Proof.
  intros (name & _ & [(e & c & -> & _)|(-> & _)]) E; apply (f_equal (@length ascii)) in E; rewrite !app_length in E; cbn in E; lia.
Qed.
Lemma raypath_set d f sub v l : file_of d f -> ~ In ":"%char (d ++ s "/" ++ sub) -> directories v l ->
  exists l', directories (set_raypath f (Some sub) (Some v)) l' /\ NoDup l' /\
    (forall x, In x l' <-> x = s "." \/ x = d ++ s "/" ++ sub \/ In x l) /\
    forall has, find has l' = if has (s ".") then Some (s ".") else if has (d ++ s "/" ++ sub) then Some (d ++ s "/" ++ sub) else find has l.
Proof.
  intros F C V. unfold set_raypath. rewrite (dirname_file d f F), (split_directories v l V).
  set (cal := d ++ s "/" ++ sub) in *. exists (from_keys [] ([s "."; cal] ++ l)). repeat split.
  - apply directories_join; [discriminate|]. apply Forall_forall. intros x Hx. apply from_keys_in in Hx. destruct Hx as [Hx _].
    destruct Hx as [<-|[<-|Hx]]; [cbn; intuition discriminate|exact C|]. exact (proj1 (Forall_forall _ _) (directories_clean v l V) x Hx).
  - apply from_keys_nodup.
  - rewrite from_keys_in. cbn. intuition auto.
  - rewrite from_keys_in. cbn. intuition auto.
  - intros has. rewrite from_keys_find by easy. reflexivity.
Qed.
Lemma raypath_unset d f sub : file_of d f -> ~ In ":"%char (d ++ s "/" ++ sub) ->
  directories (set_raypath f (Some sub) None) [s "."; d ++ s "/" ++ sub].
Proof.
  intros F C. unfold set_raypath. rewrite (dirname_file d f F). apply directories_join; [discriminate|].
  repeat constructor; [cbn; intuition discriminate|exact C].
Qed.
Lemma raypath_again d f sub env : file_of d f -> ~ In ":"%char (d ++ s "/" ++ sub) ->
  set_raypath f (Some sub) (Some (set_raypath f (Some sub) env)) = set_raypath f (Some sub) env.
Proof.
  intros F C. pose proof (cal_not_dot d f sub F) as D. unfold set_raypath. rewrite (dirname_file d f F). set (cal := d ++ s "/" ++ sub) in *.
  assert (K : forall l, [s "."; cal] = firstn 2 l -> NoDup l -> Forall (fun d => ~ In ":"%char d) l ->
              join (s ":") (from_keys [] ([s "."; cal] ++ split_on ":" (join (s ":") l))) = join (s ":") l).
  { intros l E N H. assert (l <> []) as NE by (intros ->; discriminate). rewrite (split_directories _ l (directories_join l NE H)).
    destruct l as [|a [|b l]]; try discriminate. cbn [firstn] in E. injection E as <- <-. f_equal.
    apply from_keys_twice; [|exact N]. intros Q. now apply D. }
  assert (ND : NoDup [s "."; cal]) by (repeat constructor; cbn; [intros [E|[]]; now apply D|easy]).
  destruct env as [v|].
  - apply K.
    + cbn [app from_keys in_strs existsb]. destruct (str_eqb cal (s ".")) eqn:Q; [apply str_eqb_eq in Q; easy|]. reflexivity.
    + apply from_keys_nodup.
    + apply Forall_forall. intros x Hx. apply from_keys_in in Hx. destruct Hx as [[<-|[<-|Hx]] _]; [cbn; intuition discriminate|exact C|].
      exact (proj1 (Forall_forall _ _) (directories_clean v _ (directories_exist v)) x Hx).
  - apply K; [reflexivity|exact ND|]. repeat constructor; [cbn; intuition discriminate|exact C].
Qed.
Lemma raypath_default d f sub defaults dd : file_of d f -> ~ In ":"%char (d ++ s "/" ++ sub) ->
  In dd defaults -> dd <> s "." -> dd <> d ++ s "/" ++ sub ->
  exists has, (exists l, searched defaults None l /\ find has l = Some dd) /\
    exists l, searched defaults (Some (set_raypath f (Some sub) None)) l /\ find has l = None.
Proof.
  intros F C I N1 N2. exists (str_eqb dd). split.
  - exists defaults. split; [reflexivity|]. induction defaults as [|x l IH]; [easy|]. cbn [find]. destruct (str_eqb dd x) eqn:E.
    + apply str_eqb_eq in E. now subst.
    + apply IH. destruct I as [->|I]; [|exact I]. now rewrite (proj2 (str_eqb_eq dd dd) eq_refl) in E.
  - exists [s "."; d ++ s "/" ++ sub]. split; [now apply raypath_unset|]. cbn [find].
    destruct (str_eqb dd (s ".")) eqn:E1; [apply str_eqb_eq in E1; easy|]. destruct (str_eqb dd (d ++ s "/" ++ sub)) eqn:E2; [apply str_eqb_eq in E2; easy|reflexivity].
Qed.
Lemma raypath_colon d f sub env l : file_of d f -> In ":"%char (d ++ s "/" ++ sub) ->
  directories (set_raypath f (Some sub) env) l -> ~ In (d ++ s "/" ++ sub) l.
Proof. intros _ C V I. exact (proj1 (Forall_forall _ _) (directories_clean _ l V) _ I C). Qed.
Lemma raypath_example : file_of (s "/opt/raytools") (s "/opt/raytools/__init__.py") /\ directories (s "/usr/lib/ray::.") [s "/usr/lib/ray"; []; s "."] /\
  set_raypath (s "/opt/raytools/__init__.py") (Some (s "cal")) (Some (s "/usr/lib/ray::.:/usr/lib/ray")) = s ".:/opt/raytools/cal:/usr/lib/ray:".
Proof.
  split; [|split; [|reflexivity]].
  - exists (s "__init__.py"). split; [cbn; intuition discriminate|]. left. exists (s "/opt/raytool"), "s"%char. repeat split. discriminate.
  - exact (directories_exist (s "/usr/lib/ray::.")).
Qed.
