(** Lemmas for Prop_Viewfile.v *)
From Coq Require Import Ascii String Lia Lra.
From Verif Require Import Base L_Base M_Translate M_Mapper S_Mapper L_Mapper M_Utility M_Header S_Utility S_Paths S_Header L_Header L_Header2 L_Header4 L_Utility2 L_Paths2
  M_Viewfile S_Viewfile.
Import ListNotations.
Local Open Scope list_scope.

Lemma int_number z t : int_text z t -> number_text t z.
Proof.
  intros (ds & N & F & V & ->). 
  exists [], (if (z <? 0)%Z then ["-"%char] else []), ds, (map digit_sign ds), []. rewrite app_nil_r.
  split; [reflexivity|]. split; [constructor|]. split; [constructor|]. split.
  - clear V. induction ds as [|d ds IH]; [easy|]. inversion F; subst. destruct ds as [|e ds]; [now constructor|].
    cbn [map]. apply written_next; [assumption|]. apply IH; [discriminate|assumption].
  - destruct (Z.ltb_spec z 0); [right|left]; (split; [auto|lia]).
Qed.
Lemma digit_nonblank d : (d < 10)%nat -> is_space (digit_sign d) = false.
Proof. intros H. do 10 (destruct d as [|d]; [reflexivity|]). lia. Qed.
Lemma digit_plain d : (d < 10)%nat -> digit_sign d <> "X"%char /\ digit_sign d <> "Y"%char.
Proof. intros H. do 10 (destruct d as [|d]; [split; discriminate|]). lia. Qed.
Lemma int_word z t : int_text z t -> word t.
Proof.
  intros (ds & N & F & V & ->). split; [destruct ds; [easy|]; destruct (z <? 0)%Z; discriminate|].
  apply Forall_app. split; [destruct (z <? 0)%Z; repeat constructor|].
  apply Forall_map. eapply Forall_impl; [|exact F]. intros d D. now apply digit_nonblank.
Qed.
Lemma int_plain z t c : int_text z t -> c = "X"%char \/ c = "Y"%char -> existsb (char_eqb c) t = false.
Proof.
  intros (ds & N & F & V & ->) C. rewrite existsb_app. apply Bool.orb_false_iff. split.
  - destruct (z <? 0)%Z; [|reflexivity]. destruct C as [->| ->]; reflexivity.
  - clear N V. induction ds as [|d ds IH]; [reflexivity|]. inversion F; subst. cbn [map existsb]. rewrite IH by assumption.
    rewrite Bool.orb_false_r. destruct (digit_plain d) as [A B]; [assumption|]. unfold char_eqb.
    destruct (ascii_dec c (digit_sign d)) as [E|]; [|reflexivity]. exfalso. destruct C as [->| ->]; congruence.
Qed.
Lemma words_last w : word w -> split_words (w ++ newline) = [w].
Proof.
  intros [N H]. unfold split_words. rewrite words_run, app_nil_r by exact H. cbn [newline words_from]. change (is_space "010") with true. cbv iota. destruct (rev w) as [|c r] eqn:E.
  - exfalso. apply N. rewrite <- (rev_involutive w), E. reflexivity.
  - rewrite <- E, rev_involutive. cbn [words_from app]. reflexivity.
Qed.
Lemma axis_word a c : axis_sign a -> is_space c = false -> word [a; c].
Proof. intros [->| ->] C; (split; [discriminate|]); repeat constructor; exact C. Qed.
Lemma size_rows name w h out : solid_name name -> rows_first name w h out -> img_size out = Ok (w, h).
Proof.
  intros [NN NB] (a & b & wt & ht & A & B & W & H & ->). unfold img_size.
  change ((a :: s "Y ") ++ ht ++ s " " ++ (b :: s "X ") ++ wt ++ newline) with ([a; "Y"%char] ++ s " " ++ ht ++ s " " ++ [b; "X"%char] ++ s " " ++ wt ++ newline).
  rewrite words_cons by now split. rewrite words_cons by now apply axis_word. rewrite words_cons by now apply (int_word h).
  rewrite words_cons by now apply axis_word. rewrite words_last by now apply (int_word w). cbn [size_from].
  assert (existsb (char_eqb "X") [a; "Y"%char] = false) as -> by (destruct A as [->| ->]; reflexivity).
  assert (existsb (char_eqb "Y") [a; "Y"%char] = true) as -> by (destruct A as [->| ->]; reflexivity).
  apply int_number in H as Hn. apply py_int_iff in Hn. rewrite Hn. rewrite !(int_plain h) by auto.
  assert (existsb (char_eqb "X") [b; "X"%char] = true) as -> by (destruct B as [->| ->]; reflexivity).
  apply int_number in W as Wn. apply py_int_iff in Wn. now rewrite Wn.
Qed.
Lemma size_columns name w h out : solid_name name -> columns_first name w h out -> img_size out = Ok (w, h).
Proof.
  intros [NN NB] (a & b & wt & ht & A & B & W & H & ->). unfold img_size.
  change ((a :: s "X ") ++ wt ++ s " " ++ (b :: s "Y ") ++ ht ++ newline) with ([a; "X"%char] ++ s " " ++ wt ++ s " " ++ [b; "Y"%char] ++ s " " ++ ht ++ newline).
  rewrite words_cons by now split. rewrite words_cons by now apply axis_word. rewrite words_cons by now apply (int_word w).
  rewrite words_cons by now apply axis_word. rewrite words_last by now apply (int_word h). cbn [size_from].
  assert (existsb (char_eqb "X") [a; "X"%char] = true) as -> by (destruct A as [->| ->]; reflexivity).
  apply int_number in W as Wn. apply py_int_iff in Wn. rewrite Wn. rewrite !(int_plain w) by auto.
  assert (existsb (char_eqb "X") [b; "Y"%char] = false) as -> by (destruct B as [->| ->]; reflexivity).
  assert (existsb (char_eqb "Y") [b; "Y"%char] = true) as -> by (destruct B as [->| ->]; reflexivity).
  apply int_number in H as Hn. apply py_int_iff in Hn. now rewrite Hn.
Qed.
Lemma size_blank : exists out, rows_first (s "my Xmas.hdr:") 8 4 out /\ img_size out = Raise ValueError.
Proof.
  eexists. split.
  - exists "-"%char, "+"%char, (s "8"), (s "4"). split; [now right|]. split; [now left|]. split; [|split; [|reflexivity]].
    + exists [8%nat]. repeat split; [discriminate|repeat constructor].
    + exists [4%nat]. repeat split; [discriminate|repeat constructor].
  - vm_compute. reflexivity.
Qed.

(** * view files *)
Definition has_vta (l : str) : bool := match last_after (s "-vta") l with Some _ => true | None => false end.
Lemma last_after_occurs p l r : last_after p l = Some r -> occurs p l.
Proof.
  revert r. induction l as [|c l IH]; intros r H; cbn [last_after] in H.
  - destruct p; [exists [], []; reflexivity|discriminate].
  - destruct (last_after p l) as [x|] eqn:E.
    + destruct (IH x eq_refl) as (a & b & ->). exists (c :: a), b. reflexivity.
    + destruct (prefixb p (c :: l)) eqn:D; [|discriminate]. apply prefixb_spec in D. destruct D as [b D]. exists [], b. exact D.
Qed.
Lemma has_vta_true l : has_vta l = true <-> occurs (s "-vta") l.
Proof.
  unfold has_vta. destruct (last_after (s "-vta") l) eqn:E.
  - split; [intros _; exact (last_after_occurs _ _ _ E)|reflexivity].
  - split; [discriminate|]. intros H. apply last_after_none in E. contradiction.
Qed.
Lemma last_view pre l post : occurs (s "-vta") l -> Forall (fun l => ~ occurs (s "-vta") l) post ->
  exists r, rev (filter has_vta (pre ++ l :: post)) = l :: r.
Proof.
  intros O N. rewrite filter_app. cbn [filter]. assert (has_vta l = true) as -> by now apply has_vta_true.
  assert (filter has_vta post = []) as ->.
  { clear O. induction N as [|x post X _ IH]; [reflexivity|]. cbn [filter]. destruct (has_vta x) eqn:E; [apply has_vta_true in E; contradiction|exact IH]. }
  rewrite rev_app_distr. cbn [rev app]. eauto.
Qed.
Lemma vf_none parse lines : Forall (fun l => ~ occurs (s "-vta") l) lines -> vf_to_vm parse lines = Raise ValueError.
Proof.
  intros N. unfold vf_to_vm. change (fun l => match last_after (s "-vta") l with Some _ => true | None => false end) with has_vta.
  assert (filter has_vta lines = []) as ->; [|reflexivity].
  induction N as [|x post X _ IH]; [reflexivity|]. cbn [filter]. destruct (has_vta x) eqn:E; [apply has_vta_true in E; contradiction|exact IH].
Qed.
Lemma vf_words parse pre l post a b t va c d x y z X Y Z0 :
  occurs (s "-vta") l -> Forall (fun l => ~ occurs (s "-vta") l) post ->
  split_words l = a ++ [s "-vh"; t] ++ b -> ~ In (s "-vh") a -> parse t = Some va ->
  split_words l = c ++ [s "-vd"; x; y; z] ++ d -> ~ In (s "-vd") c -> parse x = Some X -> parse y = Some Y -> parse z = Some Z0 ->
  vf_to_vm parse (pre ++ l :: post) = Ok (mk_view (V3 X Y Z0) va).
Proof.
  intros O N E Na Pt E2 Nc Px Py Pz. unfold vf_to_vm. change (fun l => match last_after (s "-vta") l with Some _ => true | None => false end) with has_vta.
  destruct (last_view pre l post O N) as [r ->].
  assert (list_index (s "-vh") (split_words l) = Ok (length a)) as -> by (rewrite E; now apply list_index_at). cbn [bind].
  rewrite (float_at_nth parse _ _ t va).
  2:{ rewrite E, nth_error_app2 by lia. now replace (length a + 1 - length a)%nat with 1%nat by lia. } 2:{ exact Pt. }
  cbn [bind]. assert (list_index (s "-vd") (split_words l) = Ok (length c)) as -> by (rewrite E2; now apply list_index_at). cbn [bind].
  unfold float3_at. rewrite E2.
  rewrite (float_at_nth parse _ (length c + 1) x X); [|rewrite nth_error_app2 by lia; now replace (length c + 1 - length c)%nat with 1%nat by lia|exact Px]. cbn [bind].
  rewrite (float_at_nth parse _ (length c + 1 + 1) y Y); [|rewrite nth_error_app2 by lia; now replace (length c + 1 + 1 - length c)%nat with 2%nat by lia|exact Py]. cbn [bind].
  rewrite (float_at_nth parse _ (length c + 1 + 2) z Z0); [|rewrite nth_error_app2 by lia; now replace (length c + 1 + 2 - length c)%nat with 3%nat by lia|exact Pz]. reflexivity.
Qed.
(** a view without direction *)
Lemma vf_no_direction parse pre l post : occurs (s "-vta") l -> Forall (fun l => ~ occurs (s "-vta") l) post ->
  ~ In (s "-vd") (split_words l) -> vf_to_vm parse (pre ++ l :: post) = Raise ValueError \/ vf_to_vm parse (pre ++ l :: post) = Raise IndexError.
Proof.
  intros O N V. unfold vf_to_vm. change (fun l => match last_after (s "-vta") l with Some _ => true | None => false end) with has_vta.
  destruct (last_view pre l post O N) as [r ->].
  assert (list_index (s "-vd") (split_words l) = Raise ValueError) as ->.
  { unfold list_index. destruct (in_strs (s "-vd") (split_words l)) eqn:E; [apply in_strs_true in E; contradiction|reflexivity]. }
  destruct (list_index (s "-vh") (split_words l)) as [i|e] eqn:E.
  - cbn [bind]. unfold float_at. destruct (nth_error _ _); [|now right]. destruct (parse _); now left.
  - left. unfold list_index in E. destruct (in_strs _ _); [discriminate|]. injection E as <-. reflexivity.
Qed.

Section View.
Variables (num : R -> Prop) (show : R -> str) (parse : str -> option R).
Hypothesis NF : number_format num show parse.
Lemma header_words vm pt end_ : num (vm_viewangle vm) -> num3 num (vm_dxyz vm) -> num3 num pt -> end_ = [] \/ end_ = newline ->
  let a := show (vm_viewangle vm) in let d := vm_dxyz vm in
  split_words (vm_header show vm pt ++ end_) =
  [s "VIEW="; s "-vta"; s "-vv"; a; s "-vh"; a; s "-vd"; show (vx d); show (vy d); show (vz d); s "-vp"; show (vx pt); show (vy pt); show (vz pt); s "-vu"]
  ++ (if near_z d then [s "0"; s "1"; s "0"] else [s "0"; s "0"; s "1"]).
Proof.
  intros Na (Nd1 & Nd2 & Nd3) (Np1 & Np2 & Np3) T a d.
  set (u := if near_z d then s "0 1 0" else s "0 0 1").
  set (ws := [s "VIEW="; s "-vta"; s "-vv"; a; s "-vh"; a; s "-vd"; show (vx d); show (vy d); show (vz d); s "-vp"; show (vx pt); show (vy pt); show (vz pt); s "-vu"]).
  assert (vm_header show vm pt ++ end_ = spaced ws (u ++ end_)) as ->.
  { unfold vm_header, spaced, ws. fold a d u. cbn [flat_map list_ascii_of_string]. cbn [app]. repeat (rewrite <- app_assoc; cbn [app]). reflexivity. }
  assert (Forall word ws) as W.
  { unfold ws, a, d. repeat (apply Forall_cons; [first [apply (show_word num show parse NF); assumption | split; [discriminate|repeat constructor]]|]). constructor. }
  rewrite words_spaced by exact W. f_equal. unfold u. destruct T as [->| ->]; destruct (near_z d); reflexivity.
Qed.
Lemma vf_view vm pt pre post end_ : num (vm_viewangle vm) -> num3 num (vm_dxyz vm) -> num3 num pt -> end_ = [] \/ end_ = newline ->
  Forall (fun l => ~ occurs (s "-vta") l) post ->
  vf_to_vm parse (pre ++ (vm_header show vm pt ++ end_) :: post) = Ok (mk_view (vm_dxyz vm) (vm_viewangle vm)).
Proof.
  intros Na Nd Np T N. pose proof (header_words vm pt end_ Na Nd Np T) as W. cbv zeta in W. pose proof Nd as (Nd1 & Nd2 & Nd3).
  set (a := show (vm_viewangle vm)) in *. set (d := vm_dxyz vm) in *.
  set (u := if near_z d then [s "0"; s "1"; s "0"] else [s "0"; s "0"; s "1"]) in *.
  assert (O : occurs (s "-vta") (vm_header show vm pt ++ end_)).
  { exists (s "VIEW= "). eexists. unfold vm_header. reflexivity. }
  replace d with (V3 (vx d) (vy d) (vz d)) by (destruct d; reflexivity).
  refine (vf_words parse pre _ post [s "VIEW="; s "-vta"; s "-vv"; a]
    ([s "-vd"; show (vx d); show (vy d); show (vz d); s "-vp"; show (vx pt); show (vy pt); show (vz pt); s "-vu"] ++ u) a (vm_viewangle vm)
    [s "VIEW="; s "-vta"; s "-vv"; a; s "-vh"; a] ([s "-vp"; show (vx pt); show (vy pt); show (vz pt); s "-vu"] ++ u)
    (show (vx d)) (show (vy d)) (show (vz d)) _ _ _ O N W _ _ W _ _ _ _).
  - intros [H|[H|[H|[H|[]]]]]; try discriminate. revert H. apply (show_not num show parse NF); [exact Na|cbn; tauto].
  - apply (NF _ Na).
  - intros [H|[H|[H|[H|[H|[H|[]]]]]]]; try discriminate; revert H; apply (show_not num show parse NF); try exact Na; cbn; tauto.
  - apply (NF _ Nd1).
  - apply (NF _ Nd2).
  - apply (NF _ Nd3).
Qed.
Lemma vf_roundtrip d va pt pre post end_ : d <> vzero -> hemi_angle va ->
  num (vm_viewangle (mk_view d va)) -> num3 num (vm_dxyz (mk_view d va)) -> num3 num pt -> end_ = [] \/ end_ = newline ->
  Forall (fun l => ~ occurs (s "-vta") l) post ->
  vf_to_vm parse (pre ++ (vm_header show (mk_view d va) pt ++ end_) :: post) = Ok (mk_view d va).
Proof. intros D H N1 N2 N3 T N. rewrite vf_view by assumption. rewrite mk_view_idem by exact D. now rewrite mk_view_hemi_va. Qed.
Lemma vf_full d pt pre post end_ : d <> vzero ->
  num 180%R -> num3 num (vm_dxyz (mk_view d 360)) -> num3 num pt -> end_ = [] \/ end_ = newline ->
  Forall (fun l => ~ occurs (s "-vta") l) post ->
  vf_to_vm parse (pre ++ (vm_header show (mk_view d 360) pt ++ end_) :: post) = Ok (mk_view d 180).
Proof.
  intros D N1 N2 N3 T N. destruct (mk_view_360 d) as [V _]. rewrite vf_view; try assumption; [|now rewrite V]. rewrite mk_view_idem by exact D. now rewrite V.
Qed.
End View.
Lemma size_both name w h out : solid_name name -> rows_first name w h out \/ columns_first name w h out -> img_size out = Ok (w, h).
Proof. intros N [H|H]; [now apply (size_rows name)|now apply (size_columns name)]. Qed.
Lemma vf_full_differs num show parse : number_format num show parse -> forall d pt pre post end_,
  d <> vzero -> num 180%R -> num3 num (vm_dxyz (mk_view d 360)) -> num3 num pt ->
  end_ = [] \/ end_ = newline -> Forall (fun l => ~ occurs (s "-vta") l) post ->
  vf_to_vm parse (pre ++ (vm_header show (mk_view d 360) pt ++ end_) :: post) = Ok (mk_view d 180) /\ vm_aspect (mk_view d 180) <> vm_aspect (mk_view d 360).
Proof.
  intros NF d pt pre post e D N1 N2 N3 T N. split; [now apply (vf_full num show parse NF)|].
  destruct (mk_view_360 d) as [_ A]. rewrite A, mk_view_hemi_aspect by apply hemi_180. discriminate.
Qed.
