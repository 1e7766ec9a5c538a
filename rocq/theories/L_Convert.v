From Coq Require Import Ascii String Lra Lia.
From Verif Require Import Base L_Base M_Translate S_Translate L_Angles M_Mapper S_Mapper L_Mapper M_Utility M_Header S_Header M_Io M_Tools M_Rotate M_Transform M_Paths.
From Verif Require Import L_Header L_Header2 L_Header3 L_Header4 L_Tools2.
From Verif Require Import M_Convert S_Convert.
Import ListNotations.
Local Open Scope R_scope.

Lemma splitlines_join_gen ls : Forall one_line ls -> exists e, ls = splitlines (join newline ls) ++ e /\ (e = [] \/ e = [[]]).
Proof.
  induction ls as [|a ls IH]; intros O; [exists []; auto|]. inversion O; subst. destruct (IH H2) as [e [E C]]. destruct ls as [|b ls].
  - cbn [join]. unfold splitlines. pose proof (splitlines_run a [] [] H1) as Q. rewrite !app_nil_r in Q. rewrite Q. cbn [splitlines_from].
    destruct (rev a) eqn:R; [|rewrite <- R, rev_involutive; exists []; auto]. rewrite <- (rev_involutive a), R. exists [[]]. auto.
  - change (join newline (a :: b :: ls)) with (a ++ "010"%char :: join newline (b :: ls)). unfold splitlines in *. rewrite splitlines_run, app_nil_r by assumption.
    cbn [splitlines_from]. change (is_break "010"%char) with true. cbv iota. rewrite rev_involutive. exists e. split; [|exact C]. cbn [app]. f_equal. exact E.
Qed.
Lemma no_view_empty v : ~ view_line [] v.
Proof.
  intros H. apply view_line_iff in H as (_ & H & _). discriminate H.
Qed.
Lemma last_view_join ls v : Forall one_line ls -> last_view ls v -> last_view (splitlines (join newline ls)) v.
Proof.
  intros O (b & h & a & E & V & A). destruct (splitlines_join_gen ls O) as (e & F & Q). destruct Q as [Q|Q]; subst e.
  - rewrite app_nil_r in F. rewrite <- F. exists b, h, a. auto.
  - set (sl := splitlines (join newline ls)) in *. clearbody sl. rewrite E in F. destruct a as [|x a] using rev_ind.
    + apply app_inj_tail in F as [_ F]. subst h. now apply no_view_empty in V.
    + clear IHa. rewrite app_comm_cons, app_assoc in F. apply app_inj_tail in F as [F _]. exists b, h, a. split; [now symmetry|]. split; [exact V|].
      apply Forall_app in A. tauto.
Qed.
Lemma header_lines_one f : Forall one_line (header_lines f).
Proof.
  unfold header_lines. apply Forall_forall. intros l H. apply filter_In in H as [H _].
  pose proof (splitlines_one (strip (hf_text f)) [] (Forall_nil _)) as G. rewrite Forall_forall in G. apply G. exact H.
Qed.
Lemma not_in_occurs c p l : In c p -> ~ In c l -> ~ occurs p l.
Proof. intros I N (a & b & ->). apply N. apply in_or_app. right. apply in_or_app. now left. Qed.

Section Show.
Variable num : R -> Prop.
Variable show : R -> str.
Variable parse : str -> option R.
Hypothesis NF : number_format num show parse.
Hypothesis NU : number_chars num show.

Lemma header_chars (P : ascii -> Prop) vm pt : num (vm_viewangle vm) -> num3 num (vm_dxyz vm) -> num3 num pt ->
  (forall x, num x -> Forall P (show x)) -> Forall P (s "VIEW= -vta -vv " ++ s " -vh " ++ s " -vd " ++ s " -vp " ++ s " -vu 0 1") ->
  Forall P (vm_header show vm pt).
Proof.
  intros Na (N1 & N2 & N3) (N4 & N5 & N6) H L. repeat (apply Forall_app in L as [? L]).
  assert (Forall P (s "0 1 0") /\ Forall P (s "0 0 1") /\ Forall P (s " ") /\ Forall P (s " -vu ")) as (A & B & C & D).
  { rewrite Forall_forall in L. split; [|split; [|split]]; apply Forall_forall; intros c I; apply L; cbn in I |- *; intuition. }
  unfold vm_header. repeat (apply Forall_app; split); auto. destruct (near_z (vm_dxyz vm)); auto.
Qed.
Lemma header_one vm pt : num (vm_viewangle vm) -> num3 num (vm_dxyz vm) -> num3 num pt -> one_line (vm_header show vm pt).
Proof. intros. apply header_chars; auto; [|repeat constructor]. intros x Hx. apply nonblank_one. apply (NF x Hx). Qed.
Lemma header_view_line vm pt : num (vm_viewangle vm) -> num3 num (vm_dxyz vm) -> num3 num pt ->
  exists v, view_line (vm_header show vm pt) v /\ s "VIEW=" ++ v = vm_header show vm pt.
Proof.
  intros A B C. set (h := vm_header show vm pt).
  assert (T : trimmed h).
  { unfold trimmed. split; [reflexivity|]. unfold h, vm_header. rewrite !rev_app_distr. destruct (near_z (vm_dxyz vm)); cbn; split; try reflexivity; discriminate. }
  assert (U : ~ In "_"%char h).
  { intros I. assert (Forall (fun c => c <> "_"%char) h) as F.
    { apply header_chars; auto; [|repeat constructor; discriminate]. intros x Hx. eapply Forall_impl; [|exact (NU x Hx)]. intros c Hc ->. revert Hc. cbn. intuition discriminate. }
    rewrite Forall_forall in F. now apply (F _ I). }
  assert (L : line_text h = h).
  { unfold line_text. rewrite strip_trimmed by exact T. apply sub_clasp_none. apply not_in_occurs with "_"%char; [cbn; tauto|exact U]. }
  exists (skipn 5 h). assert (E : s "VIEW=" ++ skipn 5 h = h) by reflexivity. split; [|exact E]. split.
  - rewrite L. now apply trimmed_not_file.
  - rewrite L. apply entry_eq; [rewrite <- E at 1; reflexivity|]. cbn. intuition discriminate.
Qed.
Lemma written_last fill img ls img' h v : Forall one_line ls -> last_view ls v -> write_clean fill img ls = Ok (img', h) ->
  img' = img /\ exists rest, h = rest ++ [s "VIEW=" ++ v].
Proof.
  intros O V W. unfold write_clean in W. destruct (clean_header fill ls) as [h'|e] eqn:E; [|discriminate]. cbn [bind] in W. injection W as <- <-. split; [reflexivity|].
  eapply clean_last_view; [exact E|]. now apply last_view_join.
Qed.
Lemma read_written d va pt rest h text x y : h = rest ++ [vm_header show (mk_view d va) pt] -> file_text h text -> d <> vzero ->
  (hemi_angle va /\ x = y \/ va = 360 /\ x = (2 * y)%Z) -> (0 < y)%Z ->
  num (vm_viewangle (mk_view d va)) -> num3 num (vm_dxyz (mk_view d va)) -> num3 num pt ->
  hdr2vm parse text x y = Ok (Some (mk_view d va, pt)).
Proof.
  intros -> (pre & tail & -> & T) D C Y N1 N2 N3. destruct (join_last rest (vm_header show (mk_view d va) pt)) as [a ->].
  rewrite <- app_assoc, app_assoc. apply (hdr2vm_roundtrip num show parse NF); auto.
Qed.
Lemma front_dir va : vm_dxyz (mk_view (V3 0 1 0) va) = V3 0 1 0.
Proof.
  assert (V3 0 1 0 <> vzero) by (intros Q; injection Q; lra). rewrite mk_view_dxyz by auto. apply norm_unit_id. unfold dot; cbn [vx vy vz]; ring.
Qed.
Lemma each_plane_ok g l l' : each_plane g l = Ok l' -> Forall2 (fun x y => g x = Ok y) l l'.
Proof.
  revert l'. induction l as [|x l IH]; intros l' H; cbn [each_plane] in H; [injection H as <-; constructor|].
  destruct (g x) as [y|] eqn:E; [|discriminate]. cbn [bind] in H. destruct (each_plane g l) as [ys|]; [|discriminate]. cbn [bind] in H. injection H as <-. constructor; auto.
Qed.
Lemma solid2ang_written fill f nearest reverse a va img h : angle_used parse f a va -> hemi_angle va -> num va -> num 0 -> num 1 ->
  hdr_solid2ang show parse fill nearest reverse a f = Ok (img, h) ->
  Forall2 (fun im im' => array_solid2ang nearest reverse va im = Ok im') (hf_planes f) img /\
  forall text n, file_text h text -> (0 < n)%Z -> hdr2vm parse text n n = Ok (Some (mk_view (V3 0 1 0) va, vzero)).
Proof.
  intros A H Na N0 N1 W. unfold hdr_solid2ang in W.
  assert (E : (match a with Some a => Ok a | None => bind (hdr_view parse f) (fun vm => Ok (match vm with None => 180 | Some vm => vm_viewangle vm end)) end) = Ok va).
  { destruct A as [->|[[-> [vm [-> ->]]]|[-> [-> ->]]]]; reflexivity. }
  rewrite E in W. cbn [bind] in W. destruct (each_plane (array_solid2ang nearest reverse va) (hf_planes f)) as [im|e] eqn:EP; [|discriminate]. cbn [bind] in W.
  assert (X1 : num (vm_viewangle (mk_view (V3 0 1 0) va))) by (now rewrite mk_view_hemi_va).
  assert (X2 : num3 num (vm_dxyz (mk_view (V3 0 1 0) va))) by (rewrite front_dir; now repeat split).
  assert (X3 : num3 num vzero) by (now repeat split).
  destruct (header_view_line _ _ X1 X2 X3) as [v [VL VE]].
  destruct (written_last fill im (header_lines f ++ [vm_header show (mk_view (V3 0 1 0) va) vzero]) img h v) as [-> [rest R]]; [| |exact W|].
  - apply Forall_app. split; [apply header_lines_one|]. constructor; [now apply header_one|constructor].
  - exists (header_lines f), (vm_header show (mk_view (V3 0 1 0) va) vzero), []. auto.
  - split; [now apply each_plane_ok|]. intros text n T Y. rewrite VE in R. eapply read_written; eauto. intros Q; injection Q; lra.
Qed.
Lemma views_last f vm pt : views_as show f vm pt -> exists v, last_view (header_lines f) v /\ s "VIEW=" ++ v = vm_header show vm pt.
Proof.
  intros (b & h & a & v & E & V & NR & A & F). exists v. split; [|exact F]. unfold header_lines. rewrite E, filter_app. cbn [filter].
  replace (contains (s "RADIANCE") h) with false by (symmetry; apply contains_false; exact NR). cbn [negb].
  eexists. exists h. eexists. split; [reflexivity|]. split; [exact V|]. apply Forall_forall. intros x X. apply filter_In in X as [X _]. rewrite Forall_forall in A. now apply A.
Qed.
Lemma kept_view fill f d va pt img img' ls h : views_as show f (mk_view d va) pt -> ls = header_lines f \/ (exists l, ls = header_lines f ++ [l] /\ one_line l /\ forall v, ~ view_line l v) ->
  write_clean fill img ls = Ok (img', h) -> d <> vzero -> num (vm_viewangle (mk_view d va)) -> num3 num (vm_dxyz (mk_view d va)) -> num3 num pt ->
  img' = img /\ forall text x y, (hemi_angle va /\ x = y \/ va = 360 /\ x = (2 * y)%Z) -> (0 < y)%Z -> file_text h text ->
    hdr2vm parse text x y = Ok (Some (mk_view d va, pt)).
Proof.
  intros VA L W D N1 N2 N3. destruct (views_last _ _ _ VA) as (v & V & E). clear VA. assert (last_view ls v /\ Forall one_line ls) as [V' O'].
  { destruct L as [->|(l & -> & O & NV)]; [split; [exact V|apply header_lines_one]|]. split; [|apply Forall_app; split; [apply header_lines_one|now constructor]].
    destruct V as (b & hh & a & -> & VL & A). exists b, hh, (a ++ [l]). split; [now rewrite <- app_assoc|]. split; [exact VL|]. apply Forall_app. split; [exact A|]. now constructor. }
  destruct (written_last fill img ls img' h v O' V' W) as [-> [rest R]]. split; [reflexivity|]. intros text x y C Y T. rewrite E in R. eapply read_written; eauto.
Qed.
(** the view of the source *)
Lemma source_read f d va pt im rest : file_text [vm_header show (mk_view d va) pt] (hf_text f) -> d <> vzero -> hf_planes f = im :: rest ->
  (hemi_angle va /\ im_nx im = im_ny im \/ va = 360 /\ im_nx im = (2 * im_ny im)%Z) -> (0 < im_ny im)%Z ->
  num (vm_viewangle (mk_view d va)) -> num3 num (vm_dxyz (mk_view d va)) -> num3 num pt ->
  hdr_view parse f = Ok (Some (mk_view d va)).
Proof.
  intros T D P C Y N1 N2 N3. unfold hdr_view, hf_size. rewrite P. cbn [fst snd].
  rewrite (read_written d va pt [] [vm_header show (mk_view d va) pt] (hf_text f) (im_nx im) (im_ny im)); auto.
Qed.
Lemma source_angle fill nearest reverse f d va pt im rest : file_text [vm_header show (mk_view d va) pt] (hf_text f) -> d <> vzero -> hf_planes f = im :: rest ->
  (hemi_angle va /\ im_nx im = im_ny im \/ va = 360 /\ im_nx im = (2 * im_ny im)%Z) -> (0 < im_ny im)%Z ->
  num (vm_viewangle (mk_view d va)) -> num3 num (vm_dxyz (mk_view d va)) -> num3 num pt ->
  hdr_view parse f = Ok (Some (mk_view d va)) /\
  hdr_solid2ang show parse fill nearest reverse None f = hdr_solid2ang show parse fill nearest reverse (Some (if Reqb va 360 then 180 else va)) f.
Proof.
  intros T D P C Y N1 N2 N3. assert (hdr_view parse f = Ok (Some (mk_view d va))) as R by (eapply source_read; eassumption). split; [exact R|].
  unfold hdr_solid2ang. rewrite R. cbn [bind]. reflexivity.
Qed.
End Show.
