From Coq Require Import Ascii String Lra Lia.
From Verif Require Import Base L_Base M_Translate S_Translate L_Angles M_Mapper S_Mapper L_Mapper M_Utility M_Header S_Header M_Io M_Tools M_Rotate M_Transform M_Paths.
From Verif Require Import L_Header L_Header2 L_Header3 L_Header4 L_Header7 S_Utility S_Paths L_Paths2.
From Verif Require Import M_Convert S_Convert L_Convert.
From Verif Require L_Draw M_Initimg L_Initimg.
Import ListNotations.
Local Open Scope R_scope.

Lemma chars_in (big small : str) : forallb (fun c => existsb (Ascii.eqb c) big) small = true -> Forall (fun c => In c big) small.
Proof.
  intros H. rewrite forallb_forall in H. apply Forall_forall. intros c I. specialize (H c I). apply existsb_exists in H as (x & X & E). apply Ascii.eqb_eq in E. now subst.
Qed.
Lemma digit_sign_in d : (d < 10)%nat -> Forall (fun c => In c (s "0123456789+-.einfa")) [digit_sign d].
Proof. intros H. apply chars_in. do 10 (destruct d as [|d]; [reflexivity|]). lia. Qed.
Lemma show_int_chars z : Forall (fun c => In c (s "0123456789+-.einfa")) (show_int z).
Proof.
  destruct (show_shape z) as (ds & -> & F & _). apply Forall_app. split; [apply chars_in; destruct (z <? 0)%Z; reflexivity|].
  apply Forall_map. eapply Forall_impl; [|exact F]. intros d H. apply digit_sign_in in H. now inversion H.
Qed.
Lemma center_arg_means c r : center_arg c = Some r -> center_means c r.
Proof.
  destruct c as [[|x [|y [|x' [|y' [|z l]]]]]|]; cbn [center_arg]; intros H; try discriminate H; injection H as <-; constructor.
Qed.
Lemma from_flat_rows nx ny (l : list R) : (0 <= nx)%Z -> (0 < ny)%Z -> Z.of_nat (length l) = (nx * ny)%Z -> rows_of (from_flat nx ny l) = l.
Proof.
  intros X Y L. unfold rows_of, from_flat. cbn [im_nx im_ny im_px].
  assert (G : flat_map (fun i => map (fun j => nth (Z.to_nat (i * ny + j)) l 0) (zrange ny)) (zrange nx)
            = map (fun p => nth (Z.to_nat (fst p * ny + snd p)) l 0) (zgrid nx ny)).
  { unfold zgrid. generalize (zrange nx) as r. induction r as [|i r IH]; [reflexivity|]. cbn [flat_map]. rewrite map_app, <- IH, map_map. reflexivity. }
  rewrite G, L_Initimg.zgrid_unravel by lia. rewrite map_map. unfold zrange. rewrite map_map, <- L, Nat2Z.id.
  transitivity (map (fun k => nth k l 0) (seq 0 (length l))).
  - apply map_ext. intros k. unfold M_Initimg.unravel. cbn [fst snd]. f_equal. rewrite <- (Nat2Z.id k) at 3. f_equal. rewrite Z.mul_comm. symmetry. apply Z.div_mod. lia.
  - clear. induction l as [|x l IH]; [reflexivity|]. cbn [length seq map nth]. f_equal. rewrite <- seq_shift, map_map. exact IH.
Qed.
Lemma np_read_len {A} (im : image A) pts l : np_read im pts = Ok l -> length l = length pts.
Proof.
  unfold np_read. destruct (all_some _) as [q|] eqn:E; [|discriminate]. intros H. injection H as <-. rewrite map_length. rewrite <- (map_length (np_index2 im) pts).
  revert q E. generalize (map (np_index2 im) pts) as o. induction o as [|[x|] o IH]; intros q E; cbn [all_some] in E; [injection E as <-; reflexivity| |discriminate].
  destruct (all_some o); [|discriminate]. injection E as <-. cbn [length]. f_equal. now apply IH.
Qed.
Lemma scatter_len {A} (z : A) m v : length (scatter z m v) = length m.
Proof. revert v. induction m as [|b m IH]; intros v; [destruct v; reflexivity|]. destruct b, v; cbn [scatter length]; f_equal; apply IH. Qed.
Section Show.
Variable num : R -> Prop.
Variable show : R -> str.
Variable parse : str -> option R.
Hypothesis NF : number_format num show parse.
Hypothesis NU : number_chars num show.

Definition rot_line rotate center rotate_first nearest :=
  s "hdr_rotate rotate:" ++ show rotate ++ s " center:" ++ show_center center ++ s ", rotate_first:" ++ show_bool rotate_first ++ s ", nearest:" ++ show_bool nearest.
Definition rot_char (c : ascii) : Prop := In c (s "0123456789+-.einfahdr_ote:c,stTruFlN() b").
Lemma rot_chars rotate center rf nearest : num rotate -> Forall rot_char (rot_line rotate center rf nearest).
Proof.
  intros N. assert (K : forall l, Forall (fun c => In c (s "0123456789+-.einfa")) l -> Forall rot_char l).
  { intros l. apply Forall_impl. apply Forall_forall. apply chars_in. reflexivity. }
  assert (B : forall b, Forall rot_char (show_bool b)) by (intros []; apply chars_in; reflexivity).
  assert (J : forall l, Forall rot_char (join (s ", ") (map show_int l))).
  { induction l as [|x [|y l] IH]; [constructor| |].
    - cbn [map join]. apply K, show_int_chars.
    - change (join (s ", ") (map show_int (x :: y :: l))) with (show_int x ++ s ", " ++ join (s ", ") (map show_int (y :: l))).
      apply Forall_app. split; [apply K, show_int_chars|]. apply Forall_app. split; [|exact IH]. apply chars_in. reflexivity. }
  unfold rot_line. apply Forall_app. split; [apply chars_in; reflexivity|]. apply Forall_app. split; [apply K, NU, N|].
  apply Forall_app. split; [apply chars_in; reflexivity|]. apply Forall_app. split.
  - unfold show_center. destruct center as [l|]; [|apply chars_in; reflexivity].
    apply Forall_app. split; [apply chars_in; reflexivity|]. apply Forall_app. split; [apply J|apply chars_in; reflexivity].
  - apply Forall_app. split; [apply chars_in; reflexivity|]. apply Forall_app. split; [apply B|]. apply Forall_app. split; [apply chars_in; reflexivity|apply B].
Qed.
Lemma rot_one rotate center rf nearest : num rotate -> one_line (rot_line rotate center rf nearest).
Proof.
  intros N. eapply Forall_impl; [|apply rot_chars; exact N]. apply Forall_forall. repeat constructor.
Qed.
Lemma rot_not_view rotate center rf nearest v : num rotate -> ~ view_line (rot_line rotate center rf nearest) v.
Proof.
  intros N [_ V].
  assert (T : trimmed (rot_line rotate center rf nearest)).
  { split; [reflexivity|]. unfold rot_line. rewrite !rev_app_distr. destruct nearest; cbn; split; try reflexivity; discriminate. }
  assert (P : ~ In "p"%char (rot_line rotate center rf nearest)).
  { intros I. pose proof (rot_chars rotate center rf nearest N) as F. rewrite Forall_forall in F. specialize (F _ I). unfold rot_char in F.
    assert (E : existsb (Ascii.eqb "p") (s "0123456789+-.einfahdr_ote:c,stTruFlN() b") = true) by (apply existsb_exists; exists "p"%char; split; [exact F|reflexivity]). discriminate E. }
  unfold line_text in V. rewrite strip_trimmed, sub_clasp_none in V by first [exact T|apply not_in_occurs with "p"%char; [cbn; tauto|exact P]].
  assert (exists r, rot_line rotate center rf nearest = "h"%char :: r) as [r R] by (eexists; reflexivity). rewrite R in V. clear R T P.
  destruct V as [E _|c w _ E _ _ _ _|_ E _ _]; discriminate E.
Qed.
Lemma rotate_written fill rotate center rf nearest f d va pt img h :
  views_as show f (mk_view d va) pt -> d <> vzero -> num rotate -> num (vm_viewangle (mk_view d va)) -> num3 num (vm_dxyz (mk_view d va)) -> num3 num pt ->
  hdr_rotate show fill rotate center rf nearest f = Ok (img, h) ->
  (exists c, center_means center c /\ Forall2 (fun im im' => array_rotate im rotate c rf None nearest = Ok im') (hf_planes f) img) /\
  forall text x y, (hemi_angle va /\ x = y \/ va = 360 /\ x = (2 * y)%Z) -> (0 < y)%Z -> file_text h text ->
    hdr2vm parse text x y = Ok (Some (mk_view d va, pt)).
Proof.
  intros V D NR N1 N2 N3 W. unfold hdr_rotate in W. destruct (center_arg center) as [c|] eqn:CA; [|discriminate].
  destruct (each_plane _ (hf_planes f)) as [im|] eqn:EP; [|discriminate]. cbn [bind] in W.
  destruct (kept_view num show parse NF fill f d va pt im img (header_lines f ++ [rot_line rotate center rf nearest]) h V) as [-> K]; auto.
  - right. eexists. split; [reflexivity|]. split; [now apply rot_one|]. intros v. now apply rot_not_view.
  - split; [|exact K]. exists c. split; [now apply center_arg_means|]. now apply each_plane_ok.
Qed.
Lemma ang2uv_written fill useview f d va pt img h :
  views_as show f (mk_view d va) pt -> d <> vzero -> num (vm_viewangle (mk_view d va)) -> num3 num (vm_dxyz (mk_view d va)) -> num3 num pt ->
  with_pixels f -> hdr_ang2uv parse fill useview f = Ok (img, h) ->
  (exists vm, (if useview then hdr_view parse f else Ok None) = Ok vm /\
    Forall2 (fun im im' => im_nx im' = im_ny im /\ im_ny im' = im_ny im /\
      array_ang2uv (match vm with Some vm => vm | None => mk_view (V3 0 1 0) 180 end) im = Ok (rows_of im')) (hf_planes f) img) /\
  forall text x y, (hemi_angle va /\ x = y \/ va = 360 /\ x = (2 * y)%Z) -> (0 < y)%Z -> file_text h text ->
    hdr2vm parse text x y = Ok (Some (mk_view d va, pt)).
Proof.
  intros V D N1 N2 N3 PX W. unfold hdr_ang2uv in W. destruct (if useview then hdr_view parse f else Ok None) as [vm|]; [|discriminate]. cbn [bind] in W.
  destruct (each_plane _ (hf_planes f)) as [im|] eqn:EP; [|discriminate]. cbn [bind] in W.
  destruct (kept_view num show parse NF fill f d va pt im img (header_lines f) h V) as [-> K]; auto.
  split; [|exact K]. exists vm. split; [reflexivity|]. apply each_plane_ok in EP. unfold with_pixels in PX. clear - EP PX. revert EP PX. generalize (hf_planes f) as l. intros l EP. induction EP as [|x y l l' E EP IH]; [constructor|]. intros PX. inversion PX as [|? ? [X Y] PX']; subst. constructor; [|now apply IH].
  destruct (array_ang2uv _ x) as [v|] eqn:AE; [|discriminate E]. cbn [bind] in E. injection E as <-. split; [reflexivity|]. split; [reflexivity|]. rewrite from_flat_rows; [first [reflexivity|destruct vm; first [reflexivity|exact AE]]|lia|lia|].
  unfold array_ang2uv in AE. apply np_read_len in AE. rewrite AE, map_length, L_Draw.zrange_length. nia.
Qed.
Lemma uv2ang_written fill f d va pt img h :
  views_as show f (mk_view d va) pt -> d <> vzero -> num (vm_viewangle (mk_view d va)) -> num3 num (vm_dxyz (mk_view d va)) -> num3 num pt ->
  with_pixels f -> hdr_uv2ang fill f = Ok (img, h) ->
  Forall2 (fun im im' => im_nx im' = im_nx im /\ im_ny im' = im_ny im /\ array_uv2ang 0 im = Ok (rows_of im')) (hf_planes f) img /\
  forall text x y, (hemi_angle va /\ x = y \/ va = 360 /\ x = (2 * y)%Z) -> (0 < y)%Z -> file_text h text ->
    hdr2vm parse text x y = Ok (Some (mk_view d va, pt)).
Proof.
  intros V D N1 N2 N3 PX W. unfold hdr_uv2ang in W.
  destruct (each_plane _ (hf_planes f)) as [im|] eqn:EP; [|discriminate]. cbn [bind] in W.
  destruct (kept_view num show parse NF fill f d va pt im img (header_lines f) h V) as [-> K]; auto.
  split; [|exact K]. apply each_plane_ok in EP. unfold with_pixels in PX. clear - EP PX. revert EP PX. generalize (hf_planes f) as l. intros l EP. induction EP as [|x y l l' E EP IH]; [constructor|]. intros PX. inversion PX as [|? ? [X Y] PX']; subst. constructor; [|now apply IH].
  destruct (array_uv2ang 0 x) as [v|] eqn:AE; [|discriminate E]. cbn [bind] in E. injection E as <-. split; [reflexivity|]. split; [reflexivity|]. rewrite from_flat_rows; [reflexivity|lia|lia|].
  unfold array_uv2ang in AE. destruct (_ =? _)%Z eqn:M in AE; [|discriminate AE]. destruct (np_read _ _) in AE; [|discriminate AE]. cbn [bind] in AE. injection AE as <-. rewrite scatter_len. now apply Z.eqb_eq.
Qed.
End Show.
