From Coq Require Import Ascii String Lra Lia.
From Verif Require Import Base L_Base M_Translate S_Translate L_Angles M_Mapper S_Mapper L_Mapper L_Draw M_Utility S_Utility L_Utility M_Header S_Header M_Io M_Tools M_Rotate M_Transform S_Transform L_Transform M_Paths.
From Verif Require L_Tools2.
From Verif Require Import L_Header L_Header2 L_Header3 L_Header4 L_Header5 L_Header6 L_Header7.
From Verif Require Import M_Convert S_Convert L_Convert L_Convert2 L_Convert3.
Import ListNotations.
Local Open Scope R_scope.

Lemma nat_show_IZR n : nat_show (IZR n) = py_str n.
Proof. unfold nat_show. f_equal. unfold Int_part. pose proof (archimed (IZR n)) as [A1 A2]. apply lt_IZR in A1. rewrite <- minus_IZR in A2. apply le_IZR in A2. lia. Qed.
Lemma nat_chars : number_chars nat_num nat_show.
Proof.
  intros x (n & N & ->). rewrite nat_show_IZR. assert (A : all_digits (py_str n)) by (unfold py_str; destruct (Z.ltb_spec n 0); [lia|]; apply print_pos_all; [exact N|exact I]).
  revert A. generalize (py_str n) as l. induction l as [|c l IH]; intros A; [constructor|]. destruct A as [(d & D & ->) A]. constructor; [|auto].
  assert (F : Forall (fun c => In c (s "0123456789+-.einfa")) (map digit_char [0; 1; 2; 3; 4; 5; 6; 7; 8; 9]%Z)) by (apply chars_in; reflexivity).
  rewrite Forall_forall in F. apply F. apply in_map. assert (d = 0 \/ d = 1 \/ d = 2 \/ d = 3 \/ d = 4 \/ d = 5 \/ d = 6 \/ d = 7 \/ d = 8 \/ d = 9)%Z as C by lia. cbn. intuition.
Qed.
Definition side : viewmapper := mk_view (V3 1 0 0) 90.
Definition above : vec3 := V3 0 0 2.
Definition grey : image R := Img 2 2 (fun _ _ => 1).
Definition side_line : str := s "VIEW= -vta -vv 90 -vh 90 -vd 1 0 0 -vp 0 0 2 -vu 0 0 1".
Definition side_file : hdrfile := HdrFile side_line [grey; grey; grey].
Lemma hemi_90 : hemi_angle 90. Proof. unfold hemi_angle; lra. Qed.
Lemma side_nz : V3 1 0 0 <> vzero. Proof. intros Q; injection Q; lra. Qed.
Lemma side_dir : vm_dxyz side = V3 1 0 0.
Proof. unfold side. rewrite mk_view_dxyz by apply side_nz. apply norm_unit_id. unfold dot; cbn [vx vy vz]; ring. Qed.
Lemma side_va : vm_viewangle side = 90. Proof. apply mk_view_hemi_va, hemi_90. Qed.
Lemma side_header : vm_header nat_show side above = side_line.
Proof.
  assert (Z : near_z (V3 1 0 0) = false).
  { destruct (near_z (V3 1 0 0)) eqn:E; [|reflexivity]. apply near_z_spec in E as (E & _). cbn [vx] in E. rewrite Rabs_R1 in E. exfalso.
    assert (/ 10 ^ 8 < 1) by (rewrite <- Rinv_1; apply Rinv_lt_contravar; simpl; lra). lra. }
  unfold vm_header. rewrite side_dir, side_va, Z. cbn [vx vy vz above]. rewrite !nat_show_IZR. reflexivity.
Qed.
Lemma side_num : nat_num (vm_viewangle side) /\ num3 nat_num (vm_dxyz side) /\ num3 nat_num above /\ nat_num 0 /\ nat_num 1 /\ nat_num 90 /\ nat_num 30.
Proof.
  rewrite side_va, side_dir. unfold num3, above; cbn [vx vy vz].
  repeat split; first [exists 0%Z; split; [lia|reflexivity]|exists 1%Z; split; [lia|reflexivity]|exists 2%Z; split; [lia|reflexivity]|exists 30%Z; split; [lia|reflexivity]|exists 90%Z; split; [lia|reflexivity]].
Qed.
Lemma side_views : views_as nat_show side_file side above.
Proof.
  exists [], side_line, [], (skipn 5 side_line). split; [reflexivity|]. split; [|split; [apply L_Tools2.occurs_check; reflexivity|split; [constructor|now rewrite side_header]]].
  apply view_line_iff. split; [reflexivity|]. split; reflexivity.
Qed.
Lemma side_read : hdr_view nat_parse side_file = Ok (Some side).
Proof.
  destruct side_num as (A & B & C & _). unfold hdr_view. cbn [hf_text side_file hf_size hf_planes fst snd]. unfold side_file; cbn [hf_text hf_planes hf_size grey im_nx im_ny fst snd].
  rewrite <- side_header. pose proof (hdr2vm_roundtrip nat_num nat_show nat_parse nat_format (V3 1 0 0) 90 above [] [] 2 2) as H.
  rewrite app_nil_r in H. cbn [app] in H. fold side in H. rewrite H; auto using side_nz, hemi_90. lia.
Qed.
Lemma front_header : vm_header nat_show (mk_view (V3 0 1 0) 90) vzero = s "VIEW= -vta -vv 90 -vh 90 -vd 0 1 0 -vp 0 0 0 -vu 0 0 1".
Proof.
  assert (Z : near_z (V3 0 1 0) = false).
  { destruct (near_z (V3 0 1 0)) eqn:E; [|reflexivity]. apply near_z_spec in E as (_ & E & _). cbn [vy] in E. rewrite Rabs_R1 in E. exfalso.
    assert (/ 10 ^ 8 < 1) by (rewrite <- Rinv_1; apply Rinv_lt_contravar; simpl; lra). lra. }
  unfold vm_header. rewrite front_dir, mk_view_hemi_va, Z by apply hemi_90. cbn [vx vy vz vzero]. rewrite !nat_show_IZR. reflexivity.
Qed.
Lemma grey_plane nearest reverse : exists out, array_solid2ang nearest reverse 90 grey = Ok out.
Proof.
  unfold array_solid2ang. replace (Rgtb 90 180) with false by (symmetry; unfold Rgtb; apply Rltb_false; lra).
  assert (Q : vm_aspect (mk_view (V3 0 1 0) 90) = 1%Z) by (unfold mk_view; cbn [vm_aspect]; rewrite va_not_360; [reflexivity|apply hemi_90]).
  unfold transform_image. rewrite Q. destruct reverse; eexists; reflexivity.
Qed.
Lemma side_solid2ang nearest reverse : exists img, hdr_solid2ang nat_show nat_parse id_fill nearest reverse None side_file =
  Ok (img, [s "VIEW= -vta -vv 90 -vh 90 -vd 0 1 0 -vp 0 0 0 -vu 0 0 1"]).
Proof.
  unfold hdr_solid2ang. rewrite side_read. cbn [bind]. rewrite side_va, front_header. unfold side_file at 1; cbn [hf_planes each_plane].
  destruct (grey_plane nearest reverse) as [o ->]. cbn [bind]. eexists. reflexivity.
Qed.
Lemma side_rotate nearest : exists img h, hdr_rotate nat_show id_fill 30 (Some [0; 1]%Z) true nearest side_file = Ok (img, h).
Proof.
  unfold hdr_rotate. cbn [center_arg]. change (hf_planes side_file) with [grey; grey; grey]. cbn [each_plane].
  assert (exists o, array_rotate grey 30 (Center2 (0, 1)) true None nearest = Ok o) as [o ->] by (eexists; reflexivity). cbn [bind].
  unfold write_clean. rewrite nat_show_IZR. destruct (clean_header id_fill _) as [h|e] eqn:E; [exists [o; o; o], h; reflexivity|]. exfalso. destruct nearest; vm_compute in E; discriminate E.
Qed.
Lemma side_file_text : file_text [s "VIEW= -vta -vv 90 -vh 90 -vd 0 1 0 -vp 0 0 0 -vu 0 0 1"] (s "VIEW= -vta -vv 90 -vh 90 -vd 0 1 0 -vp 0 0 0 -vu 0 0 1").
Proof. exists [], []. split; [reflexivity|now left]. Qed.
Lemma direction_lost num show parse : number_format num show parse -> number_chars num show ->
  forall fill nearest reverse a d va va' pt f img h text n, views_as show f (mk_view d va) pt -> d <> vzero -> norm d <> V3 0 1 0 \/ pt <> vzero ->
  angle_used parse f a va' -> hemi_angle va' -> num va' -> num 0 -> num 1 -> hdr_solid2ang show parse fill nearest reverse a f = Ok (img, h) ->
  file_text h text -> (0 < n)%Z ->
  exists vm q, hdr2vm parse text n n = Ok (Some (vm, q)) /\ (vm_dxyz vm, q) <> (vm_dxyz (mk_view d va), pt).
Proof.
  intros NF NC fill nearest reverse a d va va' pt f img h text n _ D P A H N N0 N1 W T Y.
  destruct (solid2ang_written num show parse NF NC fill f nearest reverse a va' img h A H N N0 N1 W) as [_ R].
  exists (mk_view (V3 0 1 0) va'), vzero. split; [now apply R|]. rewrite front_dir, mk_view_dxyz by exact D. intros Q. apply pair_equal_spec in Q as [Q1 Q2]. destruct P as [P|P]; apply P; congruence.
Qed.
Definition wide_file : hdrfile := HdrFile (vm_header nat_show (mk_view (V3 0 0 1) 180) above) [grey; grey; grey].
Lemma wide_read : hdr_view nat_parse wide_file = Ok (Some (mk_view (V3 0 0 1) 180)).
Proof.
  destruct side_num as (_ & _ & C & _). assert (H : hemi_angle 180) by (unfold hemi_angle; lra).
  assert (A : nat_num (vm_viewangle (mk_view (V3 0 0 1) 180))) by (rewrite mk_view_hemi_va by exact H; exists 180%Z; split; [lia|reflexivity]).
  assert (Z : V3 0 0 1 <> vzero) by (intros Q; injection Q; lra).
  assert (B : num3 nat_num (vm_dxyz (mk_view (V3 0 0 1) 180))) by (rewrite mk_view_dxyz by exact Z; rewrite norm_unit_id by (unfold dot; cbn [vx vy vz]; ring); repeat split; cbn [vx vy vz]; first [exists 0%Z; split; [lia|reflexivity]|exists 1%Z; split; [lia|reflexivity]]).
  unfold hdr_view, wide_file; cbn [hf_text hf_planes hf_size grey im_nx im_ny fst snd].
  pose proof (hdr2vm_roundtrip nat_num nat_show nat_parse nat_format (V3 0 0 1) 180 above [] [] 2 2) as R.
  rewrite app_nil_r in R. cbn [app] in R. rewrite R; auto. lia.
Qed.
