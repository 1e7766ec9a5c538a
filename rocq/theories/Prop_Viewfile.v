(** The size of an image file and the view of a view file (C112, C113) *)
From Coq Require Import Ascii String Lra Lia.
From Verif Require Import Base M_Translate M_Mapper S_Mapper M_Utility M_Header S_Utility S_Paths S_Header M_Viewfile S_Viewfile L_Header6 L_Viewfile.
Import ListNotations.
Local Open Scope list_scope.

(** C112: (width, height), whichever axis the resolution string names first and whatever its signs *)
Theorem C112_size : forall name w h out, solid_name name -> rows_first name w h out \/ columns_first name w h out -> img_size out = Ok (w, h).
Proof. exact size_both. Qed.
(** a word with an X before the resolution string is taken for an axis *)
Theorem C112_blank_name_refuted : exists out, rows_first (s "my Xmas.hdr:") 8 4 out /\ img_size out = Raise ValueError.
Proof. exact size_blank. Qed.
Example C112_nonvacuous : solid_name (s "Xmas.hdr:") /\ rows_first (s "Xmas.hdr:") 800 40 (s "Xmas.hdr: -Y 40 +X 800" ++ newline) /\
  columns_first (s "a.hdr:") 800 40 (s "a.hdr: +X 800 -Y 40" ++ newline).
Proof.
  assert (int_text 800 (s "800")) by (exists [8; 0; 0]%nat; split; [discriminate|split; [repeat (constructor; [lia|]); constructor|split; reflexivity]]).
  assert (int_text 40 (s "40")) by (exists [4; 0]%nat; split; [discriminate|split; [repeat (constructor; [lia|]); constructor|split; reflexivity]]).
  split; [split; [discriminate|repeat constructor]|].
  split; [exists "-"%char, "+"%char, (s "800"), (s "40")|exists "+"%char, "-"%char, (s "800"), (s "40")]; unfold axis_sign; repeat split; auto.
Qed.
Print Assumptions C112_size.
Print Assumptions C112_blank_name_refuted.

(** C113: the last view of a file is read back; lines before it and lines without a view after it do not matter *)
Theorem C113_roundtrip : forall num show parse, number_format num show parse -> forall d va pt pre post end_,
  d <> vzero -> hemi_angle va -> num (vm_viewangle (mk_view d va)) -> num3 num (vm_dxyz (mk_view d va)) -> num3 num pt ->
  end_ = [] \/ end_ = newline -> Forall (fun l => ~ occurs (s "-vta") l) post ->
  vf_to_vm parse (pre ++ (vm_header show (mk_view d va) pt ++ end_) :: post) = Ok (mk_view d va).
Proof. exact vf_roundtrip. Qed.
(** the options may come in any order: only the words after the first -vh and the first -vd count *)
Theorem C113_options : forall parse pre l post a b t va c d x y z X Y Z0,
  occurs (s "-vta") l -> Forall (fun l => ~ occurs (s "-vta") l) post ->
  split_words l = a ++ [s "-vh"; t] ++ b -> ~ In (s "-vh") a -> parse t = Some va ->
  split_words l = c ++ [s "-vd"; x; y; z] ++ d -> ~ In (s "-vd") c -> parse x = Some X -> parse y = Some Y -> parse z = Some Z0 ->
  vf_to_vm parse (pre ++ l :: post) = Ok (mk_view (V3 X Y Z0) va).
Proof. exact vf_words. Qed.
(** a file without such a line is rejected *)
Theorem C113_none : forall parse lines, Forall (fun l => ~ occurs (s "-vta") l) lines -> vf_to_vm parse lines = Raise ValueError.
Proof. exact vf_none. Qed.
(** a view line without direction is rejected, although the image header reader takes the default direction for it *)
Theorem C113_no_direction : forall parse pre l post, occurs (s "-vta") l -> Forall (fun l => ~ occurs (s "-vta") l) post ->
  ~ In (s "-vd") (split_words l) -> vf_to_vm parse (pre ++ l :: post) = Raise ValueError \/ vf_to_vm parse (pre ++ l :: post) = Raise IndexError.
Proof. exact vf_no_direction. Qed.
(** the header of a 360 degree view is read back as its front half *)
Theorem C113_full_view_refuted : forall num show parse, number_format num show parse -> forall d pt pre post end_,
  d <> vzero -> num 180%R -> num3 num (vm_dxyz (mk_view d 360)) -> num3 num pt ->
  end_ = [] \/ end_ = newline -> Forall (fun l => ~ occurs (s "-vta") l) post ->
  vf_to_vm parse (pre ++ (vm_header show (mk_view d 360) pt ++ end_) :: post) = Ok (mk_view d 180) /\ vm_aspect (mk_view d 180) <> vm_aspect (mk_view d 360).
Proof. exact vf_full_differs. Qed.
Example C113_nonvacuous : number_format nat_num nat_show nat_parse /\ hemi_angle 90 /\
  nat_num (vm_viewangle (mk_view (V3 0 2 0) 90)) /\ num3 nat_num (vm_dxyz (mk_view (V3 0 2 0) 90)) /\ nat_num 180 /\
  num3 nat_num (vm_dxyz (mk_view (V3 0 2 0) 360)) /\ ~ occurs (s "-vta") (s "rview -vtv") /\ occurs (s "-vta") (s "rvu -vta -vd 0 1 0").
Proof.
  assert (D : norm (V3 0 2 0) = V3 0 1 0).
  { replace (V3 0 2 0) with (vscale 2 (V3 0 1 0)) by (unfold vscale; cbn [vx vy vz]; f_equal; lra).
    rewrite L_Angles.norm_scale by (try lra; intros Q; injection Q; lra). apply L_Angles.norm_unit_id. unfold dot. cbn [vx vy vz]. lra. }
  assert (num3 nat_num (V3 0 1 0)) by (split; [exists 0%Z|split; [exists 1%Z|exists 0%Z]]; (split; [lia|reflexivity])).
  split; [exact nat_format|]. split; [unfold hemi_angle; lra|]. split; [|split; [|split; [|split; [|split]]]].
  - rewrite L_Mapper.mk_view_hemi_va by (unfold hemi_angle; lra). exists 90%Z. split; [lia|reflexivity].
  - rewrite L_Mapper.mk_view_dxyz by (intros Q; injection Q; lra). now rewrite D.
  - exists 180%Z. split; [lia|reflexivity].
  - rewrite L_Mapper.mk_view_dxyz by (intros Q; injection Q; lra). now rewrite D.
  - apply L_Header.last_after_none. reflexivity.
  - exists (s "rvu "), (s " -vd 0 1 0"). reflexivity.
Qed.
Print Assumptions C113_roundtrip.
Print Assumptions C113_options.
Print Assumptions C113_none.
Print Assumptions C113_no_direction.
Print Assumptions C113_full_view_refuted.
