(** Properties of hdr_solid2ang, hdr_rotate, hdr_ang2uv and hdr_uv2ang: C128, C129 *)
From Coq Require Import Ascii String Lra Lia.
From Verif Require Import Base M_Translate M_Mapper S_Mapper M_Utility M_Header S_Header M_Rotate M_Transform M_Convert S_Convert.
From Verif Require L_Draw L_Header6 L_Convert L_Convert2 L_Convert3 L_Convert4.
Import ListNotations.
Local Open Scope R_scope.

(** C128: hdr2vm reads from the file that hdr_solid2ang wrote an angular view with the angle that was used, whatever views
    the source had *)
Theorem C128_solid2ang_partial : forall num show parse, number_format num show parse -> number_chars num show ->
  forall fill f nearest reverse a va img h, angle_used parse f a va -> hemi_angle va -> num va -> num 0 -> num 1 ->
  hdr_solid2ang show parse fill nearest reverse a f = Ok (img, h) ->
  Forall2 (fun im im' => array_solid2ang nearest reverse va im = Ok im') (hf_planes f) img /\
  forall text n, file_text h text -> (0 < n)%Z -> hdr2vm parse text n n = Ok (Some (mk_view (V3 0 1 0) va, vzero)).
Proof. exact L_Convert.solid2ang_written. Qed.
(** without a given angle it is that of the view of the source *)
Theorem C128_source : forall num show parse, number_format num show parse ->
  forall fill nearest reverse f d va pt im rest, file_text [vm_header show (mk_view d va) pt] (hf_text f) -> d <> vzero -> hf_planes f = im :: rest ->
  (hemi_angle va /\ im_nx im = im_ny im \/ va = 360 /\ im_nx im = (2 * im_ny im)%Z) -> (0 < im_ny im)%Z ->
  num (vm_viewangle (mk_view d va)) -> num3 num (vm_dxyz (mk_view d va)) -> num3 num pt ->
  hdr_view parse f = Ok (Some (mk_view d va)) /\
  hdr_solid2ang show parse fill nearest reverse None f = hdr_solid2ang show parse fill nearest reverse (Some (if Reqb va 360 then 180 else va)) f.
Proof. exact L_Convert.source_angle. Qed.
(** the direction and the position of the view of the source are lost *)
Theorem C128_direction_refuted : forall num show parse, number_format num show parse -> number_chars num show ->
  forall fill nearest reverse a d va va' pt f img h text n, views_as show f (mk_view d va) pt -> d <> vzero -> norm d <> V3 0 1 0 \/ pt <> vzero ->
  angle_used parse f a va' -> hemi_angle va' -> num va' -> num 0 -> num 1 -> hdr_solid2ang show parse fill nearest reverse a f = Ok (img, h) ->
  file_text h text -> (0 < n)%Z ->
  exists vm q, hdr2vm parse text n n = Ok (Some (vm, q)) /\ (vm_dxyz vm, q) <> (vm_dxyz (mk_view d va), pt).
Proof. exact L_Convert4.direction_lost. Qed.
(** the angle of a source is not read unless it says that it is angular, as an equisolid one does not *)
Theorem C128_equisolid_angle_refuted : forall show parse fill nearest reverse f,
  ~ occurs (s "VIEW= -vta") (hf_text f) -> ~ occurs (s "rvu -vta") (hf_text f) ->
  hdr_solid2ang show parse fill nearest reverse None f = hdr_solid2ang show parse fill nearest reverse (Some 180) f.
Proof. exact L_Convert3.solid2ang_unread. Qed.
(** with and without reverse the header is the same, so that an equisolid image is said to be angular *)
Theorem C128_reverse_refuted : forall show parse fill n n' r r' a f img h img' h',
  hdr_solid2ang show parse fill n r a f = Ok (img, h) -> hdr_solid2ang show parse fill n' r' a f = Ok (img', h') -> h = h'.
Proof. exact L_Convert3.solid2ang_same_header. Qed.
(** a rotated image keeps the view of the source *)
Theorem C128_rotate : forall num show parse, number_format num show parse -> number_chars num show ->
  forall fill rotate center rf nearest f d va pt img h, views_as show f (mk_view d va) pt -> d <> vzero -> num rotate ->
  num (vm_viewangle (mk_view d va)) -> num3 num (vm_dxyz (mk_view d va)) -> num3 num pt ->
  hdr_rotate show fill rotate center rf nearest f = Ok (img, h) ->
  (exists c, center_means center c /\ Forall2 (fun im im' => array_rotate im rotate c rf None nearest = Ok im') (hf_planes f) img) /\
  forall text x y, (hemi_angle va /\ x = y \/ va = 360 /\ x = (2 * y)%Z) -> (0 < y)%Z -> file_text h text ->
    hdr2vm parse text x y = Ok (Some (mk_view d va, pt)).
Proof. exact L_Convert2.rotate_written. Qed.
(** so does the square image made of an angular one *)
Theorem C128_square_refuted : forall num show parse, number_format num show parse ->
  forall fill useview f d va pt img h, views_as show f (mk_view d va) pt -> d <> vzero ->
  num (vm_viewangle (mk_view d va)) -> num3 num (vm_dxyz (mk_view d va)) -> num3 num pt ->
  with_pixels f -> hdr_ang2uv parse fill useview f = Ok (img, h) ->
  (exists vm, (if useview then hdr_view parse f else Ok None) = Ok vm /\
    Forall2 (fun im im' => im_nx im' = im_ny im /\ im_ny im' = im_ny im /\
      array_ang2uv (match vm with Some vm => vm | None => mk_view (V3 0 1 0) 180 end) im = Ok (rows_of im')) (hf_planes f) img) /\
  forall text x y, (hemi_angle va /\ x = y \/ va = 360 /\ x = (2 * y)%Z) -> (0 < y)%Z -> file_text h text ->
    hdr2vm parse text x y = Ok (Some (mk_view d va, pt)).
Proof. exact L_Convert2.ang2uv_written. Qed.
Theorem C128_uv2ang : forall num show parse, number_format num show parse ->
  forall fill f d va pt img h, views_as show f (mk_view d va) pt -> d <> vzero ->
  num (vm_viewangle (mk_view d va)) -> num3 num (vm_dxyz (mk_view d va)) -> num3 num pt ->
  with_pixels f -> hdr_uv2ang fill f = Ok (img, h) ->
  Forall2 (fun im im' => im_nx im' = im_nx im /\ im_ny im' = im_ny im /\ array_uv2ang 0 im = Ok (rows_of im')) (hf_planes f) img /\
  forall text x y, (hemi_angle va /\ x = y \/ va = 360 /\ x = (2 * y)%Z) -> (0 < y)%Z -> file_text h text ->
    hdr2vm parse text x y = Ok (Some (mk_view d va, pt)).
Proof. exact L_Convert2.uv2ang_written. Qed.
(** a source seen along 1 0 0 from 0 0 2 *)
Example C128_nonvacuous : number_format L_Header6.nat_num L_Header6.nat_show L_Header6.nat_parse /\ number_chars L_Header6.nat_num L_Header6.nat_show /\
  views_as L_Header6.nat_show L_Convert4.side_file (mk_view (V3 1 0 0) 90) (V3 0 0 2) /\ angle_used L_Header6.nat_parse L_Convert4.side_file None 90 /\ hemi_angle 90 /\
  (forall nearest reverse, exists img, hdr_solid2ang L_Header6.nat_show L_Header6.nat_parse L_Header6.id_fill nearest reverse None L_Convert4.side_file =
     Ok (img, [s "VIEW= -vta -vv 90 -vh 90 -vd 0 1 0 -vp 0 0 0 -vu 0 0 1"])) /\
  (forall nearest, exists img h, hdr_rotate L_Header6.nat_show L_Header6.id_fill 30 (Some [0; 1]%Z) true nearest L_Convert4.side_file = Ok (img, h)) /\
  file_text [L_Convert4.side_line] (hf_text L_Convert4.side_file) /\ with_pixels L_Convert4.side_file /\
  file_text [s "VIEW= -vta -vv 90 -vh 90 -vd 0 1 0 -vp 0 0 0 -vu 0 0 1"] (s "VIEW= -vta -vv 90 -vh 90 -vd 0 1 0 -vp 0 0 0 -vu 0 0 1").
Proof.
  split; [exact L_Header6.nat_format|]. split; [exact L_Convert4.nat_chars|]. split; [exact L_Convert4.side_views|].
  split; [right; left; split; [reflexivity|]; eexists; split; [exact L_Convert4.side_read|symmetry; exact L_Convert4.side_va]|].
  split; [exact L_Convert4.hemi_90|]. split; [exact L_Convert4.side_solid2ang|]. split; [exact L_Convert4.side_rotate|].
  split; [exists [], []; split; [reflexivity|now left]|]. split; [repeat constructor|exact L_Convert4.side_file_text].
Qed.
Print Assumptions C128_solid2ang_partial.
Print Assumptions C128_source.
Print Assumptions C128_direction_refuted.
Print Assumptions C128_equisolid_angle_refuted.
Print Assumptions C128_reverse_refuted.
Print Assumptions C128_rotate.
Print Assumptions C128_square_refuted.
Print Assumptions C128_uv2ang.

(** C129: the direction of the view has no influence on the square image made of an angular one *)
Theorem C129_direction : forall A d d' va (im : image A), regular_dir d -> regular_dir d' -> (0 < im_ny im)%Z -> hemi_angle va \/ va = 360 ->
  array_ang2uv (mk_view d va) im = array_ang2uv (mk_view d' va) im.
Proof. exact @L_Convert3.ang2uv_dir. Qed.
(** so for images of 180 and 360 degrees useview changes nothing *)
Theorem C129_useview_refuted : forall parse fill f d va, regular_dir d -> va = 180 \/ va = 360 -> hdr_view parse f = Ok (Some (mk_view d va)) ->
  Forall (fun im => 0 < im_ny im)%Z (hf_planes f) -> hdr_ang2uv parse fill true f = hdr_ang2uv parse fill false f.
Proof. exact L_Convert3.useview_180. Qed.
Example C129_nonvacuous : regular_dir (V3 0 1 0) /\ regular_dir (V3 0 (-1) 0) /\ regular_dir (V3 0 0 1) /\
  hdr_view L_Header6.nat_parse L_Convert4.wide_file = Ok (Some (mk_view (V3 0 0 1) 180)) /\ Forall (fun im => 0 < im_ny im)%Z (hf_planes L_Convert4.wide_file).
Proof. split; [apply L_Draw.regular_y|]. split; [apply L_Draw.regular_y|]. split; [left; cbn [vx vy vz]; lra|]. split; [exact L_Convert4.wide_read|repeat constructor]. Qed.
Print Assumptions C129_direction.
Print Assumptions C129_useview_refuted.
