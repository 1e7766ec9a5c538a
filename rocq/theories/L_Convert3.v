From Coq Require Import Ascii String Lra Lia.
From Verif Require Import Base L_Base M_Translate S_Translate L_Angles M_Mapper S_Mapper L_Mapper L_Draw M_Utility M_Header S_Header M_Io M_Tools M_Rotate M_Transform S_Transform L_Transform M_Paths.
From Verif Require Import L_Header L_Header2 L_Header3 L_Header4 L_Header6 L_Header7.
From Verif Require Import M_Convert S_Convert L_Convert.
Import ListNotations.
Local Open Scope R_scope.

Lemma in_view_exact d va tol v : d <> vzero -> dot v v = 1 -> hemi_angle va ->
  let h := va * PI / 360 in
  in_view (mk_view d va) tol v = true <-> angle (norm d) v - tol < sqrt 2 * h * h / (PI * sin (h / 2)).
Proof.
  intros N V H. cbv zeta. rewrite in_view_angle, mk_view_hemi_va, chordfactor_hemi by auto. unfold half.
  pose proof (half_range va H) as R. unfold half in R. assert (0 < sin (va * PI / 360 / 2)) by (apply sin_gt_0; lra). pose proof PI_RGT_0.
  replace (sqrt 2 * (va * PI / 360) / (PI * sin (va * PI / 360 / 2)) * va * PI / 360) with (sqrt 2 * (va * PI / 360) * (va * PI / 360) / (PI * sin (va * PI / 360 / 2))) by (field; lra).
  reflexivity.
Qed.

(** * the direction of the view does not matter *)
Lemma ang2uv_dir_hemi {A} d d' va (im : image A) : hemi_angle va -> array_ang2uv (mk_view d va) im = array_ang2uv (mk_view d' va) im.
Proof.
  intros H. unfold array_ang2uv. cbv zeta. apply (f_equal (np_read im)), map_ext. intros b. unfold ray2pixel, ray2pixelf.
  assert (E : forall d, xyz2vxy (mk_view d va) (vm_uv2xyz (mk_view d va) (bin2uv b (im_ny im) (1 / 2))) =
     let xy := xyz2xy xyz_axes true (uv2xyz xyz_axes (-1)
       (fst (vm_bbox0 (mk_view d' va)) + fst (bin2uv b (im_ny im) (1 / 2)) * fst (vm_sf (mk_view d' va)), snd (vm_bbox0 (mk_view d' va)) + snd (bin2uv b (im_ny im) (1 / 2)) * snd (vm_sf (mk_view d' va)))) in
     let f x := x * 180 / (vm_viewangle (mk_view d' va) * vm_chordfactor (mk_view d' va)) / 2 + 1 / 2 in (f (fst xy), f (snd xy))).
  { intros e. unfold xyz2vxy. assert (Q : vm_aspect (mk_view e va) = 1%Z) by (unfold mk_view; cbn [vm_aspect]; now rewrite va_not_360). rewrite Q. cbv iota beta delta [Z.eqb Pos.eqb].
    unfold xyz2vxy1, vm_uv2xyz. rewrite w2v_v2w. cbv zeta.
    assert (B : vm_bbox0 (mk_view e va) = vm_bbox0 (mk_view d' va)) by reflexivity. assert (S : vm_sf (mk_view e va) = vm_sf (mk_view d' va)) by reflexivity.
    assert (C : vm_chordfactor (mk_view e va) = vm_chordfactor (mk_view d' va)) by reflexivity. assert (W : vm_viewangle (mk_view e va) = vm_viewangle (mk_view d' va)) by reflexivity.
    rewrite B, S, C, W. reflexivity. }
  now rewrite !E.
Qed.
Lemma ang2uv_dir {A} d d' va (im : image A) : regular_dir d -> regular_dir d' -> (0 < im_ny im)%Z -> hemi_angle va \/ va = 360 ->
  array_ang2uv (mk_view d va) im = array_ang2uv (mk_view d' va) im.
Proof.
  intros G G' N [H| ->]; [now apply ang2uv_dir_hemi|]. rewrite !ang2uv_360 by auto. apply ang2uv_dir_hemi. unfold hemi_angle; lra.
Qed.
Lemma each_plane_ext g g' l : (forall x, In x l -> g x = g' x) -> each_plane g l = each_plane g' l.
Proof.
  induction l as [|x l IH]; intros H; [reflexivity|]. cbn [each_plane]. rewrite H by now left. rewrite IH by (intros; apply H; now right). reflexivity.
Qed.
Lemma useview_180 parse fill f d va : regular_dir d -> va = 180 \/ va = 360 -> hdr_view parse f = Ok (Some (mk_view d va)) -> Forall (fun im => 0 < im_ny im)%Z (hf_planes f) ->
  hdr_ang2uv parse fill true f = hdr_ang2uv parse fill false f.
Proof.
  intros G V E P. unfold hdr_ang2uv. rewrite E. cbn [bind]. rewrite (each_plane_ext _ (fun im => bind (array_ang2uv (mk_view (V3 0 1 0) 180) im) (fun l => Ok (from_flat (im_ny im) (im_ny im) l))) (hf_planes f)); [reflexivity|].
  intros x Hx. rewrite Forall_forall in P. specialize (P x Hx). f_equal. assert (hemi_angle 180) by (unfold hemi_angle; lra).
  destruct V as [-> | ->]; [|rewrite ang2uv_360 by auto]; now apply ang2uv_dir_hemi.
Qed.

(** * what the header does not tell *)
Lemma solid2ang_unread show parse fill nearest reverse f : ~ occurs (s "VIEW= -vta") (hf_text f) -> ~ occurs (s "rvu -vta") (hf_text f) ->
  hdr_solid2ang show parse fill nearest reverse None f = hdr_solid2ang show parse fill nearest reverse (Some 180) f.
Proof. intros A B. unfold hdr_solid2ang, hdr_view. rewrite hdr2vm_none by assumption. reflexivity. Qed.
Lemma solid2ang_same_header show parse fill n n' r r' a f img h img' h' :
  hdr_solid2ang show parse fill n r a f = Ok (img, h) -> hdr_solid2ang show parse fill n' r' a f = Ok (img', h') -> h = h'.
Proof.
  unfold hdr_solid2ang. destruct (match a with Some a => Ok a | None => _ end) as [va|]; [|discriminate]. cbn [bind].
  destruct (each_plane (array_solid2ang n r va) (hf_planes f)) as [i|]; [|discriminate]. destruct (each_plane (array_solid2ang n' r' va) (hf_planes f)) as [i'|]; [|discriminate].
  cbn [bind]. unfold write_clean. destruct (clean_header fill _) as [c|]; [|discriminate]. cbn [bind]. intros E F. injection E as _ <-. injection F as _ <-. reflexivity.
Qed.
