(** Property C101: the images written by the commands. *)
From Coq Require Import Ascii String.
From Verif Require Import Base M_Header M_Paths S_Paths L_Paths L_Paths2.
Import ListNotations.
Local Open Scope R_scope.

(** C101: for distinct .hdr images, none of them the result of another or of itself, every order of the parallel reads
    and writes leaves the transformed image at the path of its result, and changes no other file *)
Theorem C101_results_partial {C} (f : C -> C) c imgs files l : beside c -> Forall hdr_path imgs -> NoDup imgs ->
  (forall x y, In x imgs -> In y imgs -> out_path c x <> y) -> schedule (length imgs) l ->
  (forall k, (k < length imgs)%nat ->
     run f (out_path c) imgs files l (out_path c (nth k imgs [])) = option_map f (files (nth k imgs []))) /\
  (forall p, ~ In p (map (out_path c) imgs) -> run f (out_path c) imgs files l p = files p).
Proof. exact (command_results f c imgs files l). Qed.
Print Assumptions C101_results_partial.

(** a result never replaces its own image, if the command has a label to add *)
Theorem C101_own c f : labelled c -> beside c -> hdr_path f -> out_path c f <> f.
Proof. exact (own_path c f). Qed.
Print Assumptions C101_own.

(** different .hdr images have different results *)
Theorem C101_distinct c f g : beside c -> hdr_path f -> hdr_path g -> out_path c f = out_path c g -> f = g.
Proof. exact (distinct_paths c f g). Qed.
Print Assumptions C101_distinct.

(** the result of path.hdr is path followed by the label of the command, in the same directory *)
Theorem C101_label c : beside c -> exists lab, (labelled c -> lab <> s ".hdr") /\ forall a, out_path c (a ++ s ".hdr") = a ++ lab.
Proof. exact (one_label c). Qed.
Print Assumptions C101_label.

(** the label of an aligned image: the rotation without its fraction, at least two characters, and the center *)
Theorem C101_align_label r center first : exists t, align_text r center first t /\
  forall a, out_path (Align r (pair_arg center) first) (a ++ s ".hdr") = a ++ t ++ s ".hdr".
Proof. exact (align_path_text r center first). Qed.
Print Assumptions C101_align_label.
(** alignments by different whole degrees, to different centers or in another order have different results *)
Theorem C101_align_distinct k c first l d second f :
  out_path (Align (IZR k) (pair_arg c) first) f = out_path (Align (IZR l) (pair_arg d) second) f ->
  k = l /\ c = d /\ (first = second \/ k = 0%Z \/ c = None).
Proof. exact (align_distinct k c first l d second f). Qed.
Print Assumptions C101_align_distinct.

(** with an output directory, images with different names have different results *)
Theorem C101_outdir_partial d suffix a b n m : ~ In "/"%char (n ++ suffix) -> ~ In "/"%char (m ++ suffix) -> n <> m ->
  out_path (Gss (Some d) suffix) (a ++ s "/" ++ n ++ s ".hdr") <> out_path (Gss (Some d) suffix) (b ++ s "/" ++ m ++ s ".hdr").
Proof. exact (outdir_distinct d suffix a b n m). Qed.
Print Assumptions C101_outdir_partial.

(** align without rotation and center writes over the image *)
Theorem C101_align_refuted {C} (g : C -> C) f first files l : hdr_path f -> schedule 1 l ->
  run g (out_path (Align 0 None first)) [f] files l f = option_map g (files f).
Proof. exact (align_overwrites g f first files l). Qed.
Print Assumptions C101_align_refuted.

(** when a result of the command is also one of its images, the outcome depends on the order *)
Theorem C101_order_refuted : let imgs := [s "x.hdr"; s "x_uv.hdr"] in
  exists l1 l2, schedule 2 l1 /\ schedule 2 l2 /\ Forall hdr_path imgs /\ NoDup imgs /\
    run S (out_path (Project false)) imgs two_files l1 (s "x_uv_uv.hdr") = Some 2%nat /\
    run S (out_path (Project false)) imgs two_files l2 (s "x_uv_uv.hdr") = Some 11%nat.
Proof. exact order_matters. Qed.
Print Assumptions C101_order_refuted.

(** images that differ in the extension only have the same result *)
Theorem C101_extension_refuted a e : ~ In "."%char e -> forall c, out_path c (a ++ s "." ++ e) = out_path c (a ++ s ".hdr").
Proof. exact (stem_ext a e). Qed.
Print Assumptions C101_extension_refuted.

(** the result of an image without extension below a directory with a dot loses all that follows the dot *)
Theorem C101_dot_refuted c a b : beside c -> ~ In "."%char b -> exists lab, out_path c (a ++ s "." ++ b) = a ++ lab.
Proof. exact (dot_directory c a b). Qed.
Print Assumptions C101_dot_refuted.

(** images with the same name in different directories have the same result in an output directory *)
Theorem C101_outdir_refuted d suffix a b n : ~ In "/"%char (n ++ suffix) ->
  out_path (Gss (Some d) suffix) (a ++ s "/" ++ n ++ s ".hdr") = out_path (Gss (Some d) suffix) (b ++ s "/" ++ n ++ s ".hdr").
Proof. exact (outdir_same d suffix a b n). Qed.
Print Assumptions C101_outdir_refuted.

(** different rotations, or different targets of an alignment, have the same result *)
Theorem C101_rotate_refuted f ct first : out_path (Align 10.2 ct first) f = out_path (Align 10.7 ct first) f.
Proof. exact (rotate_same f ct first). Qed.
Print Assumptions C101_rotate_refuted.
Theorem C101_center_refuted f r x y l m first :
  out_path (Align r (Some (x :: y :: l)) first) f = out_path (Align r (Some (x :: y :: m)) first) f.
Proof. exact (center_same f r x y l m first). Qed.
Print Assumptions C101_center_refuted.

(** gss and gssnb save their images to the same paths *)
Theorem C101_gssimage_refuted f imgs : ~ NoDup (metric_images true true (f :: imgs)).
Proof. exact (gss_twice f imgs). Qed.
Print Assumptions C101_gssimage_refuted.

(** the hypotheses are met: a schedule for any number of images, .hdr paths, and results away from the images *)
Example C101_schedule_example n : schedule n (in_turn n).
Proof. exact (schedule_in_turn n). Qed.
Example C101_example : let imgs := [s "a.hdr"; s "b.c/d.hdr"] in Forall hdr_path imgs /\ NoDup imgs /\
  (forall x y, In x imgs -> In y imgs -> out_path (Project true) x <> y) /\
  out_path (Project true) (s "b.c/d.hdr") = s "b.c/d_ang.hdr" /\
  out_path (Solid2ang false) (s "b.c/d.hdr") = s "b.c/d_2vta.hdr" /\
  out_path (Gss (Some (s "o")) gss_suffix) (s "b.c/d.hdr") = s "o/d_rg.hdr".
Proof. exact paths_example. Qed.
Example C101_align_example f : hdr_path f -> out_path (Align 7 (Some [12; -3]%Z) true) f = stem f ++ s "_r07_12--3.hdr".
Proof. exact (align_example f). Qed.
