(** Property C103: the scores of a list of image files. *)
From Verif Require Import Base M_Translate M_Mapper M_Gss S_Gss M_Gsscmd S_Gsscmd L_Gss8 L_Gsscmd.
Local Open Scope R_scope.

(** C103: for square images in one view gss_compute returns one score for each image, in order, and each is the score
    of that image alone *)
Theorem C103_own_partial fl par f files illums scores : good_file f -> Forall good_file files -> Forall (fun g => file_view g = file_view f) files ->
  match illums with Some l => length l = length (f :: files) | None => True end ->
  gss_compute fl par (f :: files) illums = Ok scores ->
  length scores = length (f :: files) /\
  forall k g s, nth_error (f :: files) k = Some g -> nth_error scores k = Some s -> own_score fl par g (illum_at illums k) = Ok s.
Proof. exact (compute_own fl par f files illums scores). Qed.
Print Assumptions C103_own_partial.

(** whatever the views, each score is the one of the image in the view of the first image *)
Theorem C103_first_partial fl par f files illums scores : good_file f -> Forall (fun g => square_img (gf_img g)) files ->
  match illums with Some l => length l = length (f :: files) | None => True end ->
  gss_compute fl par (f :: files) illums = Ok scores ->
  length scores = length (f :: files) /\
  forall k g s, nth_error (f :: files) k = Some g -> nth_error scores k = Some s ->
    process_gss fl par (gss_new (file_view f)) (gf_img g) (illum_at illums k) = Ok s.
Proof. exact (compute_first fl par f files illums scores). Qed.
Print Assumptions C103_first_partial.

(** so the score of an image depends on which image comes first *)
Theorem C103_view_refuted fl : filters_ok fl ->
  exists a b, a < b /\ own_score fl raw_par narrow (Some 100) = Ok a /\
    gss_compute fl raw_par [narrow; wide] (Some [100; 100]) = Ok [a; a] /\
    gss_compute fl raw_par [wide; narrow] (Some [100; 100]) = Ok [b; b].
Proof. exact (first_view fl). Qed.
Print Assumptions C103_view_refuted.

(** a black first image leaves all images without score *)
Theorem C103_black_refuted fl par f files illums v : gf_view f = Ok v -> vm_aspect (file_view f) = 1%Z -> square_img (gf_img f) ->
  Forall (fun x => x = 0) (gi_px (gf_img f)) -> exists e, gss_compute fl par (f :: files) illums = Raise e.
Proof. exact (compute_black fl par f files illums v). Qed.
Print Assumptions C103_black_refuted.

(** images beyond the last illuminance are left out without notice *)
Theorem C103_illums_refuted fl par f files l scores : (length l < length (f :: files))%nat ->
  gss_compute fl par (f :: files) (Some l) = Ok scores -> length scores = length l.
Proof. exact (compute_short fl par f files l scores). Qed.
Print Assumptions C103_illums_refuted.

(** no images *)
Theorem C103_empty_refuted fl par illums : gss_compute fl par [] illums = Raise IndexError.
Proof. exact (compute_empty fl par illums). Qed.
Print Assumptions C103_empty_refuted.

Example C103_example : good_file wide /\ filters_ok trivial_filters /\
  exists b, gss_compute trivial_filters raw_par [wide; wide] (Some [100; 100]) = Ok [b; b].
Proof. exact (conj good_wide (conj L_Gss8.trivial_ok (same_files trivial_filters L_Gss8.trivial_ok))). Qed.
