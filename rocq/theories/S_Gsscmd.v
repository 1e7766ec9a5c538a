(** What C103 speaks about. *)
From Verif Require Import Base M_Translate M_Mapper M_Gss S_Gss M_Gsscmd.
Local Open Scope R_scope.

(** the view of a file, 180 degrees when it has none *)
Definition file_view (f : gfile) : viewmapper :=
  match gf_view f with Ok (Some vm) => vm | _ => mk_view (V3 0 1 0) 180 end.
(** the score of a file alone: a new object with the view of the file *)
Definition own_score (fl : filters) (par : gpar) (f : gfile) (illum : option R) : res R :=
  process_gss fl par (gss_new (file_view f)) (gf_img f) illum.
(** a square image; its header can be read *)
Definition good_file (f : gfile) : Prop :=
  vm_aspect (file_view f) = 1%Z /\ square_img (gf_img f) /\ exists v, gf_view f = Ok v.
(** the illuminance given for file k *)
Definition illum_at (illums : option (list R)) (k : nat) : option R :=
  match illums with Some l => nth_error l k | None => None end.
(** two one pixel files that differ in their view *)
Definition wide : gfile := GFile (Ok None) (dot_img 1000).
Definition narrow : gfile := GFile (Ok (Some (mk_view (V3 0 1 0) 90))) (dot_img 1000).
Definition raw_par : gpar := GPar 20 17 179 0.106 10 false false false true.
