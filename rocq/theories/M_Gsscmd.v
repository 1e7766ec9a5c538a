(** Model of gss_compute (raytools/evaluate/hvsgsm.py): the scores of a list of image files. *)
From Verif Require Import Base M_Translate M_Mapper M_Gss M_Imgmetric.
Local Open Scope R_scope.

(** what gss_compute reads from a file: the view (hdr2vm, imagetools.py:233-271) and the image (io.py:217-247) *)
Record gfile := GFile { gf_view : res (option viewmapper); gf_img : gimg }.
(** hvsgsm.py:226-237, 413-424: the object made from the path of an image. A header without a view is 180 degrees.
    Simplified: a ValueError of hdr2vm gives that view and leaves the image unset; other exceptions (after which the
    constructor tries to read a view file) are passed on *)
Definition gss_init (par : gpar) (f : gfile) : res gstate :=
  match gf_view f with
  | Raise ValueError => Ok (gss_new (mk_view (V3 0 1 0) 180))
  | Raise e => Raise e
  | Ok v =>
      let vm := match v with Some vm => vm | None => mk_view (V3 0 1 0) 180 end in
      match set_lum (g_scale par) (gss_new vm) (gf_img f) with
      | (st, None) => Ok st
      | (_, Some e) => Raise e
      end
  end.
(** hvsgsm.py:21-55 [gss_compute]; the pool gives each task its own copy of the object (utility.py:120-125). [illums] as
    given; zip stops at the shorter list *)
Definition gss_compute (fl : filters) (par : gpar) (files : list gfile) (illums : option (list R)) : res (list R) :=
  match files with
  | [] => Raise IndexError
  | f :: _ =>
      bind (gss_init par f) (fun st =>
      each (fun p => process_gss fl par st (gf_img (fst p)) (snd p))
           (combine files (match illums with Some l => map Some l | None => map (fun _ => None) files end)))
  end.
