(** A file used by the examples beside C102. *)
From Coq Require Import String.
From Verif Require Import Base M_Translate M_Mapper M_Io M_Header M_Imgmetric.
Import ListNotations.
Local Open Scope R_scope.

(** one bright blue pixel, no view in the header *)
Definition dot_file : imgfile := ImgFile (Ok None) (Ok []) (Img 1 1 (fun _ _ => [0; 0; 1000])).
