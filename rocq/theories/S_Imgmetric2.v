(** Files used by the examples beside C59, C75 and C102. *)
From Coq Require Import Ascii String.
From Verif Require Import Base BaseX M_Translate M_Mapper M_Io M_Header M_Metric M_Peak M_Imgmetric S_Imgmetric.
Import ListNotations.
Local Open Scope R_scope.

(** numbers: only 0 and 1 *)
Definition bit_parse (t : str) : option R :=
  if list_eq_dec ascii_dec t (list_ascii_of_string "1") then Some 1
  else if list_eq_dec ascii_dec t (list_ascii_of_string "0") then Some 0 else None.
(** two by two blue pixels, one of them bright *)
Definition blue_image : image (list R) :=
  Img 2 2 (fun i j => if ((i =? 0) && (j =? 0))%Z then [0; 0; 1000] else [0; 0; 1]).
Definition blue_file (item : string) : imgfile := ImgFile (Ok None) (Ok (list_ascii_of_string item)) blue_image.
Definition opts1 (peakn : bool) (w : option (list R)) : mopts :=
  MOpts peakn 179 w 2000 false (67967 / 10 ^ 9) 100000 4 false.
(** the metric command on copies of the file *)
Definition blue_calc parse order blur fuel w (item : string) ms : res (list xr) :=
  match imgmetric parse order blur fuel (opts1 false w) (blue_file item) ms with Some r => r | None => Ok [] end.
(** scores *)
Definition zero_scores (nb : bool) (imgs : list string) : res (list xr) := Ok (map (fun _ => Fin 0) imgs).
