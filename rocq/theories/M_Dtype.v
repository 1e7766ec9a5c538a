(** Model of tpnorm and tp2xyz (raytools/translate.py) for arrays of whole numbers. *)
From Coq Require Import Reals List.
From Verif Require Import Base M_Translate.
Import ListNotations.
Local Open Scope R_scope.

(** translate.py:232-237: the results are assigned to the columns of the array itself, which truncates them when it holds whole
    numbers (np.atleast_2d makes such an array of lists and tuples of whole numbers too). np.mod by a positive number is not
    negative, so that truncation is the floor *)
Definition tpnorm_whole (tp : Z * Z) : Z * Z :=
  let r := tpnorm (IZR (fst tp), IZR (snd tp)) in (Rfloor (fst r), Rfloor (snd r)).
(** translate.py:240-250 *)
Definition tp2xyz_whole (normalize : bool) (tp : Z * Z) : vec3 :=
  let tp := if normalize then tpnorm_whole tp else tp in tp2xyz false (IZR (fst tp), IZR (snd tp)).
