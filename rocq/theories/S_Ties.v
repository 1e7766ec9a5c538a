(** What C157 speaks about. *)
From Coq Require Import Sorting.Permutation.
From Verif Require Import Base M_Io M_Peak.
Import ListNotations.
Local Open Scope R_scope.

(** no two rays above the threshold are equally bright *)
Definition distinct_peaks (w : list R) (p : peak_args) (rays : list pix) : Prop :=
  NoDup (map (fun r => rgb2rad w (p_l r)) (filter (fun r => Rltb (a_peakt p / a_scale p) (rgb2rad w (p_l r))) rays)).
(** the same rays in any order, or the same exception *)
Definition same_rays (a b : res (list pix)) : Prop :=
  match a, b with Ok x, Ok y => Permutation x y | Raise e, Raise e' => e = e' | _, _ => False end.
