(** Model of weighted_quantile as it is called, with and without weights (raytools/translate.py:403-448). *)
From Verif Require Import Base M_Translate M_Data.
Local Open Scope R_scope.

(** translate.py:403-443 [weighted_quantile]: without weights the threshold is not used; np.quantile sorts the data. The data are not empty, and
    there are as many weights as data. *)
Definition quantile_call (argsort : list (R * R) -> list (R * R)) (d : list R) (weights : option (list R)) (qs : list R) (t : R) : res (list R) :=
  match weights with
  | None => np_quantile (map fst (argsort (map (fun x => (x, 0)) d))) qs
  | Some w => weighted_quantile argsort (combine d w) qs t
  end.
