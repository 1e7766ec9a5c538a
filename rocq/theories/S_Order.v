(** What C147 speaks about. *)
From Coq Require Import String Sorting.Permutation.
From Verif Require Import Base BaseX M_Translate M_Mapper M_Metric.
Local Open Scope R_scope.

(** two constructions that fail together, or give the same rays up to their order and the same values of all metrics *)
Definition same_metrics_of (a b : option (mset * list R)) : Prop :=
  match a, b with
  | Some (m, _), Some (m', _) => Permutation (ms_rays m) (ms_rays m') /\ forall kd names, call kd m names = call kd m' names
  | None, None => True
  | _, _ => False
  end.
