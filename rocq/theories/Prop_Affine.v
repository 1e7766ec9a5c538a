(** Property C161: weighted quantiles in other units. *)
From Coq Require Import Sorting.Permutation.
From Verif Require Import Base M_Data S_Data S_Isometry S_Affine L_Affine.
Import ListNotations.
Local Open Scope R_scope.

(** C161: data in other units give the quantiles in these units, with the same exceptions *)
Theorem C161_data argsort dw qs t a b : 0 < a -> compares_first argsort ->
  weighted_quantile argsort (map (other_units a b) dw) qs t = mapped (map (fun r => a * r + b)) (weighted_quantile argsort dw qs t).
Proof. exact (fun A => data_units a b A argsort dw qs t). Qed.
Print Assumptions C161_data.
(** C161: the unit of the weights (and of their threshold) does not matter *)
Theorem C161_weights argsort dw qs t k : 0 < k -> compares_first argsort ->
  weighted_quantile argsort (map (other_weights k) dw) qs (k * t) = weighted_quantile argsort dw qs t.
Proof. exact (fun K => weight_units k K argsort dw qs t). Qed.
Print Assumptions C161_weights.
(** C161: but the median of the data with the opposite sign is not the median with the opposite sign *)
Theorem C161_sign_refuted argsort : sorts argsort -> exists dw m m', weighted_median argsort dw 0 = Ok [m] /\
  weighted_median argsort (map (fun x => (- fst x, snd x)) dw) 0 = Ok [m'] /\ m' <> - m.
Proof. exact (mirror_differs argsort). Qed.
Print Assumptions C161_sign_refuted.
(** such a sort *)
Example C161_sort : exists argsort, sorts argsort /\ compares_first argsort.
Proof. exact first_example. Qed.
(** three data that have a median *)
Example C161_example argsort : sorts argsort -> weighted_median argsort [(0, 1); (1, 2); (3, 1)] 0 = Ok [0 + (1 - 0) * (3 / 4)].
Proof. exact (fun S => median3 argsort _ 0 1 3 S three_ordered (Permutation_refl _)). Qed.
