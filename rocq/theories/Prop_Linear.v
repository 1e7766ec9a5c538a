(** Property C162: smoothing is linear. *)
From Verif Require Import Base M_Data S_Data S_Linear L_Linear.
Import ListNotations.
Local Open Scope R_scope.

(** C162: smoothing a combination of two rows of values gives the combination of the smoothed rows, with any density, band width and
    coordinates, where values are interpolated too; and it fails where smoothing one of the rows fails *)
Theorem C162_linear argsort unsort pdf bw data xr a c : by_places argsort ->
  non_uniform_gaussian_filter argsort unsort pdf bw (map (mixed_row a c) data) xr =
  mixed a c (non_uniform_gaussian_filter argsort unsort pdf bw (map first_row data) xr) (non_uniform_gaussian_filter argsort unsort pdf bw (map second_row data) xr).
Proof. exact (filter_linear a c argsort unsort pdf bw data xr). Qed.
Print Assumptions C162_linear.
(** such a sort *)
Example C162_sort : exists argsort, sorts argsort /\ by_places argsort.
Proof. exact places_exist. Qed.
(** two data with one equal density: both values become the mean *)
Example C162_example argsort unsort : non_uniform_gaussian_filter argsort unsort (fun _ _ => 1) None (map first_row [(0, (1, 5)); (1, (3, 7))]) (Some [0]) = Some [2].
Proof. exact (linear_example argsort unsort). Qed.
