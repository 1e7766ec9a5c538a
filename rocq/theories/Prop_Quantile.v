(** C60 without weights, and C136: a bright pixel on the retina. Specifications: S_Data, S_Spot. *)
From Coq Require Import Sorting.Permutation Sorting.Sorted Lra Lia.
From Verif Require Import Base M_Data S_Data M_Quantile M_Gss M_Ndimage S_Spot L_Data2 L_Data3 L_Data5 L_Quantile L_Spot.
Local Open Scope R_scope.

(** without weights: the quantile of linear interpolation of all data, for any threshold *)
Theorem C60_unweighted : forall argsort d qs t, sorts argsort -> d <> [] -> Forall (fun q => 0 <= q <= 1) qs ->
  exists l r, Permutation l d /\ StronglySorted Rle l /\ quantile_call argsort d None qs t = Ok r /\ Forall2 (linear_quantile l) qs r.
Proof. exact unweighted. Qed.
Print Assumptions C60_unweighted.
Theorem C60_outside : forall argsort d qs t, Exists (fun q => q < 0 \/ 1 < q) qs -> quantile_call argsort d None qs t = Raise ValueError.
Proof. exact unweighted_outside. Qed.
Print Assumptions C60_outside.
(** no datum has a weight above the threshold *)
Theorem C60_none_included : forall argsort dw qs t, sorts argsort -> Forall (fun p => snd p <= t) dw -> weighted_quantile argsort dw qs t = Raise IndexError.
Proof. exact none_included. Qed.
Print Assumptions C60_none_included.
(** all weights are 0 and let in by a negative threshold: as without weights, for all q when one of them is below 1 *)
Theorem C60_no_weight : forall argsort dw qs t, sorts argsort -> t < 0 -> dw <> [] -> Forall (fun p => snd p = 0) dw ->
  Forall (fun q => 0 <= q <= 1) qs -> Exists (fun q => q < 1 - / 100000 - / 100000000) qs ->
  exists l r, Permutation l (map fst dw) /\ StronglySorted Rle l /\ weighted_quantile argsort dw qs t = Ok r /\ Forall2 (linear_quantile l) qs r.
Proof. exact no_weight. Qed.
Print Assumptions C60_no_weight.
Example C60_unweighted_case : sorts sort_key /\ [3; 1; 2] <> [] /\ Forall (fun q => 0 <= q <= 1) [0; 1 / 3; 1] /\
  Forall (fun p : R * R => snd p = 0) [(3, 0); (1, 0)] /\ Exists (fun q => q < 1 - / 100000 - / 100000000) [0; 1 / 3; 1].
Proof.
  split; [exact sort_key_sorts|]. split; [discriminate|]. split; [repeat constructor; lra|]. split; [repeat constructor|]. apply Exists_cons_hd. lra.
Qed.

(** the light of one pixel under the first eye movement: a share of 0.62 spread with the width of 4.23 arc minutes, cut off at four times the width,
    and a share of 0.38 with the width of 14.14 arc minutes, cut off at half a degree *)
Theorem C136_eye : forall ppa L1 L2 n p q e, 1e-15 < ppa ->
  IZR L1 <= 4 * (4.2341723424 * ppa) + 1 / 2 < IZR L1 + 1 -> IZR L2 <= 30 * ppa + 1 / 2 < IZR L2 + 1 ->
  (L2 <= Z.of_nat p)%Z -> (Z.of_nat p + L2 < Z.of_nat n)%Z -> (L2 <= Z.of_nat q)%Z -> (Z.of_nat q + L2 < Z.of_nat n)%Z ->
  lit n p q e ->
  forall i j, (i < n)%nat -> (j < n)%nat ->
    let di := (Z.of_nat i - Z.of_nat p)%Z in let dj := (Z.of_nat j - Z.of_nat q)%Z in
    nth_error (apply_eye_movement_1 (flt_gauss scipy_filters) (flt_gauss_trunc scipy_filters) ppa e) (i * n + j) =
    Some (0.62 * spot (4.2341723424 * ppa) L1 di dj + 0.38 * spot (14.1421356237 * ppa) L2 di dj).
Proof. exact eye_spot. Qed.
Print Assumptions C136_eye.
Example C136_eye_case : 1e-15 < 1 / 30 /\ IZR 1 <= 4 * (4.2341723424 * (1 / 30)) + 1 / 2 < IZR 1 + 1 /\ IZR 1 <= 30 * (1 / 30) + 1 / 2 < IZR 1 + 1 /\
  lit 3 1 1 [0; 0; 0; 0; 1; 0; 0; 0; 0].
Proof.
  repeat split; try lra. intros i j Hi Hj. destruct i as [|[|[|i]]]; [| | |lia]; (destruct j as [|[|[|j]]]; [| | |lia]); reflexivity.
Qed.
