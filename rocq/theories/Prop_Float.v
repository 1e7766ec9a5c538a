(** Rounding: the bins of the unit squares and unit vectors in binary64 arithmetic (C121, C122) *)
From Coq Require Import ZArith Reals Floats.SpecFloat Lra Lia.
From Verif Require Import M_Float S_Float M_Bin64 L_Float64 L_Bin64 L_Norm64.
Local Open Scope R_scope.

(** C121: the point of a bin lies in the bin, for any offset that is not too close to the border (bin2uv uses 1/2) ... *)
Theorem C121_roundtrip_partial : forall side b o, (1 <= side <= 2 ^ 25)%Z -> (0 <= b < 2 * side * side)%Z ->
  number o -> / 2 ^ 24 <= value o <= 1 - / 2 ^ 24 -> uv2bin_f64 (bin2uv_f64 b side o) side = b.
Proof. exact bin_back. Qed.
(** ... but not for the corner of the bin (offset 0): 1/49*49 is below 1 *)
Theorem C121_roundtrip_refuted : uv2bin_f64 (bin2uv_f64 49 49 (f_of_Z 0)) 49 = 0%Z /\ uv2bin_f64 (bin2uv_f64 1 49 (f_of_Z 0)) 49 = 0%Z.
Proof. exact bins_collide. Qed.
(** the cell of a point: in range, in the right square, and off by no more than a rounding error; in particular a point at the
    edge does not end up at the opposite edge *)
Theorem C121_cell : forall u v side, (1 <= side <= 2 ^ 25)%Z -> number u -> number v -> 0 <= value u < 2 -> 0 <= value v < 1 ->
  let (i, j) := uv2ij_f64 (u, v) side in
  (0 <= i < 2 * side)%Z /\ (0 <= j < side)%Z /\ (1 <= value u <-> (side <= i)%Z) /\
  IZR i - / 2 ^ 26 <= IZR side * value u < IZR i + 1 + / 2 ^ 26 /\ IZR j - / 2 ^ 26 <= IZR side * value v < IZR j + 1 + / 2 ^ 26.
Proof. exact cell_of. Qed.
(** cells are in the order of the points *)
Theorem C121_order : forall u u' v v' side, (1 <= side <= 2 ^ 25)%Z -> number u -> number u' -> number v -> number v' ->
  0 <= value u -> value u <= value u' < 2 -> 0 <= value v -> value v <= value v' < 1 ->
  (fst (uv2ij_f64 (u, v) side) <= fst (uv2ij_f64 (u', v') side))%Z /\ (snd (uv2ij_f64 (u, v) side) <= snd (uv2ij_f64 (u', v') side))%Z.
Proof. exact cell_mono. Qed.
Example C121_nonvacuous : number (two_to (-1)) /\ value (two_to (-1)) = / 2 /\ / 2 ^ 24 <= / 2 <= 1 - / 2 ^ 24 /\
  uv2bin_f64 (bin2uv_f64 150 10 (two_to (-1))) 10 = 150%Z /\
  (let edge := S754_finite false (2 ^ 53 - 1) (-53) in number edge /\ 0 <= value edge < 1 /\ uv2ij_f64 (edge, edge) 3 = (2, 2)%Z).
Proof.
  destruct (two_to_val (-1) ltac:(lia)) as [N V]. split; [exact N|]. split; [exact V|]. split; [cbn; lra|]. split; [vm_compute; reflexivity|].
  cbv zeta. split; [split; [reflexivity|exact I]|]. split; [|vm_compute; reflexivity].
  cbn [value]. change (powerRZ 2 (-53)) with (/ 2 ^ 53). assert (2 ^ 53 = 9007199254740992) as -> by (cbn; lra). change (Z.pos (2 ^ 53 - 1)) with 9007199254740991%Z. lra.
Qed.
Print Assumptions C121_roundtrip_partial.
Print Assumptions C121_roundtrip_refuted.
Print Assumptions C121_cell.
Print Assumptions C121_order.

(** C122: norm and norm1 return unit vectors in the direction of their argument, up to rounding, if its length is neither huge
    nor tiny ... *)
Theorem C122_unit_partial : forall x y z, number x -> number y -> number z -> / 2 ^ 500 <= len3 (value x) (value y) (value z) <= 2 ^ 500 ->
  close_unit (x, y, z) (norm_f64 (x, y, z)) /\
  (let '(x', y', z') := norm_f64 (x, y, z) in Rabs (len3 (value x') (value y') (value z') - 1) <= / 2 ^ 46) /\
  norm1_f64 (x, y, z) = norm_f64 (x, y, z).
Proof. exact norm_unit. Qed.
(** ... norm1 keeps the zero vector ... *)
Theorem C122_zero : forall x y z, number x -> number y -> number z -> value x = 0 -> value y = 0 -> value z = 0 -> norm1_f64 (x, y, z) = (x, y, z).
Proof. exact norm1_zero. Qed.
(** ... a vector of length 2^600 becomes 0 ... *)
Theorem C122_large_refuted : let zero := S754_zero false in
  norm_f64 (two_to 600, zero, zero) = (zero, zero, zero) /\ norm1_f64 (two_to 600, zero, zero) = (zero, zero, zero).
Proof. exact norm_large. Qed.
(** ... and one of length 2^-600 infinite and nan in norm, unchanged in norm1 *)
Theorem C122_tiny_refuted : let zero := S754_zero false in
  norm_f64 (two_to (-600), zero, zero) = (S754_infinity false, S754_nan, S754_nan) /\ norm1_f64 (two_to (-600), zero, zero) = (two_to (-600), zero, zero).
Proof. exact norm_tiny. Qed.
Example C122_nonvacuous : exists x y z, number x /\ number y /\ number z /\ / 2 ^ 500 <= len3 (value x) (value y) (value z) <= 2 ^ 500 /\ value x <> 0 /\ value y <> 0 /\
  norm_f64 (x, y, z) = (S754_finite false 5404319552844595 (-53), S754_finite false 7205759403792794 (-53), S754_zero false).
Proof.
  destruct (of_Z_val 3) as [N3 V3]; [lia|]. destruct (of_Z_val 4) as [N4 V4]; [lia|]. destruct (of_Z_val 0) as [N0 V0]; [lia|].
  exists (f_of_Z 3), (f_of_Z 4), (f_of_Z 0). rewrite V3, V4, V0. repeat (split; [assumption || lra|]). split; [|split; [lra|split; [lra|vm_compute; reflexivity]]].
  unfold len3. replace (3 * 3 + 4 * 4 + 0 * 0) with (5 * 5) by ring. rewrite sqrt_square by lra.
  assert (2 ^ 3 <= 2 ^ 500) by (apply Rle_pow; [lra|lia]). split; [|lra]. apply Rle_trans with (/ 1); [|lra]. apply Rinv_le_contravar; lra.
Qed.
Print Assumptions C122_unit_partial.
Print Assumptions C122_zero.
Print Assumptions C122_large_refuted.
Print Assumptions C122_tiny_refuted.
