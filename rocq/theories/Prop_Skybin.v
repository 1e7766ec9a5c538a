(** Sky bins near a direction (C115) *)
From Coq Require Import List Lra Lia.
From Verif Require Import Base M_Translate M_Skybin S_Skybin L_Base L_Skybin.
Import ListNotations.
Local Open Scope R_scope.

(** C115: with a tolerance of up to one bin the result is the sky bins within the tolerance of the direction, for
    directions at least the tolerance away from the edges u = 0, v = 0 and v = 1 *)
Theorem C115_near_partial : forall v side tol normalize u w, (0 < side)%Z -> 0 < tol <= 1 -> xyz2uv normalize xyz_axes false v = (u, w) ->
  tol / IZR side <= u -> u + tol / IZR side < 2 -> tol / IZR side <= w -> w + tol / IZR side < 1 ->
  exists l, skybins [v] side tol normalize = Ok l /\ forall b, In b l <-> (0 <= b < side * side)%Z /\ bin_near side tol (u, w) b.
Proof. exact skybins_near. Qed.
(** every tolerance keeps the bin of the direction *)
Theorem C115_own : forall v side tol normalize, (0 < side)%Z -> 0 < tol -> (xyz2skybin v side normalize < side * side)%Z ->
  exists l, skybins [v] side tol normalize = Ok l /\ In (xyz2skybin v side normalize) l.
Proof. exact skybins_own. Qed.
(** sorted, without repetition, sky bins only *)
Theorem C115_sorted : forall vs side tol normalize l, (0 < side)%Z -> 0 < tol -> skybins vs side tol normalize = Ok l ->
  increasing l /\ Forall (fun b => (0 <= b < side * side)%Z) l.
Proof. exact skybins_sorted. Qed.
(** without tolerance: one bin per direction, in order *)
Theorem C115_no_tolerance : forall vs side tol normalize, tol <= 0 -> skybins vs side tol normalize = Ok (map (fun v => xyz2skybin v side normalize) vs).
Proof. exact skybins_zero. Qed.
(** a direction on the west horizon gets a bin in the east *)
Theorem C115_edge_refuted : exists l, skybins [V3 (-1) 0 0] 4 (1 / 2) false = Ok l /\ In 14%Z l /\ 0 < vx (skybin2xyz 14 4).
Proof. exact skybins_opposite. Qed.
(** with a tolerance of two bins the bins next to that of the direction are missing *)
Theorem C115_gap_refuted : exists l, skybins [V3 0 0 1] 8 2 false = Ok l /\ bin_near 8 2 (xyz2uv false xyz_axes false (V3 0 0 1)) 28 /\ ~ In 28%Z l.
Proof. exact skybins_gap. Qed.
(** more than one direction is rejected, except for nine, each of which is tried with one offset only *)
Theorem C115_rows_refuted : forall vs side tol normalize, 0 < tol -> length vs <> 1%nat ->
  (length vs <> 9%nat -> skybins vs side tol normalize = Raise ValueError) /\
  (length vs = 9%nat -> exists l, skybins vs side tol normalize = Ok l /\ (length l <= 9)%nat).
Proof. exact skybins_many. Qed.
Example C115_nonvacuous : xyz2uv false xyz_axes false (V3 0 0 1) = (1 / 2, 1 / 2) /\ 1 / IZR 10 <= 1 / 2 /\ 1 / 2 + 1 / IZR 10 < 1 /\
  (xyz2skybin (V3 0 0 1) 10 false < 10 * 10)%Z.
Proof.
  split; [exact uv_up|]. split; [lra|]. split; [lra|]. unfold xyz2skybin. rewrite uv_up, uv2bin_floor by (try lia; lra).
  replace (Rfloor (10 * (1 / 2))) with 5%Z by (symmetry; apply Rfloor_unique; lra). lia.
Qed.
Print Assumptions C115_near_partial.
Print Assumptions C115_own.
Print Assumptions C115_sorted.
Print Assumptions C115_no_tolerance.
Print Assumptions C115_edge_refuted.
Print Assumptions C115_gap_refuted.
Print Assumptions C115_rows_refuted.
