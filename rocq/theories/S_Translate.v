(** Specification vocabulary for the coordinate translations: what the
    properties say, written without reference to the code's helpers. *)
From Verif Require Import Base.
Local Open Scope R_scope.

(** axes is a permutation of (0, 1, 2) *)
Definition axes_ok (axes : nat * nat * nat) : Prop :=
  let '(i, j, k) := axes in
  (i < 3 /\ j < 3 /\ k < 3)%nat /\ i <> j /\ i <> k /\ j <> k.

(** the double unit square the uv functions are documented on *)
Definition in_dsquare (uv : R * R) : Prop := 0 <= fst uv <= 2 /\ 0 <= snd uv <= 1.

(** proper rotation: inverse is the transpose, determinant one *)
Definition rotation (m : mat3) : Prop :=
  mmul (mtrans m) m = mid /\ mmul m (mtrans m) = mid /\ mdet m = 1.

(** coordinate axis number 0, 1, 2 *)
Definition unit_axis (axis : Z) : vec3 :=
  if Z.eqb axis 0 then V3 1 0 0 else if Z.eqb axis 1 then V3 0 1 0 else V3 0 0 1.

(** angular radii (radians) of the caps around +z and -z in which the azimuth of
    a direction is not recoverable: 1e-10 and 1e-10 + 1e-5*pi; and in degrees *)
Definition cap_top : R := / 10 ^ 10.
Definition cap_bot : R := / 10 ^ 10 + / 10 ^ 5 * PI.
Definition aa_cap_top : R := cap_top * (180 / PI).
Definition aa_cap_bot : R := cap_bot * (180 / PI).
