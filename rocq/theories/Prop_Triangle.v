(** Property C159: the angle between directions is a distance. *)
From Verif Require Import Base M_Translate S_Triangle L_Triangle S_Isometry L_Isometry L_Angles.
Import ListNotations.
Local Open Scope R_scope.

(** C159: the angle between two directions is at most the sum of the angles by way of a third one *)
Theorem C159_radians a b c : dot a a = 1 -> dot b b = 1 -> dot c c = 1 -> radians a c <= radians a b + radians b c.
Proof. exact (radians_triangle a b c). Qed.
Print Assumptions C159_radians.
Theorem C159_degrees a b c : dot a a = 1 -> dot b b = 1 -> dot c c = 1 -> degrees a c <= degrees a b + degrees b c.
Proof. exact (degrees_triangle a b c). Qed.
Print Assumptions C159_degrees.
(** C159: and by way of any number of directions *)
Theorem C159_path a l : units (a :: l) -> radians a (last l a) <= path_angle a l.
Proof. exact (path_triangle l a). Qed.
Print Assumptions C159_path.
(** C159: circles whose centres are further apart than the sum of their radii have no direction in common *)
Theorem C159_circles a b v ra rb : dot a a = 1 -> dot b b = 1 -> dot v v = 1 -> ra + rb < degrees a b -> degrees a v <= ra -> rb < degrees b v.
Proof. exact (cones_apart a b v ra rb). Qed.
Print Assumptions C159_circles.
(** C159: a search within the chord of an angle is a search within the angle *)
Theorem C159_chord a b t : dot a a = 1 -> dot b b = 1 -> 0 <= t <= PI -> (vnorm (vsub a b) <= theta2chord t <-> radians a b <= t).
Proof. exact (chord_search a b t). Qed.
Print Assumptions C159_chord.
(** C159: rotations and reflections keep the angle *)
Theorem C159_moved t a b : isometry t -> radians (t a) (t b) = radians a b.
Proof. exact (radians_moved t a b). Qed.
Print Assumptions C159_moved.
(** from the first axis to the third by way of the second, and directly *)
Example C159_example : units [V3 1 0 0; V3 0 1 0; V3 0 0 1] /\ path_angle (V3 1 0 0) [V3 0 1 0; V3 0 0 1] = PI /\ radians (V3 1 0 0) (V3 0 0 1) = PI / 2.
Proof. exact quarter_path. Qed.
Example C159_isometry : isometry (fun v => V3 (vz v) (vx v) (vy v)).
Proof. exact turn_vertical. Qed.
