(** Rounding: the arguments of arccos, arcsin and sqrt in binary64 arithmetic (C123) *)
From Coq Require Import ZArith Reals Floats.SpecFloat Lra Lia.
From Verif Require Import Base M_Float S_Float M_Bin64 M_Angle64 S_Angle64 L_Float64 L_Norm64 L_Angle64.
Local Open Scope R_scope.

(** C123: rounding does not carry the components of a normalised vector beyond -1 and 1, so the arccos in xyz2tp(norm(v)) is
    defined ... *)
Theorem C123_norm : forall x y z, number x -> number y -> number z -> / 2 ^ 500 <= len3 (value x) (value y) (value z) <= 2 ^ 500 ->
  (let '(x', y', z') := norm_f64 (x, y, z) in cosine x' /\ cosine y' /\ cosine z') /\ cosine (theta_cos (norm_f64 (x, y, z))).
Proof. exact norm_thetas. Qed.
(** ... nor that of the tilt of the position index ... *)
Theorem C123_tau : forall x y z, number x -> number y -> / 2 ^ 500 <= len3 (value x) (value y) 0 <= 2 ^ 500 -> cosine (tau_cos (x, y, z)).
Proof. exact tau_defined. Qed.
(** ... nor the radius of the circle at a height from -1 to 1 ... *)
Theorem C123_ring : forall z, cosine z -> number (ring_radius z) /\ 0 <= value (ring_radius z) <= 1.
Proof. exact ring_defined. Qed.
(** ... and ctheta clips the dot product of any two vectors, whatever their lengths *)
Theorem C123_ctheta : forall x y z x' y' z', number x -> number y -> number z -> number x' -> number y' -> number z' ->
  Rabs (value x) <= 2 ^ 500 -> Rabs (value y) <= 2 ^ 500 -> Rabs (value z) <= 2 ^ 500 ->
  Rabs (value x') <= 2 ^ 500 -> Rabs (value y') <= 2 ^ 500 -> Rabs (value z') <= 2 ^ 500 ->
  cosine (ctheta_f64 (x, y, z) (x', y', z')) /\
  (cosine (f_dot (x, y, z) (x', y', z')) -> ctheta_f64 (x, y, z) (x', y', z') = f_dot (x, y, z) (x', y', z')).
Proof. exact ctheta_clips. Qed.
(** these are the cosines of the angles, up to rounding *)
Theorem C123_accurate : forall x y z x' y' z', cosine x -> cosine y -> cosine z -> cosine x' -> cosine y' -> cosine z' ->
  Rabs (value (ctheta_f64 (x, y, z) (x', y', z')) - clip (value x * value x' + value y * value y' + value z * value z') (-1) 1) <= / 2 ^ 48.
Proof. exact ctheta_accurate. Qed.
Theorem C123_accurate_theta : forall x y z, number x -> number y -> number z -> / 2 ^ 500 <= len3 (value x) (value y) (value z) <= 2 ^ 500 ->
  Rabs (value (theta_cos (norm_f64 (x, y, z))) - value z / len3 (value x) (value y) (value z)) <= / 2 ^ 50.
Proof. exact theta_accurate. Qed.
Theorem C123_accurate_tau : forall x y z, number x -> number y -> / 2 ^ 500 <= len3 (value x) (value y) 0 <= 2 ^ 500 ->
  Rabs (value (tau_cos (x, y, z)) - value y / len3 (value x) (value y) 0) <= / 2 ^ 50.
Proof. exact tau_value. Qed.
(** chord2theta does not clip: the distance of the opposite unit vectors norm(1, 12, 34) and norm(-1, -12, -34) is above 2, so the
    angle between them is nan; without its clip ctheta would fail on the first of them and itself *)
Theorem C123_chord_refuted : let v := norm_f64 (f_of_Z 1, f_of_Z 12, f_of_Z 34) in let w := norm_f64 (f_of_Z (-1), f_of_Z (-12), f_of_Z (-34)) in
  number (half_chord (f_distance v w)) /\ 1 < value (half_chord (f_distance v w)) /\
  number (f_dot v v) /\ 1 < value (f_dot v v) /\ ctheta_f64 v v = f_of_Z 1.
Proof. exact chord_large. Qed.
Example C123_nonvacuous : exists x y z, number x /\ number y /\ number z /\ / 2 ^ 500 <= len3 (value x) (value y) (value z) <= 2 ^ 500 /\
  / 2 ^ 500 <= len3 (value x) (value y) 0 <= 2 ^ 500 /\ Rabs (value x) <= 2 ^ 500 /\ Rabs (value y) <= 2 ^ 500 /\ Rabs (value z) <= 2 ^ 500 /\
  tau_cos (x, y, z) = S754_finite false 7205759403792794 (-53) /\ ring_radius (tau_cos (x, y, z)) = S754_finite false 5404319552844594 (-53).
Proof. exact angles_sample. Qed.
Print Assumptions C123_norm.
Print Assumptions C123_tau.
Print Assumptions C123_ring.
Print Assumptions C123_ctheta.
Print Assumptions C123_accurate.
Print Assumptions C123_accurate_theta.
Print Assumptions C123_accurate_tau.
Print Assumptions C123_chord_refuted.
