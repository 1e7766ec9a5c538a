(** Property C142: colours to luminance in binary64 arithmetic, for every order of the additions, fused or not. *)
From Coq Require Import List ZArith Reals Permutation.
From Verif Require Import Base M_Float S_Float M_Io M_Lum64 S_Lum64 L_Lum64.
Import ListNotations.
Local Open Scope R_scope.

(** C142: a channel of a pixel is decoded without rounding ... *)
Theorem C142_channel d c e : byte_value c -> byte_value e ->
  number (channel_f64 d c e) /\ value (channel_f64 d c e) = rgbe2rgb d c e.
Proof. exact (channel_val d c e). Qed.
Print Assumptions C142_channel.

(** ... radiance and luminance of any colours have a small relative error, in whatever order the products are added, fused or
    not, although the weights are rounded ... *)
Theorem C142_radiance rgb t : Forall good_channel rgb -> adds_up t (combine rgb weights_f64) ->
  number (weighted_f64 t) /\
  Rabs (value (weighted_f64 t) - rgb2rad [0.265; 0.670; 0.065] (map value rgb)) <=
    (INR (roundings t) + 2) / 2 ^ 52 * rgb2rad [0.265; 0.670; 0.065] (map value rgb) + / 2 ^ 600.
Proof. exact (colour_near weights_f64 radiance_weights rgb t weights_near). Qed.
Print Assumptions C142_radiance.
Theorem C142_luminance rgb t : Forall good_channel rgb -> adds_up t (combine rgb lum_weights_f64) ->
  number (weighted_f64 t) /\
  Rabs (value (weighted_f64 t) - rgb2lum [0.265; 0.670; 0.065] (map value rgb)) <=
    (INR (roundings t) + 2) / 2 ^ 52 * rgb2lum [0.265; 0.670; 0.065] (map value rgb) + / 2 ^ 600.
Proof. exact (colour_near lum_weights_f64 _ rgb t lum_weights_near). Qed.
Print Assumptions C142_luminance.

(** ... for a pixel, nothing is lost to underflow ... *)
Theorem C142_pixel d r g b e t : byte_value r -> byte_value g -> byte_value b -> byte_value e -> adds_up t (pixel_f64 d r g b e) ->
  number (weighted_f64 t) /\
  Rabs (value (weighted_f64 t) - rgbe2lum d r g b e) <= (INR (roundings t) + 3) / 2 ^ 52 * rgbe2lum d r g b e.
Proof. exact (pixel_near d r g b e t). Qed.
Print Assumptions C142_pixel.

(** ... only a black pixel has the luminance zero ... *)
Theorem C142_black d r g b e t : byte_value r -> byte_value g -> byte_value b -> byte_value e -> adds_up t (pixel_f64 d r g b e) ->
  0 <= value (weighted_f64 t) /\ (value (weighted_f64 t) = 0 <-> r = 0%Z /\ g = 0%Z /\ b = 0%Z).
Proof. exact (pixel_zero d r g b e t). Qed.
Print Assumptions C142_black.

(** ... and a pixel that is brighter in a channel, and no darker in another, has more luminance, even when the two are added in
    different orders *)
Theorem C142_brighter d r g b r' g' b' e t t' :
  (0 <= r <= r')%Z -> (0 <= g <= g')%Z -> (0 <= b <= b')%Z -> (r + g + b < r' + g' + b')%Z ->
  byte_value r' -> byte_value g' -> byte_value b' -> byte_value e ->
  adds_up t (pixel_f64 d r g b e) -> adds_up t' (pixel_f64 d r' g' b' e) ->
  value (weighted_f64 t) < value (weighted_f64 t').
Proof. exact (pixel_mono d r g b r' g' b' e t t'). Qed.
Print Assumptions C142_brighter.

Example C142_example : adds_up (from_left (pixel_f64 Uint8 10 200 0 130)) (pixel_f64 Uint8 10 200 0 130) /\ byte_value 10 /\ byte_value 200 /\ byte_value 130 /\
  Forall good_channel [channel_f64 Uint8 10 130; channel_f64 Uint8 200 130; channel_f64 Uint8 0 130].
Proof. exact pixel_case. Qed.
