(** Property C155: normalising the peak again. *)
From Verif Require Import Base M_Translate M_Io M_Peak S_Peak L_Again.
Import ListNotations.
Local Open Scope R_scope.

(** C155: where every ray that was kept is below the threshold, normalising again changes nothing *)
Theorem C155_again_partial order blur w p rays r : sorts_down order -> (forall a l, 0 < blur a l) -> args_ok p -> rays_ok w p rays ->
  0 <= cos (sqrt (a_peaka p / PI) * a_peakrad p) -> a_peakc p = 1 -> a_blursun p = false -> a_blurtol p <= 1 ->
  normalize_peak order blur w p false rays = Ok r -> (forall q, In q (removelast r) -> ~ is_bright w p q) ->
  normalize_peak order blur w p false r = Ok r.
Proof. exact (normalize_again order blur w p rays r). Qed.
Print Assumptions C155_again_partial.
(** C155: the source is not larger than the area given *)
Theorem C155_area order blur w p rays r : sorts_down order -> args_ok p -> rays_ok w p rays -> a_peakc p = 1 -> a_blursun p = false -> a_blurtol p <= 1 ->
  normalize_peak order blur w p false rays = Ok r ->
  (forall i, (i < length rays)%nat -> ~ is_bright w p (nth i rays dummy_pix)) \/ exists kept peak, r = kept ++ [peak] /\ 0 < p_o peak <= a_peaka p.
Proof. exact (normalize_area order blur w p rays r). Qed.
Print Assumptions C155_area.
(** C155: otherwise it can: the rays kept are consolidated in turn, and the brightest ray of the result disappears *)
Theorem C155_refuted order blur : sorts_down order -> exists p rays r r' q, args_ok p /\ rays_ok [1] p rays /\
  a_peakc p = 1 /\ a_blursun p = false /\ a_blurtol p <= 1 /\
  normalize_peak order blur [1] p false rays = Ok r /\ normalize_peak order blur [1] p false r = Ok r' /\
  In q r /\ forall q', In q' r' -> rgb2rad [1] (p_l q') < rgb2rad [1] (p_l q).
Proof. exact (again_differs order blur). Qed.
Print Assumptions C155_refuted.
Example C155_example : args_ok args1 /\ rays_ok vl3 args1 red_green /\ 0 <= cos (sqrt (a_peaka args1 / PI) * a_peakrad args1) /\
  a_peakc args1 = 1 /\ a_blursun args1 = false /\ a_blurtol args1 <= 1 /\
  forall order blur, sorts_down order -> exists q, normalize_peak order blur vl3 args1 false red_green = Ok [q].
Proof. exact again_example. Qed.
