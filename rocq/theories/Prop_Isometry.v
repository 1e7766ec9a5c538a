(** Property C156: the peak and the secondary sources do not depend on the orientation of the axes. *)
From Verif Require Import Base M_Translate M_Io M_Mapper M_Metric M_Peak S_Peak L_Peak3 S_Turn S_Exposure L_Exposure S_Isometry L_Isometry.
Import ListNotations.
Local Open Scope R_scope.

(** C156: rotating or reflecting the directions of all rays rotates the rays of the result, with all corrections; the same exceptions *)
Theorem C156_peak t order blur w p kz rays : isometry t -> by_comparison order ->
  normalize_peak order blur w p kz (map (moved t) rays) = mapped (map (moved t)) (normalize_peak order blur w p kz rays).
Proof. exact (fun I => normalize_moved t I w p order blur kz rays). Qed.
Print Assumptions C156_peak.
(** C156: and the secondary sources *)
Theorem C156_secondary t fuel order sortdesc w p rays : isometry t -> by_comparison order -> ignores_direction sortdesc ->
  secondary fuel order sortdesc w p (map (moved t) rays) = mapped (map (moved_stray t)) (secondary fuel order sortdesc w p rays).
Proof. exact (fun I => secondary_moved t I w p fuel order sortdesc rays). Qed.
Print Assumptions C156_secondary.
(** rotations and reflections about a vertical axis, and the exchange of the axes *)
Example C156_turn m c x : c * c + x * x = 1 -> isometry (about_vertical m c x).
Proof. exact (about_isometry m c x). Qed.
Example C156_axes : isometry (fun v => V3 (vz v) (vx v) (vy v)).
Proof. exact turn_vertical. Qed.
(** such sorts exist *)
Example C156_sort : exists order, sorts_down order /\ by_comparison order.
Proof. exact sort_example. Qed.
Example C156_sort_rays w : exists sortdesc, sorts_rays_down w sortdesc /\ ignores_direction sortdesc.
Proof. exact (sort_moved_exists w). Qed.
(** rays with a peak; rays with secondary sources are those of C58_example *)
Example C156_example : args_ok args1 /\ rays_ok vl3 args1 red_green /\
  exists i, (i < length red_green)%nat /\ is_bright vl3 args1 (nth i red_green dummy_pix).
Proof.
  exact (conj args1_ok (conj red_green_ok (ex_intro _ 0%nat (conj (Nat.lt_0_succ 1) red_bright)))).
Qed.
