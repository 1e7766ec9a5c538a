(** Property C148: turning the scene and the view together. *)
From Coq Require Import String.
From Verif Require Import Base BaseX M_Translate M_Mapper M_Metric S_Metric S_Units S_Turn L_Turn.
Import ListNotations.
Local Open Scope R_scope.

(** C148: turning view and direction about the vertical axis by the same angle, or reflecting both in a vertical plane,
    leaves the position index alone, unless the view is vertical *)
Theorem C148_positions mirror c s g d va v : c * c + s * s = 1 -> let T := about_vertical mirror c s in off_vertical d -> off_vertical (T d) ->
  positions g (mk_view (T d) va) (T v) = positions g (mk_view d va) v.
Proof. exact (turn_positions mirror c s g d va v). Qed.
Print Assumptions C148_positions.
(** C148: likewise for the solid angles and all metrics, without rays at the edge of the view *)
Theorem C148_metrics_partial mirror c s fuel o d va args kd names : c * c + s * s = 1 -> off_vertical d -> off_vertical (about_vertical mirror c s d) ->
  no_edge_rays (mk_view d va) args ->
  outcome (construct fuel o (mk_view (about_vertical mirror c s d) va) (map (ray_about mirror c s) args)) kd names =
  outcome (construct fuel o (mk_view d va) args) kd names.
Proof. exact (turn_metrics mirror c s fuel o d va args kd names). Qed.
Print Assumptions C148_metrics_partial.
(** C148: a view straight up has a heading: the index of what it sees depends on the compass direction *)
Theorem C148_refuted : exists c s v, c * c + s * s = 1 /\ let T := about_vertical false c s in T (V3 0 0 1) = V3 0 0 1 /\
  positions false (mk_view (T (V3 0 0 1)) 180) (T v) <> positions false (mk_view (V3 0 0 1) 180) v.
Proof. exact up_refuted. Qed.
Print Assumptions C148_refuted.
Example C148_example : 3 / 5 * (3 / 5) + 4 / 5 * (4 / 5) = 1 /\ off_vertical (V3 0 1 0) /\ off_vertical (about_vertical false (3 / 5) (4 / 5) (V3 0 1 0)) /\
  about_vertical false (3 / 5) (4 / 5) (V3 0 1 0) = V3 (- (4 / 5)) (3 / 5) 0 /\
  no_edge_rays (mk_view (V3 0 1 0) 180) [Ray (V3 0 1 0) 1 1].
Proof. exact turn_example. Qed.
