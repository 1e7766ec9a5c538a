(** Further properties of the mappers *)
From Coq Require Import Lra Lia.
From Verif Require Import Base M_Translate M_Mapper S_Translate S_Mapper L_Mapper2.
Local Open Scope R_scope.

(** C88: the longer side is the resolution, the other follows from the aspect ratio (width over height) *)
Theorem C88_framesize : forall m res, 0 < m_aspect m -> (0 <= res)%Z ->
  let (x, y) := m_framesize m res in (0 <= x <= res)%Z /\ (0 <= y <= res)%Z /\
  (m_aspect m <= 1 -> y = res /\ Rabs (IZR x - m_aspect m * IZR res) <= 1 / 2) /\
  (1 <= m_aspect m -> x = res /\ Rabs (IZR y - IZR res / m_aspect m) <= 1 / 2).
Proof. exact framesize_spec. Qed.
Example C88_nonvacuous : 0 < m_aspect (mk_mapper (V3 0 0 1) (1, 1) ((0, 0), (2, 1)) None 1 0) /\
  0 < m_aspect (mk_mapper (V3 0 0 1) (1, 1) ((0, 0), (1, 1)) (Some (/ 3)) 1 0) < 1.
Proof. cbn. lra. Qed.
Print Assumptions C88_framesize.

(** C89: a point is in view when it lies in the box of size sf at the lower corner of the bounding box, edges included *)
Theorem C89_in_view : forall d sf bbox asp jr uvz v, 0 < fst sf -> 0 < snd sf ->
  m_in_view (mk_mapper d sf bbox asp jr uvz) v = true <->
  fst (fst bbox) <= vx v <= fst (fst bbox) + fst sf /\ snd (fst bbox) <= vy v <= snd (fst bbox) + snd sf.
Proof. exact m_in_view_box. Qed.
(** so with the default scale factor, points well inside the bounding box can be out of view *)
Theorem C89_bounding_box_refuted : exists bbox v, m_in_view (mk_mapper (V3 0 1 0) (1, 1) bbox None 1 0) v = false /\
  fst (fst bbox) < vx v < fst (snd bbox) /\ snd (fst bbox) < vy v < snd (snd bbox).
Proof. exact m_in_view_misses. Qed.
Example C89_nonvacuous : 0 < fst (2, 1) /\ 0 < snd (2, 1).
Proof. cbn. lra. Qed.
Print Assumptions C89_in_view.
Print Assumptions C89_bounding_box_refuted.

(** C90: the area of a view is the solid angle of its cone, of a 360 degree view that of the sphere *)
Theorem C90_cone : forall d va, hemi_angle va -> vm_area (mk_view d va) = 2 * PI * (1 - cos (va / 2 * (PI / 180))).
Proof. exact view_area_cone. Qed.
Theorem C90_sphere : forall d, vm_area (mk_view d 360) = 4 * PI.
Proof. exact view_area_sphere. Qed.
Example C90_nonvacuous : hemi_angle 120.
Proof. unfold hemi_angle. lra. Qed.
Print Assumptions C90_cone.
Print Assumptions C90_sphere.
