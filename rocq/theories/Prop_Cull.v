(** Property C160: culling vectors again. *)
From Verif Require Import Base M_Translate M_Data S_Isometry S_Cull L_Isometry L_Cull.
Import ListNotations.
Local Open Scope R_scope.

(** C160: of vectors that were culled nothing more is culled *)
Theorem C160_again vecs tol p p' : 0 <= tol -> near_lists vecs tol p ->
  near_lists (kept (cull_vectors p (length vecs)) vecs) tol p' ->
  cull_vectors p' (length (kept (cull_vectors p (length vecs)) vecs)) = repeat true (length (kept (cull_vectors p (length vecs)) vecs)).
Proof. exact (cull_again vecs tol p p'). Qed.
Print Assumptions C160_again.
(** C160: rotating, reflecting or shifting all vectors changes nothing *)
Theorem C160_moved t vecs tol p p' : keeps_distance t -> near_lists vecs tol p -> near_lists (map t vecs) tol p' ->
  cull_vectors p' (length (map t vecs)) = cull_vectors p (length vecs).
Proof. exact (cull_moved t vecs tol p p'). Qed.
Print Assumptions C160_moved.
(** C160: a larger tolerance does not always cull more: it can keep more vectors *)
Theorem C160_tolerance_refuted : exists vecs tol tol' p p', 0 < tol < tol' /\ near_lists vecs tol p /\ near_lists vecs tol' p' /\
  (length (kept (cull_vectors p (length vecs)) vecs) < length (kept (cull_vectors p' (length vecs)) vecs))%nat.
Proof. exact coarse_keeps_more. Qed.
Print Assumptions C160_tolerance_refuted.
(** the lists exist for all vectors; motions *)
Example C160_lists vecs tol : exists p, near_lists vecs tol p.
Proof. exact (near_exists vecs tol). Qed.
Example C160_rotation : keeps_distance (fun v => V3 (vz v) (vx v) (vy v)).
Proof. exact (isometry_keeps _ turn_vertical). Qed.
Example C160_shift d : keeps_distance (fun v => vadd v d).
Proof. exact (shift_keeps d). Qed.
