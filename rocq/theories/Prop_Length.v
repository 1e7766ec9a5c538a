(** Property C153: lengths of direction vectors. *)
From Coq Require Import Lra.
From Verif Require Import Base BaseX M_Translate M_Mapper M_Metric S_Metric S_Mapper S_Length L_Metric2 L_Length.
Import ListNotations.
Local Open Scope R_scope.

(** C153: the directions of the rays of a metric set need not be unit vectors: their lengths change nothing *)
Theorem C153_metrics fuel o vm a b : other_lengths a b -> construct fuel o vm a = construct fuel o vm b.
Proof. exact (len_construct fuel o vm a b). Qed.
Print Assumptions C153_metrics.
Theorem C153_color fuel o vm vl a b : other_lengths_color a b -> construct_color fuel o vm vl a = construct_color fuel o vm vl b.
Proof. exact (len_color fuel o vm vl a b). Qed.
Print Assumptions C153_color.
(** C153: nor those of view directions, of the directions located in an image or given a position index *)
Theorem C153_views d d' va v w res g : same_direction d d' -> same_direction v w ->
  mk_view d' va = mk_view d va /\ xyz2vxy (mk_view d' va) w = xyz2vxy (mk_view d va) v /\ ray2pixel (mk_view d' va) res w = ray2pixel (mk_view d va) res v /\
  positions g (mk_view d' va) w = positions g (mk_view d va) v.
Proof. exact (len_views d d' va v w res g). Qed.
Print Assumptions C153_views.
(** C153: nor those of directions given to norm, xyz2xy, and to xyz2uv and xyz2skybin with normalize=True *)
Theorem C153_translate axes fl side v w : same_direction v w -> norm w = norm v /\ xyz2uv true axes fl w = xyz2uv true axes fl v /\
  xyz2skybin w side true = xyz2skybin v side true /\ xyz2xy xyz_axes fl w = xyz2xy xyz_axes fl v.
Proof. exact (len_translate axes fl side v w). Qed.
Print Assumptions C153_translate.
(** C153: in_view and degrees of a view do depend on it *)
Theorem C153_refuted : exists d va v w, same_direction v w /\ dot v v = 1 /\
  in_view (mk_view d va) 0 v = false /\ in_view (mk_view d va) 0 w = true /\ vm_degrees (mk_view d va) v = 60 /\ vm_degrees (mk_view d va) w = 0.
Proof. exact len_refuted. Qed.
Print Assumptions C153_refuted.
Example C153_example : other_lengths [ray1 3] [Ray (V3 0 0 7) 1 3].
Proof. exact len_example. Qed.
