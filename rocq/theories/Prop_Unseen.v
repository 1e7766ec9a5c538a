(** Property C152: rays out of view. *)
From Coq Require Import Lra.
From Verif Require Import Base BaseX M_Translate M_Mapper M_Io M_Metric S_Metric S_Unseen L_Metric2 L_Construct2 L_Unseen.
Import ListNotations.
Local Open Scope R_scope.

(** C152: rays that the view does not see change nothing, as long as no bright rays lie at its edge *)
Theorem C152_rays_partial fuel o vm args args' : inserted (unseen vm) args args' -> no_bright_edge vm args -> no_bright_edge vm args' ->
  option_map fst (construct fuel o vm args) = option_map fst (construct fuel o vm args').
Proof. exact (unseen_same fuel o vm args args'). Qed.
Print Assumptions C152_rays_partial.
(** C152: the same with colours *)
Theorem C152_color_partial fuel o vm vl args args' : inserted (fun x => unseen vm (color_ray vl x)) args args' ->
  no_bright_edge vm (map (color_ray vl) args) -> no_bright_edge vm (map (color_ray vl) args') ->
  option_map fst (construct_color fuel o vm vl args) = option_map fst (construct_color fuel o vm vl args').
Proof. exact (unseen_color fuel o vm vl args args'). Qed.
Print Assumptions C152_color_partial.
(** C152: black rays far out of view decide whether a ray at the edge counts *)
Theorem C152_refuted : exists o vm args args' m m' om om', inserted (fun r => unseen vm r /\ off_edge vm r /\ r_lum r = 0) args args' /\
  construct 0 o vm args = Some (m, om) /\ construct 0 o vm args' = Some (m', om') /\
  (forall r, In r (ms_rays m) -> r_lum r = 0) /\ (exists r, In r (ms_rays m') /\ r_lum r = 1 /\ 0 < r_omega r).
Proof. exact unseen_matters. Qed.
Print Assumptions C152_refuted.
Example C152_example : inserted (unseen tiny) [dark] [side; dark; side] /\ no_bright_edge tiny [dark] /\ no_bright_edge tiny [side; dark; side].
Proof. exact unseen_example. Qed.
