(** More about bright rays at the edge of a view (C53). Specifications: S_Metric.v. *)
From Coq Require Import Lra.
From Verif Require Import Base BaseX M_Translate S_Translate M_Mapper S_Mapper M_Io M_Metric M_Cache S_Metric L_Angles L_Mapper L_Metric L_Metric2 L_Metric4 L_Construct L_Construct2 L_Construct3.
Import ListNotations.
Local Open Scope R_scope.

(** a bright ray gets less than its overlap with the view if its centre is further inside than the common chord, or if the view
    axis is on the other side of the chord because the ray is bigger than the view *)
Theorem C53_short_refuted : forall fuel o d va pre s post, o_as_area o = true -> d <> vzero -> hemi_angle va ->
  let vm := mk_view d va in let args := pre ++ s :: post in let v := norm (r_vec s) in
  r_vec s <> vzero -> bright_edge vm args s -> (forall r, In r (pre ++ post) -> ~ bright_edge vm args r) ->
  let a := va * PI / 360 in let b := sqrt (r_omega s / PI) in let t := angle (norm d) v in
  0 < r_omega s -> Rabs (a - b) < t < a + b -> t * t + b * b < a * a \/ t * t + a * a < b * b ->
  exists w m area, construct fuel o vm args = Some (m, map r_omega pre ++ area :: map r_omega post) /\
    ms_rays m = seen vm pre ++ Ray w area (r_lum s) :: seen vm post /\ 0 <= area < lens_area a b t.
Proof. exact short_stray. Qed.
(** such rays exist because in_view is narrower than the view (C22): here for a view of two degrees and ten dark rays *)
Example C53_short_case : exists s, let pre := repeat dark 10 in
  bright_edge tiny (pre ++ s :: []) s /\ (forall r, In r (pre ++ []) -> ~ bright_edge tiny (pre ++ s :: []) r) /\ r_vec s <> vzero /\ 0 < r_omega s /\
  let t := angle (norm up3) (norm (r_vec s)) in let b := sqrt (r_omega s / PI) in Rabs (ta - b) < t < ta + b /\ t * t + b * b < ta * ta.
Proof. exact short_inside_exists. Qed.
Print Assumptions C53_short_refuted.
