(** What C156 speaks about. *)
From Verif Require Import Base M_Translate M_Io M_Peak.
Local Open Scope R_scope.

(** a rotation or reflection: linear, and angles and lengths stay as they are *)
Definition isometry (t : vec3 -> vec3) : Prop :=
  (forall a b, t (vadd a b) = vadd (t a) (t b)) /\ (forall k a, t (vscale k a) = vscale k (t a)) /\ (forall a b, dot (t a) (t b) = dot a b).
(** the ray and the secondary source with its direction moved *)
Definition moved (t : vec3 -> vec3) (r : pix) : pix := Pix (t (p_v r)) (p_o r) (p_l r).
Definition moved_stray (t : vec3 -> vec3) (q : stray) : stray := Stray (t (s_v q)) (s_o q) (s_l q).
(** a sort of rays that does not look at their directions *)
Definition ignores_direction (sortdesc : list pix -> list pix) : Prop :=
  forall t l, sortdesc (map (moved t) l) = map (moved t) (sortdesc l).
(** a result, or the exception *)
Definition mapped {A B} (f : A -> B) (r : res A) : res B := match r with Ok a => Ok (f a) | Raise e => Raise e end.
