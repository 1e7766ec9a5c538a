(** What C130 speaks about: the real numbers behind rays in double precision *)
From Coq Require Import List Reals Permutation.
From Verif Require Import Base M_Translate M_Mapper M_Metric M_Float S_Float M_Bin64 M_Angle64 S_Angle64 M_Sum64.
Local Open Scope R_scope.

(** the vector of three numbers *)
Definition vector_of (v : fvec) : vec3 := let '(x, y, z) := v in V3 (value x) (value y) (value z).
(** the ray with these numbers *)
Definition ray_of (r : ray64) : ray := Ray (vector_of (v64 r)) (value (o64 r)) (value (l64 r)).
(** components between -1 and 1, as those of a unit vector (C123) *)
Definition cosines (v : fvec) : Prop := let '(x, y, z) := v in cosine x /\ cosine y /\ cosine z.
(** a number that is not negative and not huge *)
Definition moderate (x : f64) : Prop := number x /\ 0 <= value x <= 2 ^ 200.
(** rays with directions, and solid angles and luminances that are neither negative nor huge *)
Definition good_rays (l : list ray64) : Prop := Forall (fun r => cosines (v64 r) /\ moderate (o64 r) /\ moderate (l64 r)) l.
(** the same object in exact arithmetic: the view direction, the scale and the rays, in any order *)
Definition same_set (m : mset) (axis : fvec) (scale : f64) (rays : list ray64) : Prop :=
  vm_dxyz (ms_vm m) = vector_of axis /\ ms_scale m = value scale /\ Permutation (ms_rays m) (map ray_of rays).
(** all the light: the sum of luminance times solid angle *)
Definition all_light (m : mset) : R := Rsumf (fun r => r_lum r * r_omega r) (ms_rays m) * ms_scale m.
(** the same rays, with other luminances that are not lower *)
Fixpoint brighter (s t : additions ray64) : Prop :=
  match s, t with
  | Nothing, Nothing => True
  | Term a, Term b => v64 a = v64 b /\ o64 a = o64 b /\ value (l64 a) <= value (l64 b)
  | Plus s1 s2, Plus t1 t2 => brighter s1 t1 /\ brighter s2 t2
  | _, _ => False
  end.
(** a ray that is not behind the plane across the view direction *)
Definition front (axis : fvec) (r : ray64) : Prop := 0 <= value (ctheta_f64 axis (v64 r)).
