(** Specification vocabulary for the metrics *)
From Coq Require Import String.
From Verif Require Import Base BaseX M_Translate M_Mapper S_Translate S_Mapper M_Io M_Metric M_Cache.
Import ListNotations.
Local Open Scope R_scope.

(** no ray lies outside the view but within about one degree of its edge (for a full sphere nothing is outside) *)
Definition no_edge_rays (vm : viewmapper) (args : list ray) : Prop :=
  vm_aspect vm = 2%Z \/
  forall r, In r args -> in_view vm 0 (norm (r_vec r)) = true \/
    1 + rtol_default * Rabs (vm_viewangle vm / 2) < Rabs (vm_degrees vm (norm (r_vec r)) - vm_viewangle vm / 2).
(** the rays a view sees, with normalised directions *)
Definition seen (vm : viewmapper) (args : list ray) : list ray :=
  filter (fun r => (vm_aspect vm =? 2)%Z || in_view vm 0 (r_vec r))
         (map (fun r => Ray (norm (r_vec r)) (r_omega r) (r_lum r)) args).

(** a metric of the union of two ray sets is the sum of the metric of the parts *)
Definition sums_over_rays (P : options -> Prop) (f : mset -> xr) : Prop :=
  forall fuel o vm a b m ma mb oa ob om, P o -> o_as_area o = true -> no_edge_rays vm (a ++ b) ->
  construct fuel o vm (a ++ b) = Some (m, om) -> construct fuel o vm a = Some (ma, oa) ->
  construct fuel o vm b = Some (mb, ob) -> f m = xadd (f ma) (f mb).
(** a metric of the sum of two luminance distributions over the same rays is the sum of the metrics *)
Definition split_rays (l : list (vec3 * R * (R * R))) (f : R * R -> R) : list ray :=
  map (fun p => Ray (fst (fst p)) (snd (fst p)) (f (snd p))) l.
Definition sums_over_lum (P : options -> Prop) (f : mset -> xr) : Prop :=
  forall fuel o vm l m ma mb oa ob om, P o -> o_as_area o = true ->
  no_edge_rays vm (split_rays l fst) ->
  construct fuel o vm (split_rays l (fun p => fst p + snd p)) = Some (m, om) ->
  construct fuel o vm (split_rays l fst) = Some (ma, oa) ->
  construct fuel o vm (split_rays l snd) = Some (mb, ob) -> f m = xadd (f ma) (f mb).
Definition any_options (o : options) : Prop := True.
(** a threshold that does not depend on the task luminance *)
Definition fixed_threshold (o : options) : Prop := 100 < o_threshold o.

(** data a physically meaningful ray set has *)
Definition valid_rays (m : mset) : Prop := forall r, In r (ms_rays m) -> 0 <= r_omega r /\ 0 <= r_lum r.

(** l splits, in order, into the elements with P and those without *)
Inductive splits {A} (P : A -> Prop) : list A -> list A -> list A -> Prop :=
  | splits_nil : splits P [] [] []
  | splits_in a l x y : P a -> splits P l x y -> splits P (a :: l) (a :: x) y
  | splits_out a l x y : ~ P a -> splits P l x y -> splits P (a :: l) x (a :: y).

(** x is a finite number with the property *)
Definition finite (P : R -> Prop) (x : xr) : Prop := exists r, x = Fin r /\ P r.

(** area common to a disc of radius a and one of radius b whose centres are d apart *)
Definition lens_area (a b d : R) : R :=
  a * a * acos ((d * d + a * a - b * b) / (2 * d * a)) + b * b * acos ((d * d + b * b - a * a) / (2 * d * b))
  - / 2 * sqrt ((- d + a + b) * (d + a - b) * (d - a + b) * (d + a + b)).

(** object data with other luminances, another scale, another low light switch *)
Definition with_rays (m : mset) (rays : list ray) : mset :=
  MS (ms_vm m) (ms_guth m) (ms_view_area m) rays (ms_scale m) (ms_threshold m) (ms_tradius m) (ms_lowlight m) (ms_rgb m)
     (ms_channels m).
Definition with_scale (m : mset) (s : R) : mset :=
  MS (ms_vm m) (ms_guth m) (ms_view_area m) (ms_rays m) s (ms_threshold m) (ms_tradius m) (ms_lowlight m) (ms_rgb m)
     (ms_channels m).
Definition with_lowlight (m : mset) (b : bool) : mset :=
  MS (ms_vm m) (ms_guth m) (ms_view_area m) (ms_rays m) (ms_scale m) (ms_threshold m) (ms_tradius m) b (ms_rgb m)
     (ms_channels m).
Definition scale_lum (k : R) (rays : list ray) : list ray := map (fun r => Ray (r_vec r) (r_omega r) (k * r_lum r)) rays.

(** a direction in view space: angle t off the view direction, azimuth p (0 is right, pi / 2 is up) *)
Definition at_angle (t p : R) : vec3 := V3 (sin t * cos p) (sin t * sin p) (cos t).

(** in a history of reads and assignments, every assignment to an object comes before all its reads *)
Fixpoint assigned_before_read (es : list event) : Prop :=
  match es with
  | [] => True
  | Assign _ _ :: es => assigned_before_read es
  | Read i _ :: es => (forall m, ~ In (Assign i m) es) /\ assigned_before_read es
  end.
(** what each read should give: the definition of the property on the object's data at that time *)
Fixpoint expected (h : heap) (es : list event) : list (option (res value)) :=
  match es with
  | [] => []
  | Read i p :: es => Some (prop_value (fst (h i)) (snd (h i)) p) :: expected h es
  | Assign i m :: es => expected (set_data h i m) es
  end.

(** rays that overlap the edge of the view when their side is taken as c times the root of their solid angle *)
Definition at_edge (vm : viewmapper) (c : R) (r : ray) : Prop :=
  vm_viewangle vm * PI / 360 - c * sqrt (r_omega r) < acos (vm_ctheta vm (r_vec r)).
(** the second list is the first with the solid angles of its edge rays, and no others, multiplied by k *)
Definition edge_scaled (vm : viewmapper) (c k : R) : list ray -> list ray -> Prop :=
  Forall2 (fun r r' => r_vec r' = r_vec r /\ r_lum r' = r_lum r /\
    (at_edge vm c r -> r_omega r' = k * r_omega r) /\ (~ at_edge vm c r -> r_omega r' = r_omega r)).
(** a ray outside the view, within (about) a degree of its edge and more than ten times brighter than the average *)
Definition bright_edge (vm : viewmapper) (args : list ray) (r : ray) : Prop :=
  in_view vm 0 (norm (r_vec r)) = false /\
  Rabs (vm_degrees vm (norm (r_vec r)) - vm_viewangle vm / 2) <= 1 + rtol_default * Rabs (vm_viewangle vm / 2) /\
  0 < Rsumf r_lum args / INR (List.length args) /\
  10 * (Rsumf r_lum args / INR (List.length args)) < r_lum r.
(** the disc of radius sqrt(omega / pi) around a ray at angle d meets the edge of a view of half angle a *)
Definition overlaps (a omega d : R) : Prop := a - sqrt (omega / PI) < d < a + sqrt (omega / PI).

(** the rays of the task area *)
Definition task_rays (m : mset) : list ray := filter (in_task m) (ms_rays m).
(** no negative solid angle *)
Definition valid_omega (m : mset) : Prop := forall r, In r (ms_rays m) -> 0 <= r_omega r.
(** the value of the metric called n *)
Definition one_value (k : kind) (m : mset) (n : string) (x : xr) : Prop :=
  exists p, prop_of_name n = Some p /\ prop_value k m p = Ok (VX x).
(** the values calling a colour metric set gives for the metric called n *)
Definition color_values (m : mset) (n : string) (xs : list xr) : Prop :=
  (n = "irradiance"%string /\ xs = map Fin (irradiance m)) \/ (n <> "irradiance"%string /\ exists x, one_value KColor m n x /\ xs = [x]).
(** coloured rays (direction, solid angle, channels): as rays with the luminance of their channels; those a view sees *)
Definition color_args (vl : list R) (args : list (vec3 * R * list R)) : list ray :=
  map (fun a => Ray (fst (fst a)) (snd (fst a)) (rgb2rad vl (snd a))) args.
Definition color_ray (vl : list R) (a : vec3 * R * list R) : ray := Ray (norm (fst (fst a))) (snd (fst a)) (rgb2rad vl (snd a)).
Definition color_seen (vm : viewmapper) (vl : list R) (args : list (vec3 * R * list R)) : list (vec3 * R * list R) :=
  filter (fun a => (vm_aspect vm =? 2)%Z || in_view vm 0 (norm (fst (fst a)))) args.

(** published formulas, for glare sources given by luminance, solid angle and position index *)
Definition glare_source (m : mset) (r : ray) : R * R * R := (r_lum r * ms_scale m, r_omega r, m_pidx m r).
Definition weighted (src : list (R * R * R)) : R :=
  Rsumf (fun s => let '(l, w, p) := s in l * l * w / (p * p)) src.
(** daylight glare probability for the vertical illuminance ev *)
Definition DGP (ev : R) (src : list (R * R * R)) : R :=
  5.87 / 10 ^ 5 * ev + 9.18 / 10 ^ 2 * log10 (1 + weighted src / Rpower ev 1.87) + 0.16.
(** unified glare rating for the background luminance lb *)
Definition UGR (lb : R) (src : list (R * R * R)) : R := 8 * log10 (0.25 / lb * weighted src).
