(** Model of raytools/evaluate: BaseMetricSet, MetricSet, ColorMetricSet and PositionIndex.

    The parallel arrays vec, omega and lum are a list of rays: the model only covers arguments of equal length (numpy
    raises or broadcasts otherwise). Sums over rays are exact. *)
From Coq Require Import String.
From Verif Require Import Base BaseX M_Translate M_Mapper M_Io.
Import ListNotations.
Local Open Scope R_scope.

(** basemetricset.py:60-118: a row of vec, omega and lum *)
Record ray := Ray { r_vec : vec3; r_omega : R; r_lum : R }.

(** angularmixin.py:263-267 [ctheta] *)
Definition vm_ctheta (vm : viewmapper) (v : vec3) : R := clip (dot (vm_dxyz vm) v) (-1) 1.

(** * PositionIndex *)

(** positionindex.py:75-80 [_to_plane], 82-84 [_angle_vv], 49-51: angle in degrees between the up direction and the
    projection of the (view space) vector on the view plane, nan (None) when the projection vanishes *)
Definition plane_tau (w : vec3) : option R :=
  let n := sqrt (square (vx w) + square (vy w)) in
  if Reqb n 0 then None else Some (acos (vy w / n) * 180 / PI).
(** positionindex.py:86-90 [_get_pidx_guth] *)
Definition pidx_guth (sigma tau : R) : R :=
  exp ((35.2 - 0.31889 * tau - 1.22 * exp (-2 * tau / 9)) / 1000 * sigma
       + (21 + 0.26667 * tau - 0.002963 * tau * tau) / 100000 * sigma * sigma).
(** positionindex.py:92-98 [_get_pidx_kim] *)
Definition pidx_kim (sigma tau : R) : R :=
  let tau3 := tau * tau * tau in
  let tau2 := tau * tau in
  exp ((sigma - (- 0.000009 * tau3 + 0.0014 * tau2 + 0.0866 * tau + 21.633))
       / (- 0.000009 * tau3 + 0.0013 * tau2 + 0.0853 * tau + 8.772)).
(** positionindex.py:59-61: arctan(sqrt(x^2 + (1.15 y)^2) / z) in degrees; the quotient by z = 0 is infinite *)
Definition iwata_sigma (w : vec3) : R :=
  180 / PI * (if Reqb (vz w) 0 then PI / 2
              else atan (sqrt (square (vx w) + square (vy w * 1.15)) / vz w)).
(** positionindex.py:48-69 [_positions] for one vector in view space; None is nan, replaced by 1 in the last step *)
Definition pidx (guth : bool) (w : vec3) (sigma : R) : R :=
  let tau := plane_tau w in
  let p :=
    if guth then
      let b := Rltb (vy w) 0 in
      let tau := if b then Some 90 else tau in
      let sigma := if b then iwata_sigma w else sigma in
      let p := option_map (pidx_guth sigma) tau in
      let p := if Rltb (vz w) 0 then Some 16 else p in
      option_map (Rmin 16) p
    else option_map (pidx_kim sigma) tau in
  match p with Some x => x | None => 1 end.
(** positionindex.py:26-46 [positions], one row *)
Definition positions (guth : bool) (vm : viewmapper) (v : vec3) : R :=
  let v := norm v in pidx guth (world2view vm v) (vm_degrees vm v).
(** positionindex.py:71-73 [positions_vec]; the argument up is not used *)
Definition positions_vec (guth : bool) (viewvec : vec3) (srcvec : vec3) (up : vec3) : R :=
  positions guth (mk_view viewvec 360) srcvec.

(** * construction *)

(** basemetricset.py:60-119, metricset.py:64-72, colormetricset.py:68-78: an object after construction. [ms_rgb] and
    [ms_channels] (rows of colours and their length) are only used by ColorMetricSet *)
Record mset := MS {
  ms_vm : viewmapper; ms_guth : bool; ms_view_area : R; ms_rays : list ray; ms_scale : R;
  ms_threshold : R; ms_tradius : R; ms_lowlight : bool; ms_rgb : list (list R); ms_channels : nat }.

(** basemetricset.py:79-86: rays out of view, within one degree of the edge and ten times brighter than average *)
Definition lum_average (rays : list ray) : xr := xmean (map r_lum rays).
(** basemetricset.py:79-86 *)
Definition is_stray (vm : viewmapper) (avg : R) (r : ray) : bool :=
  negb (in_view vm 0 (r_vec r))
  && isclose rtol_default 1 (vm_degrees vm (r_vec r)) (vm_viewangle vm / 2)
  && Rgtb (r_lum r / avg) 10.
(** basemetricset.py:79-86 *)
Definition stray_mask (vm : viewmapper) (rays : list ray) : list bool :=
  match lum_average rays with
  | Fin avg => if Rgtb avg 0 then map (is_stray vm avg) rays else map (fun _ => false) rays
  | _ => map (fun _ => false) rays
  end.
(** basemetricset.py:97-101: the area assigned to a ray of radius sqrt(b2) at distance d from the axis; where the
    code takes the root of a negative number (a ray covering the whole view) it gets nan, the model 0 *)
Definition lens_code (a b2 d : R) : R :=
  let a2 := square a in
  let b := sqrt b2 in
  let x := (a2 - b2 + square d) / (2 * d) in
  let x2 := square x in
  let y := sqrt (a2 - x2) in
  a2 * asin (y / a) + b2 * asin (y / b) - y * (x + sqrt (b2 - a2 + x2)).
(** basemetricset.py:97, 102-107: the direction is turned by d - x towards the view direction *)
Definition moved_vec (vm : viewmapper) (a b2 d : R) (vst : vec3) : vec3 :=
  let x := (square a - b2 + square d) / (2 * d) in
  let m := rmtx_yp (cross vst (vm_dxyz vm)) in
  yp_backward m (rotate_elem (yp_forward m vst) (d - x) 2 false).
(** a[mask] = x and a[i] = x. Used at basemetricset.py:97, 102-107 *)
Fixpoint fill_mask {A} (mask : list bool) (x : A) (l : list A) : list A :=
  match mask, l with
  | b :: mask, y :: l => (if b then x else y) :: fill_mask mask x l
  | _, _ => l
  end.
(** used at basemetricset.py:97, 102-107 *)
Fixpoint set_nth {A} (i : nat) (x : A) (l : list A) : list A :=
  match l, i with
  | [], _ => []
  | _ :: l, O => x :: l
  | y :: l, S i => y :: set_nth i x l
  end.
(** basemetricset.py:94-108, the loop over the stray rays (index, omega / pi, direction, angle); the state is
    (omega, v, mask). [omega[stray] = ...] assigns to all strays in every round *)
Definition stray_round (vm : viewmapper) (smask : list bool) (st : list R * list vec3 * list bool)
    (s : nat * R * vec3 * R) : list R * list vec3 * list bool :=
  let '(i, b2, vst, d) := s in
  let '(omega, v, mask) := st in
  let a := vm_viewangle vm * PI / 360 in
  let b := sqrt b2 in
  if Rltb (a - b) d && Rltb d (a + b)
  then (fill_mask smask (lens_code a b2 d) omega, set_nth i (moved_vec vm a b2 d vst) v, set_nth i true mask)
  else st.
(** basemetricset.py:94-108 *)
Definition strays (vm : viewmapper) (smask : list bool) (rays : list ray) : list (nat * R * vec3 * R) :=
  map (fun ir => (fst ir, r_omega (snd ir) / PI, r_vec (snd ir), vm_radians vm (r_vec (snd ir))))
      (select smask (combine (seq 0 (length rays)) rays)).
(** basemetricset.py:94-108 *)
Definition mk_rays (vs : list vec3) (os ls : list R) : list ray :=
  map (fun p => Ray (fst (fst p)) (snd (fst p)) (snd p)) (combine (combine vs os) ls).
(** basemetricset.py:70-116: rays kept, view mask and the caller's omega array afterwards *)
Definition view_rays (vm : viewmapper) (args : list ray) : list ray * list bool * list R :=
  let rays := map (fun r => Ray (norm (r_vec r)) (r_omega r) (r_lum r)) args in
  if (vm_aspect vm =? 2)%Z then (rays, map (fun _ => true) rays, map r_omega rays)
  else
    let smask := stray_mask vm rays in
    let mask := map (fun r => in_view vm 0 (r_vec r)) rays in
    let '(omega, v, mask) :=
      fold_left (stray_round vm smask) (strays vm smask rays) (map r_omega rays, map r_vec rays, mask) in
    (select mask (mk_rays v omega (map r_lum rays)), mask, omega).

(** basemetricset.py:182-197, the loop that widens the edge; [og] the solid angles, [rad] the angles to the view
    direction, [a] half the view angle. None: still running after [fuel] rounds *)
Definition edge_mask (a : R) (rad side : list R) : list bool :=
  map (fun p => Rgtb (fst p) (a - snd p)) (combine rad side).
(** basemetricset.py:182-197 *)
Fixpoint omega_loop (fuel : nat) (a excess : R) (rad og side : list R) : option (list R) :=
  match fuel with
  | O => None
  | S fuel =>
      let onedge := edge_mask a rad side in
      let edgetotal := Rsum (select onedge og) in
      let adjust := if Rgtb edgetotal 0 then 1 - excess / edgetotal else 1 in
      if Rltb adjust 0 then omega_loop fuel a excess rad og (map (fun s => s * 1.1) side)
      else Some (map (fun p => if fst p : bool then snd p * adjust else snd p) (combine onedge og))
  end.
(** basemetricset.py:171-200, the omega setter: new rays and view area *)
Definition set_omega (fuel : nat) (correct : bool) (vm : viewmapper) (area : R) (rays : list ray) (og : list R)
    : option (list ray * R) :=
  let upd os := mk_rays (map r_vec rays) os (map r_lum rays) in
  if correct && (100 <? List.length rays)%nat then
    let rad := map (fun r => acos (vm_ctheta vm (r_vec r))) rays in
    match omega_loop fuel (vm_viewangle vm * PI / 360) (Rsum og - area) rad og (map sqrt og) with
    | Some os => Some (upd os, area)
    | None => None
    end
  else Some (upd og, Rsum og).

(** optional arguments of the constructors (basemetricset.py:60-62, metricset.py:64-66, colormetricset.py:68-70) *)
Record options := Opts { o_guth : bool; o_scale : R; o_as_area : bool; o_threshold : R; o_tradius : R; o_lowlight : bool }.
(** basemetricset.py:60-119, metricset.py:64-72 with valid metric names (see [check_metrics]); the second component
    is the caller's omega array afterwards *)
Definition construct (fuel : nat) (o : options) (vm : viewmapper) (args : list ray) : option (mset * list R) :=
  let '(rays, mask, omega) := view_rays vm args in
  match set_omega fuel (negb (o_as_area o)) vm (vm_area vm) rays (map r_omega rays) with
  | Some (rays, area) =>
      Some (MS vm (o_guth o) area rays (o_scale o) (o_threshold o) (o_tradius o) (o_lowlight o) [] 0, omega)
  | None => None
  end.
(** colormetricset.py:68-78: [rgb] has one row of len(vlambda) channels per ray *)
Definition construct_color (fuel : nat) (o : options) (vm : viewmapper) (vlambda : list R)
    (args : list (vec3 * R * list R)) : option (mset * list R) :=
  let rays := map (fun a => Ray (fst (fst a)) (snd (fst a)) (rgb2rad vlambda (snd a))) args in
  match construct fuel o vm rays with
  | Some (m, omega) =>
      let mask := snd (fst (view_rays vm rays)) in
      Some (MS (ms_vm m) (ms_guth m) (ms_view_area m) (ms_rays m) (ms_scale m) (ms_threshold m) (ms_tradius m)
               (ms_lowlight m) (select mask (map snd args)) (List.length vlambda), omega)
  | None => None
  end.

(** * metrics *)
(** basemetricset.py:206-209 *)
Definition m_ctheta (m : mset) (r : ray) : R := vm_ctheta (ms_vm m) (r_vec r).
(** basemetricset.py:219-221 *)
Definition m_pidx (m : mset) (r : ray) : R := positions (ms_guth m) (ms_vm m) (r_vec r).
(** basemetricset.py:222-232 [pweight], [pweighted_area] *)
Definition m_pweight (m : mset) (r : ray) : R := r_omega r / square (m_pidx m r).
(** basemetricset.py:231-233 *)
Definition pweighted_area (m : mset) : R := Rsumf (m_pweight m) (ms_rays m).
(** basemetricset.py:234-239 [illum] *)
Definition illum (m : mset) : R := Rsumf (fun r => m_ctheta m r * r_lum r * r_omega r) (ms_rays m) * ms_scale m.
(** basemetricset.py:241-246 [avglum] *)
Definition avglum (m : mset) : xr :=
  xdiv (Fin (Rsumf (fun r => r_lum r * r_omega r) (ms_rays m) * ms_scale m)) (Fin (ms_view_area m)).
(** basemetricset.py:248-252, metricset.py:148-155 [maxlum] *)
Definition maxlum_base (m : mset) : res R :=
  bind (np_max (map r_lum (ms_rays m))) (fun x => Ok (x * ms_scale m)).
(** metricset.py:150-155 *)
Definition maxlum (m : mset) : R :=
  match map r_lum (ms_rays m) with [] => 0 | x :: l => list_max x l * ms_scale m end.
(** basemetricset.py:254-259 [pwavglum] *)
Definition pwavglum (m : mset) : xr :=
  xdiv (Fin (Rsumf (fun r => r_lum r * m_pweight m r) (ms_rays m) * ms_scale m)) (Fin (pweighted_area m)).
(** basemetricset.py:261-265 [avgraylum] *)
Definition avgraylum (m : mset) : xr := xmul (xmean (map r_lum (ms_rays m))) (Fin (ms_scale m)).
(** basemetricset.py:267-302 [gcr], [pwgcr], [logpwgcr], [loggcr] *)
Definition gcr_of (a2lum avg : xr) : xr := if xgtb avg (Fin 0) then xdiv a2lum (xmul avg avg) else Fin 1.
(** basemetricset.py:269-278 *)
Definition gcr (m : mset) : xr :=
  gcr_of (xdiv (Fin (Rsumf (fun r => r_lum r * r_lum r * r_omega r) (ms_rays m) * (ms_scale m * ms_scale m)))
               (Fin (ms_view_area m)))
         (avglum m).
(** basemetricset.py:281-291 *)
Definition pwgcr (m : mset) : xr :=
  gcr_of (xdiv (Fin (Rsumf (fun r => r_lum r * r_lum r * m_pweight m r) (ms_rays m) * (ms_scale m * ms_scale m)))
               (Fin (pweighted_area m)))
         (pwavglum m).
(** basemetricset.py:300-302 *)
Definition loggcr (m : mset) : xr := xlog10 (gcr m).
(** basemetricset.py:294-296 *)
Definition logpwgcr (m : mset) : xr := xlog10 (pwgcr m).
(** basemetricset.py:304-308 [density] *)
Definition density (m : mset) : xr := xdiv (Fin (INR (List.length (ms_rays m)))) (Fin (ms_view_area m)).

(** metricset.py:82-85 [task_mask], 171-177 [tasklum] *)
Definition in_task (m : mset) (r : ray) : bool := Rltb (vm_degrees (ms_vm m) (r_vec r)) (ms_tradius m).
(** metricset.py:173-177 *)
Definition tasklum (m : mset) : xr :=
  let t := filter (in_task m) (ms_rays m) in
  xdiv (Fin (Rsumf (fun r => r_lum r * r_omega r) t * ms_scale m)) (Fin (Rsumf r_omega t)).
(** metricset.py:114-122 [threshold] *)
Definition threshold (m : mset) : xr :=
  if Rgtb (ms_threshold m) 100 then Fin (ms_threshold m) else xmul (tasklum m) (Fin (ms_threshold m)).
(** metricset.py:76-80 [src_mask], 87-105 [sources], [background] *)
Definition is_source (m : mset) (r : ray) : bool := xgtb (Fin (r_lum r * ms_scale m)) (threshold m).
(** metricset.py:89-97 *)
Definition sources (m : mset) : list ray := filter (is_source m) (ms_rays m).
(** metricset.py:99-107 *)
Definition background (m : mset) : list ray := filter (fun r => negb (is_source m r)) (ms_rays m).
(** metricset.py:124-131 [pwsl2] *)
Definition pwsl2 (m : mset) : R :=
  Rsumf (fun r => square (r_lum r) * r_omega r * (ms_scale m * ms_scale m) / square (m_pidx m r)) (sources m).
(** metricset.py:133-146 [srcillum], [srcarea] *)
Definition srcillum (m : mset) : R := Rsumf (fun r => m_ctheta m r * r_lum r * r_omega r) (sources m) * ms_scale m.
(** metricset.py:143-146 *)
Definition srcarea (m : mset) : R := Rsumf r_omega (sources m).
(** metricset.py:157-169 [backlum], [backlum_true] *)
Definition backlum (m : mset) : R := (illum m - srcillum m) / PI.
(** metricset.py:166-169 *)
Definition backlum_true (m : mset) : xr :=
  xdiv (Fin (Rsumf (fun r => r_lum r * r_omega r) (background m) * ms_scale m)) (Fin (Rsumf r_omega (background m))).
(** metricset.py:187-200 [dgp_t1], [log_gc], [dgp_t2] *)
Definition dgp_t1 (m : mset) : R := 5.87 * / 10 ^ 5 * illum m.
(** metricset.py:194-196 *)
Definition log_gc (m : mset) : xr := xlog10 (xadd (Fin 1) (xdiv (Fin (pwsl2 m)) (xpow (Fin (illum m)) 1.87))).
(** metricset.py:199-201 *)
Definition dgp_t2 (m : mset) : xr := xmul (Fin (9.18 * / 10 ^ 2)) (log_gc m).
(** metricset.py:179-185 [dgp] *)
Definition lowlight_factor (m : mset) : R :=
  if ms_lowlight m && Rltb (illum m) 500
  then exp (0.024 * illum m - 4) / (1 + exp (0.024 * illum m - 4)) else 1.
(** metricset.py:181-187 *)
Definition dgp (m : mset) : xr :=
  xmin (xmul (Fin (lowlight_factor m)) (xadd (xadd (Fin (dgp_t1 m)) (dgp_t2 m)) (Fin 0.16))) (Fin 1).
(** metricset.py:202-207 [ugr] *)
Definition ugr (m : mset) : xr :=
  xmax (Fin 0) (xmul (Fin 8) (xlog10 (xdiv (Fin (0.25 * pwsl2 m)) (Fin (backlum m))))).
(** metricset.py:209-213 [ugp]; x ** -10 is 1 / x ** 10 *)
Definition ugp_of (u : xr) : xr :=
  xdiv (Fin 1) (xpown (xadd (Fin 1) (xmul (Fin (2 / 7)) (xpow10 (xdiv (xopp (xadd u (Fin 5))) (Fin 40))))) 10).
(** metricset.py:211-213 *)
Definition ugp (m : mset) : xr := ugp_of (ugr m).
(** colormetricset.py:172-177 [irradiance], channel j *)
Definition irradiance (m : mset) : list R :=
  map (fun j => Rsumf (fun p => m_ctheta m (fst p) * nth j (snd p) 0 * r_omega (fst p))
                      (combine (ms_rays m) (ms_rgb m)) * ms_scale m)
      (seq 0 (ms_channels m)).

(** * metric names *)
(** basemetricset.py:18, metricset.py:14, colormetricset.py:17 *)
Inductive kind := KBase | KMetric | KColor.
Local Open Scope string_scope.
(** basemetricset.py:53-58, metricset.py:54-62, colormetricset.py:62-66 *)
Definition default_base : list string := ["illum"; "avglum"; "loggcr"].
(** basemetricset.py:52-58 *)
Definition all_base : list string :=
  default_base ++ ["gcr"; "pwgcr"; "logpwgcr"; "density"; "avgraylum"; "pwavglum"; "maxlum"].
(** metricset.py:54-62 *)
Definition all_metric : list string :=
  all_base ++ ["ugp"; "dgp"; "tasklum"; "backlum"; "dgp_t1"; "log_gc"; "dgp_t2"; "ugr"; "threshold"; "pwsl2";
               "view_area"; "backlum_true"; "srcillum"; "srcarea"; "maxlum"].
(** basemetricset.py:52-58, metricset.py:54-62, colormetricset.py:61-66 *)
Definition allmetrics (k : kind) : list string :=
  match k with KBase => all_base | KMetric => all_metric | KColor => all_metric ++ ["illum"; "irradiance"] end.
(** basemetricset.py:52-58, metricset.py:54-62, colormetricset.py:61-66 *)
Definition defaultmetrics (k : kind) : list string :=
  match k with KBase => default_base | KMetric => default_base ++ ["ugp"; "dgp"] | KColor => ["illum"; "irradiance"] end.
(** basemetricset.py:52-58, metricset.py:54-62, colormetricset.py:61-66 *)
Definition safe2sum (k : kind) : list string :=
  ["illum"; "avglum"; "density"] ++
  match k with KBase => [] | KMetric => ["pwsl2"; "srcillum"] | KColor => ["pwsl2"; "srcillum"; "illum"; "irradiance"] end.
(** the operator in at basemetricset.py:142-157 *)
Definition mem (x : string) (l : list string) : bool := existsb (String.eqb x) l.
(** basemetricset.py:141-150 [check_metrics] *)
Definition check_metrics (k : kind) (metrics : list string) (raise_error : bool) : res (list string) :=
  let good := filter (fun m => mem m (allmetrics k)) metrics in
  if raise_error && negb (List.length good =? List.length metrics)%nat then Raise AttributeError else Ok good.
(** basemetricset.py:152-157 [check_safe2sum] *)
Definition check_safe2sum (k : kind) (metrics : list string) : bool :=
  forallb (fun m => mem m (safe2sum k)) metrics.

(** the properties of the three classes (basemetricset.py:202-308, metricset.py:74-213, colormetricset.py:111-176) *)
Inductive prop :=
  | Pctheta | Pradians | Ppos_idx | Ppweight | Ppweighted_area | Pillum | Pavglum | Pmaxlum | Ppwavglum | Pavgraylum
  | Pgcr | Ppwgcr | Plogpwgcr | Ploggcr | Pdensity
  | Psrc_mask | Ptask_mask | Psources | Pbackground | Psource_pos_idx | Pthreshold | Ppwsl2 | Psrcillum | Psrcarea
  | Pbacklum | Pbacklum_true | Ptasklum | Pdgp | Pdgp_t1 | Plog_gc | Pdgp_t2 | Pugr | Pugp | Pirradiance | Pview_area.
(** basemetricset.py:202-308, metricset.py:74-213, colormetricset.py:111-176 *)
Definition prop_of_name (s : string) : option prop :=
  match List.find (fun p => String.eqb s (fst p))
    [("illum", Pillum); ("avglum", Pavglum); ("loggcr", Ploggcr); ("gcr", Pgcr); ("pwgcr", Ppwgcr);
     ("logpwgcr", Plogpwgcr); ("density", Pdensity); ("avgraylum", Pavgraylum); ("pwavglum", Ppwavglum);
     ("maxlum", Pmaxlum); ("ugp", Pugp); ("dgp", Pdgp); ("tasklum", Ptasklum); ("backlum", Pbacklum);
     ("dgp_t1", Pdgp_t1); ("log_gc", Plog_gc); ("dgp_t2", Pdgp_t2); ("ugr", Pugr); ("threshold", Pthreshold);
     ("pwsl2", Ppwsl2); ("view_area", Pview_area); ("backlum_true", Pbacklum_true); ("srcillum", Psrcillum);
     ("srcarea", Psrcarea); ("irradiance", Pirradiance)] with
  | Some (_, p) => Some p
  | None => None
  end.
Local Close Scope string_scope.

(** values of properties: a number, an array of numbers, a mask, or rays
    (basemetricset.py:202-308, metricset.py:74-213, colormetricset.py:111-176) *)
Inductive value := VX (x : xr) | VR (l : list R) | VB (l : list bool) | VS (l : list ray).

(** properties of a class: inherited ones included
    (basemetricset.py:202-308, metricset.py:74-213, colormetricset.py:111-176) *)
Definition is_metric_prop (p : prop) : bool :=
  match p with
  | Psrc_mask | Ptask_mask | Psources | Pbackground | Psource_pos_idx | Pthreshold | Ppwsl2 | Psrcillum | Psrcarea
  | Pbacklum | Pbacklum_true | Ptasklum | Pdgp | Pdgp_t1 | Plog_gc | Pdgp_t2 | Pugr | Pugp => true
  | _ => false
  end.
(** basemetricset.py:202-308, metricset.py:74-213, colormetricset.py:111-176 *)
Definition has_prop (k : kind) (p : prop) : bool :=
  match k with
  | KBase => negb (is_metric_prop p) && match p with Pirradiance => false | _ => true end
  | KMetric => match p with Pirradiance => false | _ => true end
  | KColor => true
  end.
(** the value each property is defined to have on an object of class [k]
    (basemetricset.py:202-308, metricset.py:74-213, colormetricset.py:111-176) *)
Definition prop_value (k : kind) (m : mset) (p : prop) : res value :=
  let x v := Ok (VX v) in
  let f v := Ok (VX (Fin v)) in
  if negb (has_prop k p) then Raise AttributeError else
  match p with
  | Pctheta => Ok (VR (map (m_ctheta m) (ms_rays m)))
  | Pradians => Ok (VR (map (fun r => acos (m_ctheta m r)) (ms_rays m)))
  | Ppos_idx => Ok (VR (map (m_pidx m) (ms_rays m)))
  | Ppweight => Ok (VR (map (m_pweight m) (ms_rays m)))
  | Ppweighted_area => f (pweighted_area m)
  | Pillum => f (illum m) | Pavglum => x (avglum m)
  | Pmaxlum => match k with KBase => bind (maxlum_base m) (fun v => f v) | _ => f (maxlum m) end
  | Ppwavglum => x (pwavglum m) | Pavgraylum => x (avgraylum m)
  | Pgcr => x (gcr m) | Ppwgcr => x (pwgcr m) | Plogpwgcr => x (logpwgcr m) | Ploggcr => x (loggcr m)
  | Pdensity => x (density m)
  | Psrc_mask => Ok (VB (map (is_source m) (ms_rays m)))
  | Ptask_mask => Ok (VB (map (in_task m) (ms_rays m)))
  | Psources => Ok (VS (sources m)) | Pbackground => Ok (VS (background m))
  | Psource_pos_idx => Ok (VR (map (m_pidx m) (sources m)))
  | Pthreshold => x (threshold m)
  | Ppwsl2 => f (pwsl2 m) | Psrcillum => f (srcillum m) | Psrcarea => f (srcarea m)
  | Pbacklum => f (backlum m) | Pbacklum_true => x (backlum_true m) | Ptasklum => x (tasklum m)
  | Pdgp => x (dgp m) | Pdgp_t1 => f (dgp_t1 m) | Plog_gc => x (log_gc m) | Pdgp_t2 => x (dgp_t2 m)
  | Pugr => x (ugr m) | Pugp => x (ugp m)
  | Pirradiance => Ok (VR (irradiance m))
  | Pview_area => f (ms_view_area m)
  end.

(** basemetricset.py:121-139, colormetricset.py:80-109 [__call__]: ColorMetricSet splices array values; a name that
    passes check_metrics is an attribute *)
Definition flatten_value (v : value) : list xr :=
  match v with VX x => [x] | VR l => map Fin l | VB _ | VS _ => [] end.
(** basemetricset.py:121-139, colormetricset.py:80-109 *)
Fixpoint call_values (read : prop -> res value) (names : list string) : res (list value) :=
  match names with
  | [] => Ok []
  | n :: ns =>
      match prop_of_name n with
      | None => Raise AttributeError
      | Some p => bind (read p) (fun v => bind (call_values read ns) (fun vs => Ok (v :: vs)))
      end
  end.
(** basemetricset.py:121-139, colormetricset.py:80-109 *)
Definition call (k : kind) (m : mset) (metrics : list string) : res (list xr) :=
  bind (check_metrics k metrics true) (fun _ =>
  bind (call_values (prop_value k m) metrics) (fun vs => Ok (concat (map flatten_value vs)))).
