(** Model of raytools/evaluate/hvsgsm.py: the glare sensation score. Images are flattened in C order. Real
    arithmetic; where numpy continues with nan (a negative illuminance or irradiance) the model stops with
    [nan_seen]. scipy's convolve and gaussian_filter are parameters. *)
From Verif Require Import Base M_Mapper M_Io.
Local Open Scope R_scope.

(** raised by np.average at hvsgsm.py:363 *)
Definition ZeroDivisionError : exn := OtherError 1.
(** raised by int(inf) in scipy for the widths of hvsgsm.py:600-609 *)
Definition OverflowError : exn := OtherError 2.
(** not an exception of the code: a nan appeared, which is not modelled further (hvsgsm.py:427-443, 638-668) *)
Definition nan_seen : exn := OtherError 99.

(** hvsgsm.py:184-203 class attributes *)
Definition emax : R := 0.12.
(** hvsgsm.py:182-203 class attribute *)
Definition emin : R := 0.009.
(** hvsgsm.py:182-203 class attribute *)
Definition fr_a : R := 22.
(** hvsgsm.py:182-203 class attribute *)
Definition fr_b : R := 0.25.
(** hvsgsm.py:182-203 class attribute *)
Definition fr_k : R := 0.67.
(** hvsgsm.py:182-203 class attribute *)
Definition contrast : R := 0.8.
(** hvsgsm.py:205-215: the arguments of GSS() that are stored *)
Record gpar := GPar {
  g_age : R; g_f : R; g_scale : R; g_pigment : R; g_fwidth : R;
  g_psf : bool; g_adaptmove : bool; g_directmove : bool; g_raw : bool }.

(** np.power(r, p) for r >= 0 and a positive p. As at hvsgsm.py:638-668, 765-777 *)
Definition pow0 (r p : R) : R := if Rltb 0 r then Rpower r p else 0.

(** * scalar functions *)

(** hvsgsm.py:427-443 [pupil]: area and diameter; log10(0) is -inf and tanh(-inf) is -1 *)
Definition tanh_log (ev : R) : R :=
  if Rltb 0 ev then tanh (0.4 * log10 (ev / 1600)) else -1.
(** hvsgsm.py:427-443 [pupil] *)
Definition pupil (age ev : R) : res (R * R) :=
  if Rltb ev 0 then Raise nan_seen
  else let pd := 5 - 3 * tanh_log ev - 0.043 * (age - 10) * exp (- ev / 174) in
       Ok (PI * square (pd / 2), pd).

(** hvsgsm.py:445-453 [retinal_irradiance] *)
Definition retinal_irradiance (f lum pupa : R) : R := pupa / square f * lum.

(** hvsgsm.py:466-497 [psf_coef]: (bs, cs) *)
Definition psf_coef (age pigment pupd : R) : list R * list R :=
  let d := 3.2 in
  let agefactor := 1 + (age / 70) ^ 4 in
  let b := 9000 - 936 * sqrt agefactor in
  let e := sqrt agefactor / 2000 in
  let pf := 1 / pigment - 1 in
  let csa := 1 / (1 + agefactor / pf) in
  let cla := 1 / (1 + pf / agefactor) in
  let pd := 1 + square (pupd / d) in
  let dp := 1 + square (d / pupd) in
  let c2 := cla / ((1 + 25 * pigment) * (1 + 1 / agefactor)) in
  ([pd / (b * pupd); dp * (e - 1 / (b * pupd)); 1 / (10 + 60 * pigment - 5 / agefactor); 1],
   [csa / pd; csa / dp; c2; cla - c2]).

(** hvsgsm.py:70-80 [f_b], 83-92 [l_b] *)
Definition f_b (b c phi : R) : R :=
  c * b / (2 * PI * Rpower (square (sin phi) + square b * square (cos phi)) 1.5).
(** hvsgsm.py:83-92 [l_b] *)
Definition l_b (b c phi : R) : R :=
  c * b / (PI * (square (sin phi) + square b * square (cos phi))).
(** hvsgsm.py:513, 524: the sums over the four components *)
Definition spread (f : R -> R -> R -> R) (coef : list R * list R) (phi : R) : R :=
  Rsumf (fun bc => f (fst bc) (snd bc) phi) (combine (fst coef) (snd coef)).

(** hvsgsm.py:611-636 [local_eye_adaptation], for e_g >= 0 (10 ** -inf is 0) *)
Definition local_eye_adaptation (e_r e_g : R) : R :=
  let log10er := if Rgtb e_r 0 then log10 e_r else 0 in
  if Rgtb e_g 0 then Rpower 10 (contrast * log10er + (1 - contrast) * log10 e_g) else 0.

(** hvsgsm.py:638-668 [cone_response] for e_a >= 0; nan for a negative irradiance *)
Definition half_saturation (e_a : R) : R :=
  pow0 (Rpower 5.701055 (1 / 2.55) + pow0 e_a (1 / 2.55)) 2.55.
(** hvsgsm.py:639-668 [cone_response] *)
Definition cone_response (e_r e_a : R) : res R :=
  if Rltb e_r 0 then Raise nan_seen
  else Ok (pow0 e_r 0.74 / (pow0 e_r 0.74 + pow0 (half_saturation e_a) 0.74)).

(** hvsgsm.py:712-736 [normalized_field_response]: the on and off response of one pixel *)
Definition normalized_field_response (in_mask : bool) (r : R) : R * R :=
  if in_mask then (1 / (1 + exp (- fr_a * (r - fr_b))), 1 / (1 + exp (fr_a * (r + fr_b)))) else (0, 0).

(** hvsgsm.py:765-775: the position weighting; the polynomial maps its domain [0.009, 0.12] to [0, 1] *)
Definition weight (ecc : R) : R :=
  let x := (ecc - 0.009) / (0.12 - 0.009) in
  33.12797281708 + x * (2.28728777265947 + x * (- 104.614198351476 + x * (- 275.450102180091
  + x * (1587.82553529394 + x * (- 2570.6813747583033 + x * (1837.1741161137818 + x * - 499.849190278)))))).

(** hvsgsm.py:765-777 [gss] on the responses and solid angles of the pixels *)
Definition gss_raw (r_g : list (R * R)) (omega : list R) : R :=
  pow0 (Rsumf (fun p => (fst (fst p)) ^ 4 * snd p) (combine r_g omega)
        + Rsumf (fun p => (snd (fst p)) ^ 4 * snd p) (combine r_g omega)) (1 / 4).
(** hvsgsm.py:739-777 [gss] *)
Definition gss (raw : bool) (ecc : R) (r_g : list (R * R)) (omega : list R) : R :=
  if raw then gss_raw r_g omega else gss_raw r_g omega * weight ecc.

(** * receptive fields *)

(** hvsgsm.py:699-701: filter widths and the limits between them *)
Definition steps : list R :=
  map (fun i => exp (ln emin + INR i * ((ln emax - ln emin) / 30))) (seq 0 31).
(** hvsgsm.py:699-701: the bounds between the widths *)
Fixpoint mids (l : list R) : list R :=
  match l with a :: ((b :: _) as l') => (b + a) / 2 :: mids l' | _ => [] end.
(** hvsgsm.py:699-701: the bounds between the widths *)
Definition ubounds : list R := mids steps ++ [1].
(** hvsgsm.py:699-701: the bounds between the widths *)
Definition lbounds : list R := 0 :: mids steps.
(** hvsgsm.py:671-709 [field_response]; gauss width image is scipy's gaussian_filter *)
Definition included (sigma lb ub : R) : bool := Rleb lb sigma && Rltb sigma ub.
(** hvsgsm.py:671-709 [field_response] *)
Definition masked_copy (sel : R -> bool) (sigma src dst : list R) : list R :=
  map (fun p => if sel (fst (fst p)) then snd (fst p) else snd p) (combine (combine sigma src) dst).
(** hvsgsm.py:671-709 [field_response] *)
Definition field_step (gauss : R -> list R -> list R) (pparcmin : R) (sigma vvm : list R)
    (st : list R * list R) (bin : R * (R * R)) : list R * list R :=
  let '(s, (lb, ub)) := bin in
  let sp := s * pparcmin * 60 in
  (masked_copy (fun e => included e lb ub) sigma (gauss sp vvm) (fst st),
   masked_copy (fun e => included e lb ub) sigma (gauss (sp * 3.5) vvm) (snd st)).
(** hvsgsm.py:671-709 [field_response] *)
Definition field_response (gauss : R -> list R -> list R) (pparcmin : R) (sigma vvm : list R) : list R :=
  let zeros := map (fun _ => 0) vvm in
  let '(rf_c, rf_s) := fold_left (field_step gauss pparcmin sigma vvm)
                                 (combine steps (combine lbounds ubounds)) (zeros, zeros) in
  map (fun p => fst p - fr_k * snd p) (combine rf_c rf_s).

(** * the object: view, image and derived arrays *)

(** an image as hdr2array returns it, of shape (nx, ny) (hvsgsm.py:345-347) *)
Record gimg := GImg { gi_nx : Z; gi_ny : Z; gi_px : list R }.
(** hvsgsm.py:217-225; None is an attribute that has no array yet *)
Record gstate := GState {
  gs_vm : viewmapper; gs_lum : option gimg; gs_res : Z;
  gs_vecs : option (list vec3); gs_omega : option (list R); gs_mask : option (list bool);
  gs_ctheta : option (list R); gs_pparcmin : option R; gs_sigma : option (list R); gs_ecc : option R }.
(** hvsgsm.py:205-237 with a ViewMapper (or no view) given *)
Definition gss_new (vm : viewmapper) : gstate := GState vm None 0 None None None None None None None.

(** hvsgsm.py:399-407: the eccentricity scale of one direction *)
Definition ecc_scale (xy : R * R) : R :=
  let x := fst xy * 2 - 1 in
  let y := snd xy * 2 - 1 in
  let vecc := if Rgeb y 0 then y / 0.61111 else y / 0.94444 in
  let p := Rmin (sqrt (square (x / 1.05556) + square vecc)) 1 in
  p * (emax - emin) + emin.
(** hvsgsm.py:399-407: sigma_c of one direction *)
Definition sigma_of (vm : viewmapper) (v : vec3) : R := ecc_scale (xyz2vxy vm v).

(** hvsgsm.py:352-358 *)
Definition pixel_omegas (vm : viewmapper) (r : Z) : list R :=
  map (fun p => pixel2omega vm r (IZR (fst p) + 1 / 2, IZR (snd p) + 1 / 2)) (zgrid r r).
(** hvsgsm.py:356: omega outside the view is 0 *)
Definition zero_unless (mask : list bool) (l : list R) : list R :=
  map (fun p => if fst p : bool then snd p else 0) (combine mask l).
(** hvsgsm.py:357-358: ctheta *)
Definition cos_theta (vm : viewmapper) (v : vec3) : R := Rmax 0 (clip (dot (vm_dxyz vm) v) (-1) 1).

(** hvsgsm.py:347: assignment of the image *)
Definition with_lum (st : gstate) (i : gimg) : gstate :=
  GState (gs_vm st) (Some i) (gs_res st) (gs_vecs st) (gs_omega st) (gs_mask st) (gs_ctheta st) (gs_pparcmin st)
    (gs_sigma st) (gs_ecc st).
(** hvsgsm.py:362-363: assignment of the mean eccentricity *)
Definition with_ecc (st : gstate) (e : R) : gstate :=
  GState (gs_vm st) (gs_lum st) (gs_res st) (gs_vecs st) (gs_omega st) (gs_mask st) (gs_ctheta st) (gs_pparcmin st)
    (gs_sigma st) (Some e).

(** hvsgsm.py:362-363: np.power(lum, 4) * omega broadcasts the shapes (nx, ny) and (res, res), where nx = res;
    np.average raises ZeroDivisionError for weights that sum to 0 and TypeError for a shape other than sigma_c's *)
Definition ecc_weights (i : gimg) (res : Z) (omega : list R) : Base.res (list R) :=
  if (gi_ny i =? res)%Z then Ok (map (fun p => (fst p) ^ 4 * snd p) (combine (gi_px i) omega))
  else if (gi_ny i =? 1)%Z then
    Ok (map (fun p => (fst p) ^ 4 * snd p)
            (combine (flat_map (fun a => repeat a (Z.to_nat res)) (gi_px i)) omega))
  else if (res =? 1)%Z then Raise TypeError else Raise ValueError.
(** hvsgsm.py:362-363 *)
Definition set_ecc (st : gstate) (i : gimg) : gstate * option exn :=
  match gs_omega st, gs_sigma st with
  | Some omega, Some sigma =>
      if (length omega =? Z.to_nat (gs_res st * gs_res st))%nat then
        match ecc_weights i (gs_res st) omega with
        | Raise e => (st, Some e)
        | Ok w =>
            if Reqb (Rsum w) 0 then (st, Some ZeroDivisionError)
            else (with_ecc st (Rsumf (fun p => fst p * snd p) (combine sigma w) / Rsum w), None)
        end
      else (st, Some ValueError)
  | _, _ => (st, Some TypeError)
  end.
(** hvsgsm.py:345-363 [lum.setter]: the object afterwards, also when it raises. The shape of omega and sigma_c
    after an earlier failure may differ from (res, res); then the product or the average raises (simplified: numpy
    would broadcast a single pixel image against them). *)
Definition set_lum (scale : R) (st : gstate) (img : gimg) : gstate * option exn :=
  let i := GImg (gi_nx img) (gi_ny img) (map (fun x => x * scale) (gi_px img)) in
  let st := with_lum st i in
  let r := gi_nx i in
  if (gs_res st =? r)%Z then set_ecc st i
  else
    let vm := gs_vm st in
    let vecs := pixelrays vm r in
    let omega := pixel_omegas vm r in
    let mask := map (in_view vm 0) vecs in
    let st2 omega := GState vm (Some i) (gs_res st) (Some vecs) (Some omega) (Some mask) (gs_ctheta st)
                            (gs_pparcmin st) (gs_sigma st) (gs_ecc st) in
    if negb (length mask =? length omega)%nat then (st2 omega, Some IndexError)
    else
      let omega := zero_unless mask omega in
      let ct := map (cos_theta vm) vecs in
      if negb (length ct =? Z.to_nat (gi_nx i * gi_ny i))%nat then (st2 omega, Some ValueError)
      else
        set_ecc (GState vm (Some i) r (Some vecs) (Some omega) (Some mask) (Some ct)
                        (Some (IZR r / (60 * vm_viewangle vm))) (Some (map (sigma_of vm) vecs)) (gs_ecc st)) i.

(** hvsgsm.py:413-424 [vm.setter] with a ViewMapper *)
Definition set_vm (st : gstate) (vm : viewmapper) : gstate :=
  GState vm (gs_lum st) (gs_res st) (gs_vecs st) (gs_omega st) (gs_mask st) (gs_ctheta st) (gs_pparcmin st)
    (gs_sigma st) (gs_ecc st).

(** * the steps of compute *)

(** hvsgsm.py:455-464 [prep_kernel], 523-532: the point spread kernel of window x window pixels *)
Definition Rceil (x : R) : Z := (- Rfloor (- x))%Z.
(** hvsgsm.py:455-464 [prep_kernel], 523-527 *)
Definition kernel_raw (fwidth pparcmin : R) (coef : list R * list R) : list R :=
  let window := Rceil (fwidth * 60 * pparcmin) in
  let vk := mk_view (V3 0 1 0) fwidth in
  map (fun p => (if in_view vk 0 (fst p) then spread f_b coef (vm_radians vk (fst p)) else 0) * snd p)
      (combine (pixelrays vk window) (pixel_omegas vk window)).
(** first index of the largest entry (ndarray.argmax) (hvsgsm.py:530-532: the peak of the kernel) *)
Fixpoint argmax_from (best : R) (bi i : nat) (l : list R) : nat :=
  match l with
  | [] => bi
  | x :: l => if Rgtb x best then argmax_from x i (S i) l else argmax_from best bi (S i) l
  end.
(** hvsgsm.py:530-532: the peak of the kernel *)
Definition np_argmax (l : list R) : res nat :=
  match l with [] => Raise ValueError | x :: l => Ok (argmax_from x 0 1 l) end.
(** hvsgsm.py:530-532: the peak of the kernel *)
Fixpoint set_nth (n : nat) (x : R) (l : list R) : list R :=
  match n, l with
  | _, [] => []
  | O, _ :: l => x :: l
  | S n, y :: l => y :: set_nth n x l
  end.
(** hvsgsm.py:530-532: the peak of the kernel *)
Definition kernel_fix (cap : R) (k : list R) : res (list R) :=
  bind (np_argmax k) (fun pk => let z := set_nth pk 0 k in Ok (set_nth pk (cap - Rsum z) z)).
(** hvsgsm.py:512-516: the part of the spread within the window, by a sum over the line spread function *)
Definition capture (fwidth : R) (coef : list R * list R) : res R :=
  let k := Rfloor (fwidth / 0.002 / 2) in
  let lphi i := (- fwidth / 2 + IZR i * (fwidth / IZR (k * 2))) * PI / 180 in
  if (k =? 0)%Z then Raise IndexError
  else Ok (Rsumf (fun i => spread l_b coef (lphi i) * (lphi 1%Z - lphi 0%Z)) (zrange (k * 2 + 1))).
(** hvsgsm.py:500-538 [apply_psf]; conv image kernel is scipy's convolve *)
Definition mean_base (cap : R) (mask : list bool) (e_r omega : list R) : R :=
  Rsumf (fun p => fst p * snd p) (combine (select mask e_r) (select mask omega)) * (1 - cap)
  / Rsum (select mask omega).
(** hvsgsm.py:500-538 [apply_psf] *)
Definition apply_psf (conv : list R -> list R -> list R) (par : gpar) (pparcmin : R) (mask : list bool)
    (omega e_r : list R) (pupd : R) : res (list R) :=
  let coef := psf_coef (g_age par) (g_pigment par) pupd in
  bind (capture (g_fwidth par) coef) (fun cap =>
  bind (kernel_fix cap (kernel_raw (g_fwidth par) pparcmin coef)) (fun k =>
  Ok (map (fun x => x + mean_base cap mask e_r omega) (conv e_r k)))).

(** hvsgsm.py:540-576 [apply_eye_movement_1]; the second filter has its own truncation *)
Definition apply_eye_movement_1 (gauss : R -> list R -> list R) (gauss_trunc : R -> R -> list R -> list R)
    (pparcmin : R) (e_r : list R) : list R :=
  let bs := 4.2341723424 * pparcmin in
  let ds := 14.1421356237 * pparcmin in
  let trunc := 30 * pparcmin / ds in
  map (fun p => 0.62 * fst p + 0.38 * snd p) (combine (gauss bs e_r) (gauss_trunc trunc ds e_r)).
(** hvsgsm.py:578-609 [apply_eye_movement_2]: without light the integration time and the widths are infinite *)
Definition apply_eye_movement_2 (gauss : R -> list R -> list R) (f pparcmin : R) (e_r : list R) (e_g : R)
    : res (list R) :=
  if Rleb (e_g * square f) 0 then Raise OverflowError
  else
    let t := 0.1 / Rpower (e_g * square f) 0.12 in
    let w1 := 2 * sqrt (30 * t) * pparcmin in
    let w2 := 2 * sqrt (250 * t) * pparcmin in
    Ok (gauss w2 (gauss w1 e_r)).

(** an exception at one pixel stands for the array operation at hvsgsm.py:251-310 *)
Fixpoint all_ok {A} (l : list (res A)) : res (list A) :=
  match l with
  | [] => Ok []
  | x :: l => bind x (fun a => bind (all_ok l) (fun l => Ok (a :: l)))
  end.
(** scipy functions called at hvsgsm.py:535, 573-574, 606-607, 705-706 *)
Record filters := Filters {
  flt_gauss : R -> list R -> list R;
  flt_gauss_trunc : R -> R -> list R -> list R;
  flt_conv : list R -> list R -> list R }.
(** hvsgsm.py:239-249 [adapt] *)
Definition eye_illuminance (mask : list bool) (ct lum omega : list R) : R :=
  Rsumf (fun p => fst (fst p) * snd (fst p) * snd p)
        (combine (combine (select mask ct) (select mask lum)) (select mask omega)).
(** hvsgsm.py:251-310 [glare_response] *)
Definition glare_response (fl : filters) (par : gpar) (pparcmin : R) (mask : list bool) (omega sigma img : list R)
    (e_g pupa pupd : R) : res (list (R * R)) :=
  let e_r := map (fun l => retinal_irradiance (g_f par) l pupa) img in
  bind (if g_psf par then apply_psf (flt_conv fl) par pparcmin mask omega e_r pupd else Ok e_r) (fun e_r_psf =>
  let e_rg := if g_adaptmove par then apply_eye_movement_1 (flt_gauss fl) (flt_gauss_trunc fl) pparcmin e_r_psf
              else e_r_psf in
  bind (if g_directmove par then apply_eye_movement_2 (flt_gauss fl) (g_f par) pparcmin e_r_psf e_g
        else Ok e_r_psf) (fun e_rc =>
  let e_a := map (fun e => local_eye_adaptation e e_g) e_rg in
  bind (all_ok (map (fun p => cone_response (fst p) (snd p)) (combine e_rc e_a))) (fun vvm =>
  let r_rf := field_response (flt_gauss fl) pparcmin sigma vvm in
  Ok (map (fun p => normalized_field_response (fst p) (snd p)) (combine mask r_rf))))).
(** hvsgsm.py:312-336 [compute] (without the image file) *)
Definition compute (fl : filters) (par : gpar) (st : gstate) (ev_eye : option R) : res R :=
  match gs_lum st with
  | None => Raise ValueError
  | Some lum =>
      match gs_omega st, gs_mask st, gs_ctheta st, gs_pparcmin st, gs_sigma st, gs_ecc st with
      | Some omega, Some mask, Some ct, Some ppa, Some sigma, Some ecc =>
          let ev := match ev_eye with Some e => e | None => eye_illuminance mask ct (gi_px lum) omega end in
          bind (pupil (g_age par) ev) (fun p =>
          let '(pupa, pupd) := p in
          let e_g := retinal_irradiance (g_f par) (ev / PI) pupa in
          bind (glare_response fl par ppa mask omega sigma (gi_px lum) e_g pupa pupd) (fun r_g =>
          Ok (gss (g_raw par) ecc r_g omega)))
      | _, _, _, _, _, _ => Raise AttributeError
      end
  end.
(** hvsgsm.py:58-67 [process_gss] on the object in a worker *)
Definition process_gss (fl : filters) (par : gpar) (st : gstate) (img : gimg) (illum : option R) : res R :=
  match set_lum (g_scale par) st img with
  | (st', None) => compute fl par st' illum
  | (_, Some e) => Raise e
  end.
