(** Model of imgmetric (raytools/imagetools.py) and of the metric command (raytools/cli.py), built on the models of
    the header, the peak normalisation and the metric sets. *)
From Coq Require Import Ascii String.
From Verif Require Import Base BaseX M_Translate M_Mapper M_Io M_Utility M_Header M_Metric M_Peak.
Import ListNotations.
Local Open Scope R_scope.

(** what imgmetric reads from an image file: the view (hdr2vm, imagetools.py:233-271), the header item luminancergb
    ('' when absent, io.py:305-326) and the colour image (io.py:248-267) *)
Record imgfile := ImgFile { if_vm : res (option viewmapper); if_item : res str; if_im : image (list R) }.

(** the weights of the brightness that pvalue -b prints (io.py:239-241); the program is not part of the repository,
    these are the weights its documentation gives and imagetools.py:470 compares with *)
Definition pvalue_weights : list R := [26507413 / 10 ^ 8; 67011463 / 10 ^ 8; 6481124 / 10 ^ 8].

(** np.allclose(a, b, atol=.001) with rtol 1e-5, imagetools.py:470 *)
Definition all_close (a b : list R) : bool :=
  forallb (fun p => isclose (/ 10 ^ 5) (/ 10 ^ 3) (fst p) (snd p)) (combine a b).

(** imagetools.py:464: [float(i) for i in lumrgb.split()] *)
Fixpoint all_floats (parse : str -> option R) (l : list str) : res (list R) :=
  match l with
  | [] => Ok []
  | t :: l => match parse t with
              | None => Raise ValueError
              | Some x => bind (all_floats parse l) (fun r => Ok (x :: r))
              end
  end.

(** imagetools.py:456-460 *)
Definition needs_color (metrics : list string) : bool :=
  match check_metrics KMetric metrics true with Raise _ => true | Ok _ => false end.
(** imagetools.py:461-471: the value of lumrgb afterwards *)
Definition choose_lumrgb (parse : str -> option R) (color : bool) (arg : option (list R)) (item : res str)
    : res (option (list R)) :=
  match arg with
  | Some w => Ok (Some w)
  | None =>
      bind item (fun t => bind (all_floats parse (split_words t)) (fun w =>
      if negb (length w =? 3)%nat then Ok None
      else if negb color && all_close pvalue_weights w then Ok None
      else Ok (Some w)))
  end.

(** the parameters of imgmetric and of the metric command, cli.py:51-89 *)
Record mopts := MOpts {
  mo_peakn : bool; mo_scale : R; mo_lumrgb : option (list R); mo_threshold : R; mo_lowlight : bool;
  mo_peaka : R; mo_peakt : R; mo_peakr : R; mo_blursun : bool }.
(** the arguments of normalize_peak, imagetools.py:473-474, with the defaults of imagetools.py:358-361 *)
Definition peak_of (o : mopts) : peak_args :=
  PeakArgs (mo_scale o) (mo_peaka o) (mo_peakt o) (mo_peakr o) 0.75 1 4 (mo_blursun o).
(** the arguments of the metric sets, imagetools.py:475-480, with the defaults of metricset.py:64-66 *)
Definition opts_of (o : mopts) : options := Opts true (mo_scale o) false (mo_threshold o) 30 (mo_lowlight o).

(** imagetools.py:197-206 [hdr2vol] with [f] the channels of a pixel. Arrays of different lengths (an image that is not
    square, a 360 degree view) fail in the metrics; simplified to a ValueError here *)
Definition volume (vm : viewmapper) (im : image (list R)) (f : list R -> list R) : res (list pix) :=
  let '(v, o, l) := hdr2vol vm (pixel2omega vm (im_ny im)) im in
  if ((length v =? length o) && (length o =? length l))%nat
  then Ok (map (fun p => Pix (fst (fst p)) (snd (fst p)) (f (snd p))) (combine (combine v o) l))
  else Raise ValueError.

(** imagetools.py:451-480 [imgmetric]. None: the loop of the omega setter is still running after [fuel] rounds.
    [parse] is float(), [order] and [blur] are the arguments of [normalize_peak]. Simplified: weights of a length other
    than three are a ValueError *)
Definition imgmetric (parse : str -> option R) (order : (nat -> R) -> list nat -> list nat) (blur : R -> R -> R)
    (fuel : nat) (o : mopts) (file : imgfile) (metrics : list string) : option (res (list xr)) :=
  let lift {A} (r : res A) (k : A -> option (res (list xr))) : option (res (list xr)) :=
    match r with Ok a => k a | Raise e => Some (Raise e) end in
  lift (if_vm file) (fun vm =>
  let vm := match vm with Some vm => vm | None => mk_view (V3 0 1 0) 180 end in
  let color := needs_color metrics in
  lift (choose_lumrgb parse color (mo_lumrgb o) (if_item file)) (fun lumrgb =>
  let bad := match lumrgb with Some w => negb (length w =? 3)%nat | None => false end in
  if bad then Some (Raise ValueError) else
  if color then
    lift (volume vm (if_im file) (fun px => px)) (fun rays =>
    lift (if mo_peakn o then normalize_peak order blur radiance_weights (peak_of o) false rays else Ok rays) (fun rays =>
    match lumrgb with
    | None => Some (Raise TypeError)
    | Some w =>
        lift (check_metrics KColor metrics true) (fun _ =>
        match construct_color fuel (opts_of o) vm w (map (fun r => (p_v r, p_o r, p_l r)) rays) with
        | Some (m, _) => Some (call KColor m metrics)
        | None => None
        end)
    end))
  else
    let w := match lumrgb with Some w => w | None => pvalue_weights end in
    lift (volume vm (if_im file) (fun px => [rgb2rad w px])) (fun rays =>
    lift (if mo_peakn o then normalize_peak order blur [1] (peak_of o) false rays else Ok rays) (fun rays =>
    match construct fuel (opts_of o) vm (map (fun r => Ray (p_v r) (p_o r) (nth 0 (p_l r) 0)) rays) with
    | Some (m, _) => Some (call KMetric m metrics)
    | None => None
    end)))).

(** * cli.py:87-147: the metric command *)
Local Open Scope string_scope.

(** metrics.pop(metrics.index(x)) and whether x was there, cli.py:114-121 *)
Fixpoint pop (x : string) (l : list string) : bool * list string :=
  match l with
  | [] => (false, [])
  | y :: l => if String.eqb x y then (true, l) else let '(b, r) := pop x l in (b, y :: r)
  end.
(** what the command prints (the names, then one line for each row) and the exception that ends it, cli.py:145-147 *)
Record table (P : Type) := Table { t_names : option (list string); t_rows : list (P * list xr); t_exn : option exn }.
Arguments Table {P}.
Arguments t_names {P}.
Arguments t_rows {P}.
Arguments t_exn {P}.
(** pool_call over the images: the results in order, or the first exception in that order (utility.py:66-131) *)
Fixpoint each {P B} (f : P -> res B) (l : list P) : res (list B) :=
  match l with
  | [] => Ok []
  | x :: l => bind (f x) (fun b => bind (each f l) (fun bs => Ok (b :: bs)))
  end.
(** np.hstack((results, gresult)), cli.py:134-137, 141-144; results is None without other metrics *)
Definition add_column (results : option (list (list xr))) (g : list xr) : list (list xr) :=
  match results with
  | None => map (fun x => [x]) g
  | Some rows => map (fun p => fst p ++ [snd p])%list (combine rows g)
  end.
(** cli.py:87-147 with [calc img metrics] for imgmetric with the options given and [gss nb imgs] for gss_compute, [nb]
    without the optical corrections. np.asarray and np.hstack need rows of one length, which imgmetric gives *)
Definition metric_cmd {P} (calc : P -> list string -> res (list xr)) (gss : bool -> list P -> res (list xr))
    (imgs : list P) (metrics : list string) : table P :=
  let '(g, ms) := pop "gss" metrics in
  let '(gnb, ms) := pop "gssnb" ms in
  let done :=
    bind (match ms with
          | [] => Ok None
          | _ => bind (each (fun i => calc i ms) imgs) (fun r => Ok (Some r))
          end) (fun results =>
    bind (if g then bind (gss false imgs) (fun c => Ok (Some (add_column results c))) else Ok results) (fun results =>
    if gnb then bind (gss true imgs) (fun c => Ok (Some (add_column results c))) else Ok results)) in
  match done with
  | Raise e => Table None [] (Some e)
  | Ok results =>
      let names := (ms ++ (if g then ["gss"] else []) ++ (if gnb then ["gssnb"] else []))%list in
      match results with
      | None => Table (Some names) [] (Some TypeError)
      | Some rows => Table (Some names) (combine imgs rows) None
      end
  end.
