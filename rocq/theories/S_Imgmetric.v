(** What C59, C75 and C102 speak about. *)
From Coq Require Import String.
From Verif Require Import Base BaseX M_Translate M_Mapper M_Io M_Header M_Metric M_Peak M_Imgmetric.
Import ListNotations.
Local Open Scope R_scope.

(** the header item is three numbers; it is a list of numbers, but not three (or empty) *)
Definition header_triple (parse : str -> option R) (item : str) (w : list R) : Prop :=
  length w = 3%nat /\ Forall2 (fun t x => parse t = Some x) (split_words item) w.
Definition header_none (parse : str -> option R) (item : str) : Prop :=
  exists w, length w <> 3%nat /\ Forall2 (fun t x => parse t = Some x) (split_words item) w.

(** the weights a user expects: the argument, else the header, else pvalue's *)
Inductive expected_weights (parse : str -> option R) : option (list R) -> str -> list R -> Prop :=
| by_argument w item : expected_weights parse (Some w) item w
| by_header item w : header_triple parse item w -> expected_weights parse None item w
| by_default item : header_none parse item -> expected_weights parse None item pvalue_weights.

(** weights that differ by at most 0.00101 in each channel *)
Definition nearly (a b : list R) : Prop := Forall2 (fun x y => Rabs (x - y) <= 1 / 1000 + Rabs y / 100000) a b.

(** names of metrics *)
Definition mono_names (metrics : list string) : Prop := Forall (fun m => In m (allmetrics KMetric)) metrics.
Definition color_names (metrics : list string) : Prop :=
  Forall (fun m => In m (allmetrics KColor)) metrics /\ In "irradiance"%string metrics.
Definition known (m : string) : bool := mem m (allmetrics KMetric).

(** the rows of direction, solid angle and value of a square image *)
Definition pixel_rows {A} (vm : viewmapper) (im : image (list R)) (f : list R -> A) : list (vec3 * R * A) :=
  map (fun p => (fst (fst p), snd (fst p), f (snd p)))
      (combine (combine (pixelrays vm (im_ny im))
                        (map (fun q => pixel2omega vm (im_ny im) (IZR (fst q) + 1 / 2, IZR (snd q) + 1 / 2))
                             (zgrid (im_ny im) (im_ny im))))
               (map (fun q => im_px im (fst q) (snd q)) (zgrid (im_ny im) (im_ny im)))).
(** a square image of colour pixels *)
Definition square_image (im : image (list R)) : Prop :=
  (0 < im_ny im)%Z /\ im_nx im = im_ny im /\ forall i j, length (im_px im i j) = 3%nat.
(** the view of a file, 180 degrees when it has none *)
Definition view_of (v : option viewmapper) : viewmapper := match v with Some vm => vm | None => mk_view (V3 0 1 0) 180 end.

(** the metric list without the first gss and the first gssnb *)
Fixpoint without_first (x : string) (l : list string) : list string :=
  match l with [] => [] | y :: l => if string_dec x y then l else y :: without_first x l end.
Definition other_metrics (metrics : list string) : list string := without_first "gssnb" (without_first "gss" metrics).
Definition count (x : string) (l : list string) : nat := count_occ string_dec l x.
(** the entries of line k for a glare score: one when asked for *)
Definition score_entry {P} (gss : bool -> list P -> res (list xr)) (imgs : list P) (nb asked : bool) (k : nat) (g : list xr) : Prop :=
  if asked then exists l x, gss nb imgs = Ok l /\ nth_error l k = Some x /\ g = [x] else g = [].
(** one score for each image *)
Definition scores_each {P} (gss : bool -> list P -> res (list xr)) (imgs : list P) : Prop :=
  forall nb l, gss nb imgs = Ok l -> length l = length imgs.
Definition asked (x : string) (metrics : list string) : bool := if in_dec string_dec x metrics then true else false.
(** the rays after the peak normalisation, when it is asked for; [vlambda] gives the luminance it works with *)
Definition normalized (order : (nat -> R) -> list nat -> list nat) blur vlambda (o : mopts) (rows : list (vec3 * R * list R)) : res (list pix) :=
  let rays := map (fun r => Pix (fst (fst r)) (snd (fst r)) (snd r)) rows in
  if mo_peakn o then normalize_peak order blur vlambda (peak_of o) false rays else Ok rays.
(** the options without peak normalisation *)
Definition no_peakn (o : mopts) : mopts :=
  MOpts false (mo_scale o) (mo_lumrgb o) (mo_threshold o) (mo_lowlight o) (mo_peaka o) (mo_peakt o) (mo_peakr o) (mo_blursun o).
(** [calc] is imgmetric with the options of the command, for images whose solid angle correction ends *)
Definition computed_by {P} parse order blur fuel (o : mopts) (file : P -> imgfile) (calc : P -> list string -> res (list xr)) : Prop :=
  forall img ms, imgmetric parse order blur fuel o (file img) ms = Some (calc img ms).
