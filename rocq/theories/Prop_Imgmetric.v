(** Properties C59, C75 and C102: the metrics of an image and the metric command. *)
From Coq Require Import Ascii String Lra.
From Verif Require Import Base BaseX M_Translate M_Mapper M_Io M_Header M_Metric M_Peak M_Imgmetric S_Imgmetric S_Imgmetric2
  L_Imgmetric L_Imgmetric2 L_Imgmetric3 L_Imgmetric4 L_Imgmetric5 S_Peak S_Imgmetric3 L_Imgmetric6.
Import ListNotations.
Local Open Scope R_scope.

(** C59, metrics of the luminance: the metric set is made from the pixels weighted by the argument, else by the three
    numbers of the header, else by pvalue's weights. Header weights within 0.001 of pvalue's are replaced by these. *)
Theorem C59_luminance_partial parse order blur fuel o file metrics v item w : if_vm file = Ok v -> vm_aspect (view_of v) = 1%Z ->
  square_image (if_im file) -> mono_names metrics -> if_item file = Ok item -> expected_weights parse (mo_lumrgb o) item w -> length w = 3%nat ->
  exists u, (u = w \/ (mo_lumrgb o = None /\ u = [26507413 / 10 ^ 8; 67011463 / 10 ^ 8; 6481124 / 10 ^ 8] /\ nearly u w)) /\
  imgmetric parse order blur fuel o file metrics =
  match normalized order blur [1] o (pixel_rows (view_of v) (if_im file) (fun px => [rgb2rad u px])) with
  | Raise e => Some (Raise e)
  | Ok rays => option_map (fun m => call KMetric (fst m) metrics)
                 (construct fuel (Opts true (mo_scale o) false (mo_threshold o) 30 (mo_lowlight o)) (view_of v) (map (fun r => Ray (p_v r) (p_o r) (nth 0 (p_l r) 0)) rays))
  end.
Proof. exact (mono_expected parse order blur fuel o file metrics v item w). Qed.
Print Assumptions C59_luminance_partial.

(** C59, colour metrics: with weights from the argument or the header the metric set has these weights *)
Theorem C59_color_partial parse order blur fuel o file metrics v item w : if_vm file = Ok v -> vm_aspect (view_of v) = 1%Z ->
  square_image (if_im file) -> color_names metrics -> if_item file = Ok item -> expected_weights parse (mo_lumrgb o) item w ->
  mo_lumrgb o <> None \/ header_triple parse item w -> length w = 3%nat ->
  imgmetric parse order blur fuel o file metrics =
  match normalized order blur [0.265; 0.670; 0.065] o (pixel_rows (view_of v) (if_im file) (fun px => px)) with
  | Raise e => Some (Raise e)
  | Ok rays => option_map (fun m => call KColor (fst m) metrics)
                 (construct_color fuel (Opts true (mo_scale o) false (mo_threshold o) 30 (mo_lowlight o)) (view_of v) w (map (fun r => (p_v r, p_o r, p_l r)) rays))
  end.
Proof. exact (color_expected parse order blur fuel o file metrics v item w). Qed.
Print Assumptions C59_color_partial.

(** without weights the colour metrics fail instead of using the default weights *)
Theorem C59_default_refuted parse order blur fuel o file metrics v item : if_vm file = Ok v -> vm_aspect (view_of v) = 1%Z ->
  square_image (if_im file) -> In "irradiance"%string metrics -> mo_lumrgb o = None -> if_item file = Ok item -> header_none parse item ->
  mo_peakn o = false -> imgmetric parse order blur fuel o file metrics = Some (Raise TypeError).
Proof. exact (color_default parse order blur fuel o file metrics v item). Qed.
Print Assumptions C59_default_refuted.

(** a word of the header item that is not a number fails too *)
Theorem C59_header_refuted parse order blur fuel o file metrics v item t : if_vm file = Ok v -> mo_lumrgb o = None -> if_item file = Ok item ->
  In t (split_words item) -> parse t = None -> imgmetric parse order blur fuel o file metrics = Some (Raise ValueError).
Proof. exact (bad_header parse order blur fuel o file metrics v item t). Qed.
Print Assumptions C59_header_refuted.

(** the peak normalisation of colour images ignores the weights: with no pixel above the threshold under the default
    weights it does nothing, whatever the luminance under the weights given *)
Theorem C59_peak_refuted parse order blur fuel o file metrics v w : if_vm file = Ok v -> vm_aspect (view_of v) = 1%Z ->
  square_image (if_im file) -> color_names metrics -> length w = 3%nat -> mo_lumrgb o = Some w ->
  (forall i j, rgb2rad [0.265; 0.670; 0.065] (im_px (if_im file) i j) <= mo_peakt o / mo_scale o) ->
  imgmetric parse order blur fuel o file metrics = imgmetric parse order blur fuel (no_peakn o) file metrics.
Proof. exact (peak_default parse order blur fuel o file metrics v w). Qed.
Print Assumptions C59_peak_refuted.

(** an unknown name is an error, never a missing column *)
Theorem C59_unknown_name parse order blur fuel o file metrics v w m rays : if_vm file = Ok v -> vm_aspect (view_of v) = 1%Z ->
  square_image (if_im file) -> In m metrics -> ~ In m (allmetrics KColor) -> length w = 3%nat ->
  choose_lumrgb parse true (mo_lumrgb o) (if_item file) = Ok (Some w) ->
  normalized order blur [0.265; 0.670; 0.065] o (pixel_rows (view_of v) (if_im file) (fun px => px)) = Ok rays ->
  imgmetric parse order blur fuel o file metrics = Some (Raise AttributeError).
Proof. exact (unknown_raises parse order blur fuel o file metrics v w m rays). Qed.
Print Assumptions C59_unknown_name.

(** the hypotheses are met by a file of four blue pixels, one of them above the peak threshold under the weights *)
Example C59_example : if_vm (blue_file "0 0 1") = Ok None /\ vm_aspect (view_of None) = 1%Z /\ square_image blue_image /\
  color_names ["illum"; "irradiance"; "avglum"]%string /\ mono_names ["illum"; "avglum"]%string /\
  header_triple bit_parse (list_ascii_of_string "0 0 1") [0; 0; 1] /\ ~ nearly [26507413 / 10 ^ 8; 67011463 / 10 ^ 8; 6481124 / 10 ^ 8] [0; 0; 1] /\
  (forall i j, rgb2rad [0.265; 0.670; 0.065] (im_px blue_image i j) <= 100000 / 179) /\ rgb2rad [0; 0; 1] (im_px blue_image 0 0) > 100000 / 179.
Proof. exact (conj eq_refl (conj view180 (conj blue_square (conj blue_names (conj blue_mono (conj bits001 (conj far001 (conj blue_dark blue_bright)))))))). Qed.
Example C59_default_example parse order blur fuel : exists item, header_none bit_parse (list_ascii_of_string item) /\
  imgmetric bit_parse order blur fuel (opts1 false None) (blue_file item) ["illum"; "irradiance"]%string = Some (Raise TypeError) /\
  (exists vals, imgmetric parse order blur fuel (opts1 false (Some [0; 0; 1])) (blue_file item) ["illum"; "irradiance"; "avglum"]%string = Some (Ok vals)).
Proof. exact (blue_default_fails parse order blur fuel). Qed.

(** C102: with weights and without peak normalisation, asking for irradiance adds its three values and leaves the
    others as they are when asked for alone *)
Theorem C102_irradiance_partial parse order blur fuel o file metrics v item w vals : if_vm file = Ok v -> vm_aspect (view_of v) = 1%Z ->
  square_image (if_im file) -> color_names metrics -> length w = 3%nat -> mo_peakn o = false -> if_item file = Ok item ->
  mo_lumrgb o = Some w \/ (mo_lumrgb o = None /\ header_triple parse item w /\ ~ nearly [26507413 / 10 ^ 8; 67011463 / 10 ^ 8; 6481124 / 10 ^ 8] w) ->
  imgmetric parse order blur fuel o file metrics = Some (Ok vals) ->
  exists pieces, vals = concat pieces /\
    Forall2 (fun n p => if string_dec n "irradiance" then length p = 3%nat
                        else exists x, p = [x] /\ imgmetric parse order blur fuel o file [n] = Some (Ok [x])) metrics pieces.
Proof. exact (irradiance_added parse order blur fuel o file metrics v item w vals). Qed.
Print Assumptions C102_irradiance_partial.
Example C102_example parse order blur fuel : exists vals,
  imgmetric parse order blur fuel (opts1 false (Some [0; 0; 1])) (blue_file "") ["illum"; "irradiance"; "avglum"]%string = Some (Ok vals).
Proof. exact (blue_color parse order blur fuel "" (Some [0; 0; 1]) eq_refl). Qed.
Example C102_header_example order blur fuel : exists vals,
  imgmetric bit_parse order blur fuel (opts1 false None) (blue_file "0 0 1") ["illum"; "irradiance"; "avglum"]%string = Some (Ok vals).
Proof. exact (blue_color bit_parse order blur fuel "0 0 1" None (header_choice bit_parse true _ _ bits001)). Qed.

(** but without weights in the argument or the header, asking for irradiance too makes the other metrics fail ... *)
Theorem C102_default_refuted order blur fuel :
  (exists vals, imgmetric bit_parse order blur fuel (opts1 false None) (blue_file "") ["illum"; "avglum"]%string = Some (Ok vals)) /\
  imgmetric bit_parse order blur fuel (opts1 false None) (blue_file "") ["illum"; "avglum"; "irradiance"]%string = Some (Raise TypeError).
Proof. exact (conj (blue_alone order blur fuel) (blue_both order blur fuel)). Qed.
Print Assumptions C102_default_refuted.
(** ... and with peak normalisation it changes them: the maximum luminance of one bright blue pixel (default options) *)
Theorem C102_peak_refuted parse order blur fuel : sorts_down order ->
  imgmetric parse order blur fuel (opts1 true (Some [0; 0; 1])) dot_file ["maxlum"]%string = Some (Ok [Fin (4 * 1000 / (67967 / 10 ^ 9) * 179)]) /\
  exists r, imgmetric parse order blur fuel (opts1 true (Some [0; 0; 1])) dot_file ["maxlum"; "irradiance"]%string = Some (Ok (Fin (1000 * 179) :: r)).
Proof. exact (fun S => conj (dot_alone parse order blur fuel S) (dot_color parse order blur fuel)). Qed.
Print Assumptions C102_peak_refuted.

(** without irradiance the values are one for each name, in order, each the value of that name alone *)
Theorem C102_values parse order blur fuel o file metrics vals : mono_names metrics ->
  imgmetric parse order blur fuel o file metrics = Some (Ok vals) ->
  Forall2 (fun n x => imgmetric parse order blur fuel o file [n] = Some (Ok [x])) metrics vals.
Proof. exact (imgmetric_each parse order blur fuel o file metrics vals). Qed.
Print Assumptions C102_values.

(** C75, rows: a command that ends without an exception prints the names (the list without gss and gssnb, then these
    two when asked for) and one row for each image in the order given; row k has the values of image k for the list
    without gss and gssnb, then the scores of image k *)
Theorem C75_rows {P} (calc : P -> list string -> res (list xr)) gss imgs metrics : scores_each gss imgs ->
  let t := metric_cmd calc gss imgs metrics in
  let ms := other_metrics metrics in
  t_exn t = None ->
  t_names t = Some (ms ++ (if asked "gss" metrics then ["gss"] else []) ++ (if asked "gssnb" metrics then ["gssnb"] else []))%list%string /\
  map fst (t_rows t) = imgs /\
  forall k img row, nth_error (t_rows t) k = Some (img, row) ->
    nth_error imgs k = Some img /\
    exists vals g1 g2, row = (vals ++ g1 ++ g2)%list /\ (if ms then vals = [] else calc img ms = Ok vals) /\
      score_entry gss imgs false (asked "gss" metrics) k g1 /\ score_entry gss imgs true (asked "gssnb" metrics) k g2.
Proof. exact (table_rows calc gss imgs metrics). Qed.
Print Assumptions C75_rows.

(** C75, columns: without irradiance each row has one value for each name, and the value under a name is the one
    imgmetric gives for it *)
Theorem C75_columns_partial {P} parse order blur fuel o (file : P -> imgfile) calc gss imgs metrics names :
  computed_by parse order blur fuel o file calc -> scores_each gss imgs -> ~ In "irradiance"%string metrics ->
  let t := metric_cmd calc gss imgs metrics in t_exn t = None -> t_names t = Some names ->
  forall img row, In (img, row) (t_rows t) -> length row = length names /\
    Forall2 (fun n x => imgmetric parse order blur fuel o (file img) [n] = Some (Ok [x]))
      (other_metrics metrics) (firstn (length (other_metrics metrics)) row).
Proof. exact (table_columns parse order blur fuel o file calc gss imgs metrics names). Qed.
Print Assumptions C75_columns_partial.

(** with irradiance every row has more values than there are names *)
Theorem C75_irradiance_refuted {P} parse order blur fuel o (file : P -> imgfile) calc gss imgs metrics names :
  computed_by parse order blur fuel o file calc -> scores_each gss imgs -> In "irradiance"%string metrics ->
  let t := metric_cmd calc gss imgs metrics in t_exn t = None -> t_names t = Some names ->
  Forall (fun r => (length names < length (snd r))%nat) (t_rows t).
Proof. exact (table_irradiance parse order blur fuel o file calc gss imgs metrics names). Qed.
Print Assumptions C75_irradiance_refuted.

(** with no metrics the names are printed and the command fails *)
Theorem C75_empty_refuted {P} (calc : P -> list string -> res (list xr)) gss imgs :
  metric_cmd calc gss imgs [] = Table (Some []) [] (Some TypeError).
Proof. exact (table_empty calc gss imgs). Qed.
Print Assumptions C75_empty_refuted.

(** gss or gssnb asked for twice: nothing is printed *)
Theorem C75_repeated_refuted parse order blur fuel o (file : string -> imgfile) calc gss img imgs metrics n :
  computed_by parse order blur fuel o file calc -> n = "gss"%string \/ n = "gssnb"%string -> (1 < count n metrics)%nat ->
  exists e, metric_cmd calc gss (img :: imgs) metrics = Table None [] (Some e).
Proof. exact (table_repeated parse order blur fuel o file calc gss img imgs metrics n). Qed.
Print Assumptions C75_repeated_refuted.

(** the hypotheses are met by copies of the blue file, with and without irradiance *)
Example C75_example parse order blur fuel imgs :
  computed_by parse order blur fuel (opts1 false (Some [0; 0; 1])) blue_file (blue_calc parse order blur fuel (Some [0; 0; 1])) /\
  scores_each zero_scores imgs /\
  t_exn (metric_cmd (blue_calc parse order blur fuel (Some [0; 0; 1])) zero_scores imgs ["gssnb"; "illum"; "gss"; "avglum"]%string) = None /\
  t_exn (metric_cmd (blue_calc parse order blur fuel (Some [0; 0; 1])) zero_scores imgs ["illum"; "gss"; "irradiance"; "avglum"]%string) = None.
Proof.
  exact (conj (blue_computed parse order blur fuel (Some [0; 0; 1])) (conj (zero_each imgs)
    (conj (blue_mono_table parse order blur fuel imgs) (blue_color_table parse order blur fuel imgs)))).
Qed.
