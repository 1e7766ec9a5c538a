(** Properties of non_uniform_gaussian_filter for several rows and averaging methods (C116) and of the smooth command (C117).
    Specifications: S_Smooth.v. *)
From Coq Require Import List Lra Lia.
From Verif Require Import Base L_Base M_Data S_Data L_Data2 M_Smooth S_Smooth L_Smooth L_Smooth2 L_Smooth3 L_Smooth4 L_Smooth5.
Import ListNotations.
Local Open Scope R_scope.

(** * C116: the gaussian filter on rows of data *)
(** where every coordinate has data near it, each value is the mean of the row weighted with the density, for any order of the samples *)
Theorem C116_mean : forall order argsort pdf x rows xr,
  orders order -> not_negative pdf -> rectangle (length x) rows -> covered pdf x xr -> xr <> [] ->
  filter_rows order argsort pdf AMean None x rows xr = Ok (map (fun x0 => map (weighted_mean (pdf x0) x) rows) xr).
Proof. exact filter_mean. Qed.
(** and lies between bounds of the row *)
Theorem C116_range : forall w x y lo hi,
  (forall v, 0 <= w v) -> Exists (fun v => 0 < w v) x -> length y = length x -> Forall (fun v => lo <= v <= hi) y ->
  lo <= weighted_mean w x y <= hi.
Proof. exact weighted_mean_range. Qed.
(** rows do not influence each other: what is computed for several rows is what is computed for each alone *)
Theorem C116_rows : forall order argsort pdf bw x rows xr l, filter_rows order argsort pdf AMean bw x rows xr = Ok l ->
  Forall (fun v => length v = length rows) l /\
  forall k, (k < length rows)%nat -> filter_rows order argsort pdf AMean bw x [nth k rows []] xr = Ok (map (fun v => [nth k v 0]) l).
Proof. exact filter_rows_one. Qed.
(** one row without any weight is interpolated *)
Theorem C116_fallback : forall order argsort pdf x y xr, orders order -> x <> [] -> xr <> [] -> length y = length x ->
  Forall (fun x0 => Forall (fun v => pdf x0 v = 0) x) xr ->
  exists l, filter_rows order argsort pdf AMean None x [y] xr = Ok (map (fun v => [v]) l) /\ Forall2 (interpolated x y) xr l.
Proof. exact filter_zero. Qed.
(** two or more rows are not: in a gap between the data the call raises although each row alone is interpolated *)
Theorem C116_gap_refuted : forall order argsort pdf x rows x0,
  orders order -> rectangle (length x) rows -> in_gap pdf x x0 -> (2 <= length rows)%nat ->
  filter_rows order argsort pdf AMean None x rows [x0] = Raise (OtherError 0) /\
  Forall (fun y => exists v, filter_rows order argsort pdf AMean None x [y] [x0] = Ok [[v]] /\ on_line x y x0 v) rows.
Proof. exact filter_gap. Qed.
(** quantiles of one row: between data that have weight, 0 the least and 1 the greatest of them *)
Theorem C116_quantiles : forall order argsort pdf x y xr qs,
  orders order -> sorts argsort -> not_negative pdf -> length y = length x -> covered pdf x xr -> xr <> [] ->
  Forall (fun q => 0 <= q <= 1) qs ->
  exists l, filter_rows order argsort pdf (AQuantiles qs) None x [y] xr = Ok l /\
    Forall2 (fun x0 r => Forall2 (fun q v =>
      (exists a b, counted pdf x y x0 a /\ counted pdf x y x0 b /\ a <= v <= b) /\
      (q = 0 -> smallest (counted pdf x y x0) v) /\ (q = 1 -> largest (counted pdf x y x0) v)) qs r) xr l.
Proof. exact filter_quantiles. Qed.
(** the median is the quantile one half *)
Theorem C116_median : forall order argsort pdf bw x y xr,
  filter_rows order argsort pdf AMedian bw x [y] xr = filter_rows order argsort pdf (AQuantiles [1 / 2]) bw x [y] xr.
Proof. exact filter_median. Qed.
(** the median and quantiles of two or more rows always raise, where the mean works *)
Theorem C116_median_rows_refuted : forall order argsort pdf am x rows xr,
  orders order -> not_negative pdf -> rectangle (length x) rows -> covered pdf x xr -> xr <> [] ->
  (2 <= length rows)%nat -> (am = AMedian \/ exists qs, am = AQuantiles qs) ->
  exists e, filter_rows order argsort pdf am None x rows xr = Raise e.
Proof. exact filter_quantile_rows. Qed.
(** what is rejected: neither name nor numbers, quantiles outside [0, 1], several quantiles of several rows *)
Theorem C116_rejects : forall order argsort pdf bw x rows xr,
  filter_rows order argsort pdf AOther bw x rows xr = Raise ValueError /\
  (forall qs, Exists (fun q => q < 0 \/ 1 < q) qs -> filter_rows order argsort pdf (AQuantiles qs) bw x rows xr = Raise ValueError) /\
  (forall qs, (2 <= length qs)%nat -> (2 <= length rows)%nat -> (2 <= length x)%nat ->
     filter_rows order argsort pdf (AQuantiles qs) bw x rows xr = Raise ValueError).
Proof. exact filter_rejects. Qed.

(** the hypotheses hold: a sort, unsorted data with two rows, and a density that vanishes far from the data *)
Example C116_case : orders sort_order /\ not_negative tent /\ rectangle (length [10; 0]) [[1; 2]; [3; 4]] /\
  covered tent [10; 0] [0; 10] /\ in_gap tent [10; 0] 5.
Proof.
  split; [exact sort_order_orders|]. split; [intros a b; apply Rmax_l|]. split; [repeat constructor|]. unfold tent. split.
  - apply Forall_cons; [|apply Forall_cons; [|constructor]].
    + right. left. rewrite Rminus_0_r, Rabs_R0. rewrite Rmax_right; lra.
    + left. replace (10 - 10) with 0 by ring. rewrite Rabs_R0, Rmax_right; lra.
  - split; [repeat constructor; rewrite Rmax_left; try lra; [rewrite Rabs_left by lra|rewrite Rabs_right by lra]; lra|]. split; [right; left; lra|left; lra].
Qed.
Example C116_case_sorts : sorts sort_key.
Proof. exact sort_key_sorts. Qed.

(** * C117: the smooth command *)
(** every line has a coordinate and the mean of each column weighted with a normal density of the width asked for *)
Theorem C117_values : forall order argsort data x x_out y sigma sf dx dy,
  orders order -> (2 <= length data)%nat -> col data x = Some dx ->
  Forall2 (fun j c => col data j = Some c) y dy -> y <> [] -> usable x_out -> 0 < asked_width dx sigma sf ->
  exists xo, positions dx x_out xo /\
  smooth order argsort data x x_out y sigma sf = Ok (map (fun x0 => (x0, map (weighted_mean (normal x0 (asked_width dx sigma sf)) dx) dy)) xo).
Proof. exact smooth_values. Qed.
(** each number printed is between the bounds of its column *)
Theorem C117_range : forall order argsort data x x_out y sigma sf dx dy l,
  orders order -> (2 <= length data)%nat -> col data x = Some dx ->
  Forall2 (fun j c => col data j = Some c) y dy -> y <> [] -> usable x_out -> 0 < asked_width dx sigma sf ->
  smooth order argsort data x x_out y sigma sf = Ok l ->
  Forall (fun p => Forall2 (fun c v => forall lo hi, Forall (fun t => lo <= t <= hi) c -> lo <= v <= hi) dy (snd p)) l.
Proof. exact smooth_range. Qed.
(** the units of x do not matter: other units give the same values at the coordinates in those units *)
Theorem C117_units : forall order argsort k data data' x x_out y sigma sf dx,
  orders order -> 0 < k -> (2 <= length data)%nat -> length data' = length data ->
  col data x = Some dx -> other_units k x y data data' -> Forall (fun j => exists c, col data j = Some c) y ->
  y <> [] -> usable x_out -> 0 < asked_width dx sigma sf ->
  exists l, smooth order argsort data x x_out y sigma sf = Ok l /\
    smooth order argsort data' x (x_out_units k x_out) y (option_map (Rmult k) sigma) sf = Ok (map (fun p => (k * fst p, snd p)) l).
Proof. exact smooth_units. Qed.
(** with no width the samples of one column are interpolated *)
Theorem C117_zero : forall order argsort data x x_out j sigma sf dx c,
  orders order -> (2 <= length data)%nat -> col data x = Some dx -> col data j = Some c -> usable x_out -> asked_width dx sigma sf <= 0 ->
  exists xo l, positions dx x_out xo /\
    smooth order argsort data x x_out [j] sigma sf = Ok (combine xo (map (fun v => [v]) l)) /\ Forall2 (interpolated dx c) xo l.
Proof. exact smooth_zero. Qed.
(** two or more columns are not *)
Theorem C117_zero_columns_refuted : forall order argsort data x x_out y sigma sf dx dy,
  orders order -> (2 <= length data)%nat -> col data x = Some dx -> Forall2 (fun j c => col data j = Some c) y dy -> (2 <= length y)%nat ->
  (2 <= length x_out)%nat -> asked_width dx sigma sf <= 0 -> Exists (fun v => v < hd 0 x_out) dx -> Exists (fun v => hd 0 x_out <= v) dx ->
  smooth order argsort data x x_out y sigma sf = Raise (OtherError 0).
Proof. exact smooth_zero_columns. Qed.
(** without columns the density of x is printed, with a width that is the one asked for times the standard deviation *)
Theorem C117_density : forall order argsort data x x_out sigma sf dx,
  (2 <= length data)%nat -> col data x = Some dx -> usable x_out -> 0 < asked_width dx sigma sf -> 0 < variance dx ->
  exists xo, positions dx x_out xo /\
  smooth order argsort data x x_out [] sigma sf =
  Ok (map (fun x0 => (x0, [density_estimate dx (asked_width dx sigma sf * sqrt (variance dx)) x0])) xo).
Proof. exact smooth_kde. Qed.
(** so it is neither the estimate with the width given nor, by default, that of Scott's rule *)
Theorem C117_width_refuted : forall order argsort, exists v v' u u',
  smooth order argsort [[- (1)]; [1]] 0 [0; 1] [] (Some 1) 1 = Ok [(0, [v]); (1, [v'])] /\ v <> density_estimate [- (1); 1] 1 0 /\
  smooth order argsort [[- (1)]; [1]] 0 [0; 1] [] None 1 = Ok [(0, [u]); (1, [u'])] /\ u <> density_estimate [- (1); 1] (scott [- (1); 1]) 0.
Proof. exact kde_width. Qed.
(** and the density depends on the units of x: twice the values do not halve it *)
Theorem C117_density_units_refuted : forall order argsort, exists v v' u u',
  smooth order argsort [[- (1)]; [1]] 0 [0; 1] [] None 1 = Ok [(0, [v]); (1, [v'])] /\
  smooth order argsort [[- (2)]; [2]] 0 [0; 2] [] None 1 = Ok [(0, [u]); (2, [u'])] /\ u <> v / 2.
Proof. exact kde_units. Qed.

(** the hypotheses hold: three lines of a file, the last column smoothed at five coordinates, and the same in millimetres *)
Example C117_case : let data := [[3; 1; 7]; [1; 2; 8]; [2; 5; 9]] in let data' := [[3000; 1; 7]; [1000; 2; 8]; [2000; 5; 9]] in
  (2 <= length data)%nat /\ col data 0 = Some [3; 1; 2] /\ Forall2 (fun j c => col data j = Some c) [-1; 1]%Z [[7; 8; 9]; [1; 2; 5]] /\
  usable [5] /\ usable [1; 2] /\ 0 < asked_width [3; 1; 2] (Some (1 / 2)) 1 /\ other_units 1000 0 [-1; 1]%Z data data' /\
  Exists (fun v => v < hd 0 [3 / 2; 2]) [3; 1; 2] /\ Exists (fun v => hd 0 [3 / 2; 2] <= v) [3; 1; 2] /\ asked_width [3; 1; 2] None 0 <= 0.
Proof.
  cbv zeta. split; [cbn; lia|]. split; [reflexivity|]. split; [repeat constructor|]. split; [cbn; lra|]. split; [exact I|]. split; [unfold asked_width; lra|].
  split; [exists [3; 1; 2]; split; [reflexivity|]; split; [cbn; repeat f_equal; ring|repeat constructor]|].
  split; [right; left; cbn; lra|]. split; [left; cbn; lra|]. unfold asked_width. lra.
Qed.

Print Assumptions C116_mean.
Print Assumptions C116_range.
Print Assumptions C116_rows.
Print Assumptions C116_fallback.
Print Assumptions C116_gap_refuted.
Print Assumptions C116_quantiles.
Print Assumptions C116_median.
Print Assumptions C116_median_rows_refuted.
Print Assumptions C116_rejects.
Print Assumptions C117_values.
Print Assumptions C117_range.
Print Assumptions C117_units.
Print Assumptions C117_zero.
Print Assumptions C117_zero_columns_refuted.
Print Assumptions C117_density.
Print Assumptions C117_width_refuted.
Print Assumptions C117_density_units_refuted.
