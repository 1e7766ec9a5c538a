(** Properties of the data functions of raytools/translate.py (C60 - C65, C91, C92). Specifications: S_Data.v. *)
From Coq Require Import Sorting.Permutation Sorting.Sorted Lra Lia.
From Verif Require Import Base M_Translate M_Mapper M_Data M_Float S_Data.
From Verif Require Import L_Base L_Data L_Data2 L_Data3 L_Data4 L_Data5 S_Resample L_Data6.
Local Open Scope R_scope.

(** * C60: a weighted quantile is a value of the data range *)
Theorem C60_in_range : forall argsort dw t qs,
  sorts argsort -> 0 <= t -> (exists x, included dw t x) -> Forall (fun q => 0 <= q <= 1) qs ->
  exists r, weighted_quantile argsort dw qs t = Ok r /\
    Forall2 (fun q v => exists a b, included dw t a /\ included dw t b /\ a <= v <= b) qs r.
Proof. exact wq_in_range. Qed.

Theorem C60_ends : forall argsort dw t qs,
  sorts argsort -> 0 <= t -> (exists x, included dw t x) -> Forall (fun q => 0 <= q <= 1) qs ->
  exists r, weighted_quantile argsort dw qs t = Ok r /\
    Forall2 (fun q v => (q = 0 -> smallest (included dw t) v) /\ (q = 1 -> largest (included dw t) v)) qs r.
Proof. exact wq_ends. Qed.

Theorem C60_equal_weights_partial : forall argsort dw t w qs,
  sorts argsort -> 0 <= t -> (exists x, included dw t x) ->
  (forall x v, In (x, v) dw -> t < v -> v = w) ->
  Forall (fun q => 0 <= q < 1 - / 100000 - / 100000000 \/ q = 1) qs ->
  exists l r, Permutation l (map fst (filter (fun p => Rgtb (snd p) t) dw)) /\ StronglySorted Rle l /\
    weighted_quantile argsort dw qs t = Ok r /\ Forall2 (linear_quantile l) qs r.
Proof. exact wq_equal. Qed.
(** for the q left out it does not agree: of two data with equal weights the lower one is returned *)
Theorem C60_equal_weights_refuted : forall argsort q, sorts argsort -> 1 - / 100000 - / 100000000 <= q < 1 ->
  exists r, weighted_quantile argsort [(0, 1); (1, 1)] [q] 0 = Ok [r] /\ ~ linear_quantile [0; 1] q r.
Proof. exact wq_equal_jump. Qed.

(** the hypotheses hold for a real sort and data with ties and an excluded datum *)
Example C60_case :
  sorts sort_key /\ (exists x, included [(3, 1); (1, 2); (3, 0)] 0 x) /\ Forall (fun q => 0 <= q <= 1) [0; 1 / 3; 1].
Proof.
  split; [exact sort_key_sorts|]. split; [exists 3, 1; split; [now left|lra]|].
  repeat apply Forall_cons; try apply Forall_nil; lra.
Qed.

Print Assumptions C60_in_range.
Print Assumptions C60_ends.
Print Assumptions C60_equal_weights_partial.
Print Assumptions C60_equal_weights_refuted.

(** * C61: monotone in q. Missing: q2 in the interval [1 - 1.001e-5, 1), where it is false *)
Theorem C61_monotone_partial : forall argsort dw t q1 q2,
  sorts argsort -> 0 <= t -> (exists x, included dw t x) ->
  0 <= q1 -> q1 <= q2 -> q2 < 1 - / 100000 - / 100000000 \/ q2 = 1 ->
  exists r1 r2, weighted_quantile argsort dw [q1; q2] t = Ok [r1; r2] /\ r1 <= r2.
Proof. exact wq_monotone. Qed.

(** the 0.999995 quantile of (0, 1) is 0, the median is 1/2 *)
Theorem C61_monotone_refuted : forall argsort, sorts argsort ->
  weighted_quantile argsort [(0, 1); (1, 1)] [1 / 2; 1 - / 200000] 0 = Ok [1 / 2; 0].
Proof. exact wq_jump. Qed.

Print Assumptions C61_monotone_partial.
Print Assumptions C61_monotone_refuted.

(** * C91: a quantile splits the weight. It does not: the weight of the smallest datum is never used *)
Theorem C91_median_refuted : forall argsort, sorts argsort ->
  exists m, weighted_median argsort [(0, 10); (1, 1)] 0 = Ok [m] /\
    weight_of (fun x => Rltb x m) [(0, 10); (1, 1)] > (10 + 1) / 2.
Proof. exact wq_not_weighted. Qed.

Theorem C91_first_weight_unused : forall argsort x u v l qs,
  (forall l, StronglySorted (fun a b => fst a <= fst b) l -> argsort l = l) ->
  0 < u -> 0 < v -> StronglySorted (fun a b => fst a <= fst b) ((x, u) :: l) ->
  weighted_quantile argsort ((x, u) :: l) qs 0 = weighted_quantile argsort ((x, v) :: l) qs 0.
Proof. exact wq_first_ignored. Qed.

(** and the result depends on the order in which the sort leaves equal data *)
Theorem C91_tie_order_refuted : exists s1 s2, sorts s1 /\ sorts s2 /\
  weighted_quantile s1 [(0, 1); (0, 3); (1, 1)] [3 / 4] 0 = Ok [0] /\
  weighted_quantile s2 [(0, 1); (0, 3); (1, 1)] [3 / 4] 0 = Ok [1 / 2].
Proof. exact wq_tie_order. Qed.

Example C91_case : (forall l, StronglySorted (fun a b => fst a <= fst b) l -> sort_key l = l) /\
  StronglySorted (fun a b => fst a <= fst b) [(0, 10); (1, 1)].
Proof. split; [exact sort_key_id|]. repeat constructor; cbn [fst]; lra. Qed.

Print Assumptions C91_median_refuted.
Print Assumptions C91_first_weight_unused.
Print Assumptions C91_tie_order_refuted.

(** * C62: the gaussian filter of non uniform data *)
Theorem C62_range : forall argsort unsort pdf bw xy xr lo hi,
  sorts argsort -> (forall a b, 0 <= pdf a b) ->
  (bw = None -> xr = None -> forall x, In x (map fst xy) -> 0 < pdf x x) -> bw_ok bw -> xy <> [] -> xr <> Some [] ->
  (forall p, In p xy -> lo <= snd p <= hi) ->
  exists r, non_uniform_gaussian_filter argsort unsort pdf bw xy xr = Some r /\
    length r = length (match xr with Some l => l | None => map fst xy end) /\
    Forall (fun v => lo <= v <= hi) r.
Proof. exact nugf_range. Qed.

(** sorted x: value k is the value at x[k] *)
Theorem C62_order_partial : forall argsort unsort pdf xy,
  sorts argsort -> (forall a b, 0 <= pdf a b) -> (forall x, In x (map fst xy) -> 0 < pdf x x) ->
  StronglySorted (fun a b => fst a <= fst b) xy ->
  non_uniform_gaussian_filter argsort unsort pdf None xy None =
  non_uniform_gaussian_filter argsort unsort pdf None xy (Some (map fst xy)).
Proof. exact nugf_order_sorted. Qed.

(** where all weights vanish the values are interpolated between the neighbours *)
Theorem C62_gap : forall argsort unsort pdf xy xs,
  StronglySorted (fun a b => fst a <= fst b) xy -> xy <> [] -> xs <> [] -> (forall x0 p, In x0 xs -> In p xy -> pdf x0 (fst p) = 0) ->
  exists r, non_uniform_gaussian_filter argsort unsort pdf None xy (Some xs) = Some r /\ Forall2 (on_line xy) xs r.
Proof. exact nugf_gap. Qed.

(** unsorted x: the values come in ascending order of x, not in the order of the input *)
Theorem C62_order_refuted : forall argsort unsort sigma,
  sorts argsort -> 0 < sigma ->
  exists a b, a < b /\
    non_uniform_gaussian_filter argsort unsort (norm_pdf sigma) None [(2, 20); (1, 10)] None = Some [a; b] /\
    non_uniform_gaussian_filter argsort unsort (norm_pdf sigma) None [(2, 20); (1, 10)] (Some [2; 1]) = Some [b; a].
Proof. exact nugf_unsorted_swapped. Qed.

Example C62_case : sorts sort_key /\ (forall a b, 0 <= norm_pdf 1 a b) /\
  (forall x, 0 < norm_pdf 1 x x) /\ bw_ok (Some 500%Z) /\
  StronglySorted (fun a b => fst a <= fst b) [(1, 10); (2, 20)].
Proof.
  split; [exact sort_key_sorts|]. split; [intros; left; apply norm_pdf_pos; lra|].
  split; [intros; apply norm_pdf_pos; lra|]. split; [cbn; lia|].
  repeat constructor; cbn [fst]; lra.
Qed.

Print Assumptions C62_range.
Print Assumptions C62_gap.
Print Assumptions C62_order_partial.
Print Assumptions C62_order_refuted.

(** * C63: cull_vectors keeps a maximal separated subset, provided the ball query lists ascending indices
    (cKDTree.query_ball_tree does not promise an order) *)
Theorem C63_maximal_partial : forall n close p,
  neighbours n close p -> (forall i, (i < n)%nat -> close i i) -> (forall i j, close i j -> close j i) ->
  (forall j, (j < n)%nat -> StronglySorted lt (p j)) ->
  let mask := cull_vectors p n in
  length mask = n /\
  (forall i k, (i < k)%nat -> (k < n)%nat -> nth i mask false = true -> nth k mask false = true -> ~ close i k) /\
  (forall k, (k < n)%nat -> nth k mask false = false ->
     exists i, (i < k)%nat /\ nth i mask false = true /\ close i k) /\
  ((0 < n)%nat -> nth 0 mask false = true).
Proof. exact cull_greedy. Qed.

(** in another order the first of two close vectors is culled, or neither of them *)
Theorem C63_order_refuted : exists p q,
  neighbours 2 (fun _ _ => True) p /\ neighbours 2 (fun _ _ => True) q /\
  cull_vectors p 2 = [false; true] /\ cull_vectors q 2 = [true; true].
Proof.
  exact (ex_intro _ (pair_lists [1; 0]%nat [1; 0]%nat) (ex_intro _ (pair_lists [1; 0]%nat [0; 1]%nat)
    (conj (two_lists _ _ (or_intror eq_refl) (or_intror eq_refl))
    (conj (two_lists _ _ (or_intror eq_refl) (or_introl eq_refl))
    (conj (proj1 (proj2 cull_orders)) (proj2 (proj2 cull_orders))))))).
Qed.

Example C63_case : neighbours 2 (fun _ _ => True) (pair_lists [0; 1]%nat [0; 1]%nat) /\
  (forall j, (j < 2)%nat -> StronglySorted lt (pair_lists [0; 1]%nat [0; 1]%nat j)).
Proof.
  split; [exact (two_lists _ _ (or_introl eq_refl) (or_introl eq_refl))|].
  intros [|j] _; repeat constructor.
Qed.

Print Assumptions C63_maximal_partial.
Print Assumptions C63_order_refuted.

(** * C64: resample by whole blocks (exact arithmetic) *)
Theorem C64_up : forall gaussian a kx ky radius,
  (0 < im_nx a)%Z -> (0 < im_ny a)%Z -> (1 <= kx)%Z -> (1 <= ky)%Z -> (1 < kx * ky)%Z ->
  same_image (resample gaussian a (Some (im_nx a * kx, im_ny a * ky)%Z) false radius)
             (Img (im_nx a * kx) (im_ny a * ky) (fun i j => im_px a (i / kx) (j / ky))).
Proof. exact resample_up. Qed.

Theorem C64_down : forall gaussian a tx ty kx ky gauss radius,
  (0 < tx)%Z -> (0 < ty)%Z -> (1 <= kx)%Z -> (1 <= ky)%Z -> (1 < kx * ky)%Z ->
  im_nx a = (tx * kx)%Z -> im_ny a = (ty * ky)%Z ->
  same_image (resample gaussian a (Some (tx, ty)) gauss radius)
             (Img tx ty (block_mean kx ky (im_px a))).
Proof. exact resample_down. Qed.

Theorem C64_down_undoes_up : forall gaussian a kx ky gauss radius,
  (0 < im_nx a)%Z -> (0 < im_ny a)%Z -> (1 <= kx)%Z -> (1 <= ky)%Z ->
  same_image (resample gaussian (resample gaussian a (Some (im_nx a * kx, im_ny a * ky)%Z) false None)
                       (Some (im_nx a, im_ny a)) gauss (if (kx * ky =? 1)%Z then None else radius)) a.
Proof. exact resample_round. Qed.

(** other sizes: the size of the blocks is rounded down, so that there can be more of them than asked for; blocks that
    reach beyond the border continue with the mirror image *)
Theorem C64_down_any : forall gaussian gauss radius a tx ty e,
  (0 < tx <= im_nx a)%Z -> (0 < ty <= im_ny a)%Z -> (tx < im_nx a)%Z \/ (ty < im_ny a)%Z ->
  mirrors (im_nx a) (im_ny a) (im_px a) e ->
  let kx := (im_nx a / tx)%Z in let ky := (im_ny a / ty)%Z in let r := resample gaussian a (Some (tx, ty)) gauss radius in
  blocks (im_nx a) kx (im_nx r) /\ blocks (im_ny a) ky (im_ny r) /\ forall i j, im_px r i j = mean_from kx ky e (i * kx) (j * ky).
Proof. exact resample_any. Qed.
(** no change of the size: means over k x k values around each value, the larger half before it *)
Theorem C64_smooth : forall gaussian a k e ts, (0 < im_nx a)%Z -> (0 < im_ny a)%Z -> (1 <= k)%Z ->
  mirrors (im_nx a) (im_ny a) (im_px a) e -> ts = None \/ ts = Some (im_nx a, im_ny a) ->
  let r := resample gaussian a ts false (Some (IZR k)) in
  im_nx r = im_nx a /\ im_ny r = im_ny a /\ forall i j, im_px r i j = mean_from k k e (i - k / 2) (j - k / 2).
Proof. exact resample_smooth. Qed.
Example C64_any_case : mirrors 5 5 (fun i _ => IZR i) (fun i _ => IZR (reflect_index 5 i)) /\ (0 < 3 <= 5)%Z.
Proof. split; [exact (mirrors_exists 5 5 (fun i _ => IZR i) eq_refl eq_refl)|lia]. Qed.
(** five values to three: all five are returned *)
Theorem C64_shape_refuted : forall gaussian gauss radius f,
  let r := resample gaussian (Img 5 5 f) (Some (3, 3)%Z) gauss radius in im_nx r = 5%Z /\ im_ny r = 5%Z.
Proof. exact resample_five. Qed.

(** mixed whole number scaling (twice as many rows, half as many columns) returns the input, or nothing *)
Theorem C64_mixed_refuted : forall gaussian gauss f,
  resample gaussian (Img 2 2 f) (Some (4, 1)%Z) gauss None = Img 2 2 f /\
  im_ny (resample gaussian (Img 1 2 f) (Some (4, 1)%Z) false None) = 0%Z.
Proof. exact (fun g b f => conj (resample_mixed g b f) (resample_empty g f)). Qed.

Example C64_case : (0 < 3)%Z /\ (0 < 5)%Z /\ (1 <= 2)%Z /\ (1 <= 1)%Z /\ (1 < 2 * 1)%Z.
Proof. lia. Qed.

Print Assumptions C64_up.
Print Assumptions C64_down_any.
Print Assumptions C64_smooth.
Print Assumptions C64_shape_refuted.
Print Assumptions C64_down.
Print Assumptions C64_down_undoes_up.
Print Assumptions C64_mixed_refuted.

(** * C92: in binary64 the block size is the whole number ratio. It is not: 93 rows to 1 uses blocks of 92 *)
Theorem C92_factor_refuted : resample_factor_f64 93 1 = 92%Z.
Proof. exact resample_factor_93. Qed.

Print Assumptions C92_factor_refuted.

(** * C65: simple_take *)
Theorem C65_select : forall A (ar r : ndarray A) slices axes,
  let ax := match axes with None => map Z.of_nat (seq 0 (length slices)) | Some l => l end in
  NoDup ax -> Forall (fun j => (0 <= j < Z.of_nat (length (nd_shape ar)))%Z) ax ->
  Forall (fun n => (0 <= n)%Z) (nd_shape ar) ->
  simple_take ar slices axes = Ok r ->
  exists sels : list (list Z),
    length sels = length (nd_shape ar) /\
    (forall d, (d < length (nd_shape ar))%nat ->
       chosen (spec_for (Z.of_nat d) (combine slices ax)) (nth d (nd_shape ar) 0%Z) (nth d sels [])) /\
    nd_shape r = map (fun s => Z.of_nat (length s)) sels /\
    (forall idx, inside (nd_shape r) idx ->
       nd_at r idx = nd_at ar (map (fun p => nth (Z.to_nat (fst p)) (snd p) 0%Z) (combine idx sels))).
Proof. exact @simple_take_spec. Qed.

Theorem C65_error : forall A (ar : ndarray A) v j,
  (0 <= j < Z.of_nat (length (nd_shape ar)))%Z ->
  let n := nth (Z.to_nat j) (nd_shape ar) 0%Z in
  (simple_take ar [TSeq v] (Some [j]) = Raise IndexError <-> exists i, In i v /\ ~ (- n <= i < n)%Z).
Proof. exact @simple_take_error. Qed.

(** a 3 x 4 array, last row first and every other column *)
Example C65_case : exists r : ndarray Z,
  simple_take (ND [3; 4]%Z (fun idx => nth 0 idx 0 * 4 + nth 1 idx 0)%Z)
              [TSeq [-1; 0]%Z; TSlice None None (Some 2%Z)] None = Ok r /\
  nd_shape r = [2; 2]%Z /\ nd_at r [0; 1]%Z = 10%Z.
Proof. eexists. split; [reflexivity|]. split; reflexivity. Qed.

Print Assumptions C65_select.
Print Assumptions C65_error.
