(** C139: resample for arrays with any number of axes. Specifications: S_Resamplend. *)
From Coq Require Import Lra Lia.
From Verif Require Import Base M_Mapper M_Data S_Data M_Gss M_Ndimage M_Resample S_Resamplend L_Resamplend2 L_Resamplend3 L_Resamplend4.
Local Open Scope R_scope.

(** ks times as long along the axes: each value is repeated *)
Theorem C139_up : forall a ks radius,
  Forall (fun n => 0 < n)%Z (nd_shape a) -> length ks = length (nd_shape a) -> Forall (fun k => 1 <= k)%Z ks -> (1 < size_of ks)%Z ->
  exists b, resample_nd a (Some (zip Z.mul (nd_shape a) ks)) false radius = Ok b /\
    same_array b (ND (zip Z.mul (nd_shape a) ks) (fun idx => nd_at a (zip Z.div idx ks))).
Proof. exact up_nd. Qed.
Print Assumptions C139_up.
(** ks times shorter: each value is the mean of a block *)
Theorem C139_down : forall a ts ks gauss radius,
  Forall (fun n => 0 < n)%Z ts -> length ks = length ts -> Forall (fun k => 1 <= k)%Z ks -> (1 < size_of ks)%Z -> nd_shape a = zip Z.mul ts ks ->
  exists b, resample_nd a (Some ts) gauss radius = Ok b /\
    same_array b (ND ts (fun idx => total ks (fun o => nd_at a (zip Z.add (zip Z.mul idx ks) o)) / IZR (size_of ks))).
Proof. exact down_nd. Qed.
Print Assumptions C139_down.
(** the mean and the range stay, with and without smoothing *)
Theorem C139_up_mean : forall a ks gauss radius,
  Forall (fun n => 0 < n)%Z (nd_shape a) -> length ks = length (nd_shape a) -> Forall (fun k => 1 <= k)%Z ks -> (1 < size_of ks)%Z ->
  exists b, resample_nd a (Some (zip Z.mul (nd_shape a) ks)) gauss radius = Ok b /\ nd_shape b = zip Z.mul (nd_shape a) ks /\
    mean_of b = mean_of a /\ forall lo hi, array_between lo hi a -> array_between lo hi b.
Proof. exact up_mean_nd. Qed.
Print Assumptions C139_up_mean.
Theorem C139_down_mean : forall a ts ks gauss radius,
  Forall (fun n => 0 < n)%Z ts -> length ks = length ts -> Forall (fun k => 1 <= k)%Z ks -> (1 < size_of ks)%Z -> nd_shape a = zip Z.mul ts ks ->
  exists b, resample_nd a (Some ts) gauss radius = Ok b /\ nd_shape b = ts /\ mean_of b = mean_of a /\ forall lo hi, array_between lo hi a -> array_between lo hi b.
Proof. exact down_mean_nd. Qed.
Print Assumptions C139_down_mean.
(** of the same size: smoothed with a Gaussian of any radius or a window of an odd number of values; without a radius the array is returned *)
Theorem C139_smooth : forall a ts gauss r,
  Forall (fun n => 0 < n)%Z (nd_shape a) -> ts = None \/ ts = Some (nd_shape a) ->
  (gauss = false -> exists m, (0 <= m)%Z /\ IZR (2 * m + 1) <= r < IZR (2 * m + 2)) ->
  exists b, resample_nd a ts gauss (Some r) = Ok b /\ nd_shape b = nd_shape a /\ mean_of b = mean_of a /\ forall lo hi, array_between lo hi a -> array_between lo hi b.
Proof. exact same_mean_nd. Qed.
Print Assumptions C139_smooth.
Theorem C139_none : forall a gauss, Forall (fun n => 0 < n)%Z (nd_shape a) -> resample_nd a None gauss None = Ok a.
Proof. exact none_nd. Qed.
Print Assumptions C139_none.
(** a size has a number for each axis; one number stands for all axes *)
Theorem C139_axes : forall a ts gauss radius, length ts <> length (nd_shape a) -> length ts <> 1%nat -> resample_nd a (Some ts) gauss radius = Raise ValueError.
Proof. exact wrong_axes. Qed.
Print Assumptions C139_axes.
Theorem C139_one_number : forall a t gauss radius, resample_nd a (Some [t]) gauss radius = resample_nd a (Some (map (fun _ => t) (nd_shape a))) gauss radius.
Proof. exact one_number. Qed.
Print Assumptions C139_one_number.
(** two axes: the images of C64 and C136 *)
Theorem C139_image : forall a tx ty gauss radius, (0 < im_nx a)%Z -> (0 < im_ny a)%Z -> (0 < tx)%Z -> (0 < ty)%Z ->
  (im_nx a <= tx /\ im_ny a <= ty)%Z \/ (tx <= im_nx a /\ ty <= im_ny a)%Z -> (gauss = false -> forall r, radius = Some r -> 1 <= r) ->
  exists b, resample_nd (array_of a) (Some [tx; ty]) gauss radius = Ok b /\ same_array b (array_of (resample (gaussian_filter 4) a (Some (tx, ty)) gauss radius)).
Proof. exact two_axes. Qed.
Print Assumptions C139_image.
(** twice as many rows and a quarter of the columns *)
Theorem C64_mixed_step_refuted : forall f gauss radius, resample_nd (ND [2; 8]%Z f) (Some [4; 2]%Z) gauss radius = Raise ZeroDivisionError.
Proof. exact mixed_nd. Qed.
Print Assumptions C64_mixed_step_refuted.

(** a colour image of three channels, its size doubled *)
Example C139_case : let a := ND [3; 4; 5]%Z (fun idx => IZR (nth 0 idx 0%Z)) in
  Forall (fun n => 0 < n)%Z (nd_shape a) /\ length [1; 2; 2]%Z = length (nd_shape a) /\ Forall (fun k => 1 <= k)%Z [1; 2; 2]%Z /\ (1 < size_of [1; 2; 2])%Z /\
  zip Z.mul (nd_shape a) [1; 2; 2]%Z = [3; 8; 10]%Z /\ index_of (nd_shape a) [2; 3; 4]%Z /\ nd_at a [2; 3; 4]%Z = 2.
Proof. cbn. repeat split; repeat (constructor; try lia). Qed.
