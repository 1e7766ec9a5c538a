(** Properties of the byte buffers, hdr images and colour functions (io.py) *)
From Verif Require Import Base M_Translate M_Mapper S_Translate S_Mapper M_Io S_Io L_Io L_Io2.
From Coq Require Import Lra Lia.
Local Open Scope R_scope.

(** C35: arrays survive the conversion to bytes and back, bit for bit *)
Theorem C35_bytes_roundtrip : forall a, words a ->
  exists b, bytes2np (np2bytes a) (map Z.of_nat (nd_shape a)) = Ok b /\ nd_eq b a.
Proof. exact bytes_roundtrip. Qed.
Theorem C35_bytes_roundtrip_unknown_dim : forall a before n after, words a ->
  nd_shape a = before ++ n :: after -> nd_size (before ++ after) <> 0%nat ->
  exists b, bytes2np (np2bytes a) (map Z.of_nat before ++ (-1)%Z :: map Z.of_nat after) = Ok b /\ nd_eq b a.
Proof. exact bytes_roundtrip_unknown. Qed.
Theorem C35_bytes_layout : forall a, words a ->
  length (np2bytes a) = (4 * nd_size (nd_shape a))%nat /\ Forall byte (np2bytes a) /\
  forall idx j, in_range (nd_shape a) idx -> (j < 4)%nat ->
    nth (4 * flat_index (nd_shape a) idx + j) (np2bytes a) 0%Z = (nd_get a idx / 256 ^ Z.of_nat j mod 256)%Z.
Proof. exact bytes_layout. Qed.
Theorem C35_wrong_length_raises : forall buf s, length buf <> (4 * nd_size s)%nat ->
  bytes2np buf (map Z.of_nat s) = Raise ValueError.
Proof. exact bytes_wrong_length. Qed.
Theorem C35_file_append : forall a b n m t, words a -> words b ->
  nd_shape a = n :: t -> nd_shape b = m :: t -> nd_size t <> 0%nat ->
  forall old, exists c,
    bytefile2np (np2bytefile b Ab (np2bytefile a Wb old)) ((-1)%Z :: map Z.of_nat t) = Ok c /\ nd_eq c (vstack a b).
Proof. exact file_append. Qed.
Example C35_nonvacuous : words (Arr [2; 3]%nat (fun idx => 2143289344 + Z.of_nat (hd 0%nat idx))%Z) /\
  nd_size [2; 3]%nat = 6%nat.
Proof. split; [|reflexivity]. intros [|i idx] H; [destruct H|]. destruct H as [H _]. unfold word. cbn [nd_get hd]. lia. Qed.
Print Assumptions C35_bytes_roundtrip.
Print Assumptions C35_bytes_roundtrip_unknown_dim.
Print Assumptions C35_bytes_layout.
Print Assumptions C35_wrong_length_raises.
Print Assumptions C35_file_append.

(** C36: hdr images come back with every pixel in place *)
Theorem C36_gray_roundtrip : forall P (pv : pvalue_ops P) a nx ny, words a -> nd_shape a = [nx; ny] ->
  (forall p, word (pv_bright pv p)) ->
  exists p b, array2hdr pv a = Ok p /\ hdr2array pv p = Ok b /\ nd_eq b (nd_map (fun w => pv_bright pv (pv_gray pv w)) a).
Proof. exact @hdr_roundtrip. Qed.
Theorem C36_gray_orientation : forall P (pv : pvalue_ops P) a nx ny p r c, words a -> nd_shape a = [nx; ny] ->
  array2hdr pv a = Ok p -> (r < ny)%nat -> (c < nx)%nat ->
  pic_at p r c = Some (pv_gray pv (nd_get a [c; (ny - 1 - r)%nat])).
Proof. exact @hdr_orientation. Qed.
Theorem C36_color_roundtrip : forall P (pv : pvalue_ops P) a nx ny, words a -> nd_shape a = [3%nat; nx; ny] ->
  (forall c p, word (pv_chan pv c p)) ->
  exists p b, array2hdr pv a = Ok p /\ carray2hdr pv a = Ok p /\ hdr2carray pv p = Ok b /\ nd_shape b = nd_shape a /\
  forall c x y, (c < 3)%nat -> (x < nx)%nat -> (y < ny)%nat ->
    nd_get b [c; x; y] = pv_chan pv c (pv_color pv (nd_get a [0%nat; x; y]) (nd_get a [1%nat; x; y]) (nd_get a [2%nat; x; y])).
Proof. exact @hdr_color_roundtrip. Qed.
Example C36_nonvacuous :
  let pv := PVal (fun w => [w]) (fun r g b => [r; g; b]) (fun p => Z.min 4294967295 (Z.max 0 (hd 0%Z p)))
                 (fun c p => Z.min 4294967295 (Z.max 0 (nth c p 0%Z))) in
  (forall p, word (pv_bright pv p)) /\ (forall c p, word (pv_chan pv c p)) /\
  pv_chan pv 1 (pv_color pv 5 6 7) = 6%Z.
Proof. repeat split; cbn [pv_bright pv_chan]; lia. Qed.
Print Assumptions C36_gray_roundtrip.
Print Assumptions C36_gray_orientation.
Print Assumptions C36_color_roundtrip.

(** C37: luminance is 179 times radiance; radiance is linear and an average *)
Theorem C37_lum_is_179_rad : forall weights rgb, rgb2lum weights rgb = 179 * rgb2rad weights rgb.
Proof. exact lum_rad. Qed.
Theorem C37_rad_linear : forall weights k a b, length a = length b ->
  rgb2rad weights (map (fun x => k * x) a) = k * rgb2rad weights a /\
  rgb2rad weights (map (fun p => fst p + snd p) (combine a b)) = rgb2rad weights a + rgb2rad weights b.
Proof. exact (fun w k a b H => conj (rad_scale w a k) (rad_add w a b H)). Qed.
Theorem C37_rad_average : forall r g b lo hi, lo <= r <= hi -> lo <= g <= hi -> lo <= b <= hi ->
  lo <= rgb2rad [0.265; 0.670; 0.065] [r; g; b] <= hi.
Proof. exact rad_default. Qed.
Example C37_nonvacuous : length [1; 2; 3] = length [4; 5; 6].
Proof. reflexivity. Qed.
Print Assumptions C37_lum_is_179_rad.
Print Assumptions C37_rad_linear.
Print Assumptions C37_rad_average.

(** C38: rgbe decoding *)
Theorem C38_nonneg_zero : forall t r g b e, (0 <= r)%Z -> (0 <= g)%Z -> (0 <= b)%Z ->
  0 <= rgbe2lum t r g b e /\ (rgbe2lum t r g b e = 0 <-> r = 0%Z /\ g = 0%Z /\ b = 0%Z).
Proof. exact lum_nonneg. Qed.
Theorem C38_monotone : forall t r g b r' g' b' e, (0 <= r <= r')%Z -> (0 <= g <= g')%Z -> (0 <= b <= b')%Z ->
  (r + g + b < r' + g' + b')%Z -> rgbe2lum t r g b e < rgbe2lum t r' g' b' e.
Proof. exact lum_mono. Qed.
Theorem C38_exponent_doubles_partial : forall r g b e,
  rgbe2lum IntDtype r g b (e + 1) = 2 * rgbe2lum IntDtype r g b e /\
  ((128 <= e)%Z -> (e + 1 < 256)%Z -> rgbe2lum Uint8 r g b (e + 1) = 2 * rgbe2lum Uint8 r g b e).
Proof. exact (fun r g b e => conj (lum_double_int r g b e) (lum_double_uint8_hi r g b e)). Qed.
(** missing: byte arrays with an exponent below 128, where the subtraction wraps *)
Theorem C38_exponent_doubles_refuted : forall r g b, (0 <= r)%Z -> (0 <= g)%Z -> (0 <= b)%Z -> (0 < r + g + b)%Z ->
  rgbe2lum Uint8 r g b 128 < rgbe2lum Uint8 r g b 127.
Proof. exact lum_uint8_drop. Qed.
Example C38_nonvacuous : (0 <= 3 <= 200)%Z /\ (0 < 3 + 0 + 1)%Z.
Proof. lia. Qed.
Print Assumptions C38_nonneg_zero.
Print Assumptions C38_monotone.
Print Assumptions C38_exponent_doubles_partial.
Print Assumptions C38_exponent_doubles_refuted.

(** C39: is_hdr compares str with bytes, so it recognises nothing *)
Theorem C39_is_hdr_refuted : forall decode content,
  is_hdr decode content <> Ok true.
Proof. exact is_hdr_never. Qed.
Theorem C39_is_hdr_result : forall decode content,
  is_hdr decode content = match decode content with Ok _ => Ok false | Raise e => Raise e end.
Proof. exact is_hdr_result. Qed.
(** a file that does start with the magic number *)
Example C39_nonvacuous : is_hdr (fun c => Ok c) (hdr_magic ++ [10; 10]%Z) = Ok false.
Proof. reflexivity. Qed.
Print Assumptions C39_is_hdr_refuted.
Print Assumptions C39_is_hdr_result.

(** C40: the error contract of load_txt *)
Theorem C40_load_txt : forall A fs (loadtxt : list Z -> res A) a,
  match a with
  | TxtOther => load_txt fs loadtxt a = Raise TypeError
  | TxtPath n => match fs n with
     | None => load_txt fs loadtxt a = Raise FileNotFoundError
     | Some c => (forall v, loadtxt c = Ok v -> load_txt fs loadtxt a = Ok v) /\
                 (loadtxt c = Raise ValueError \/ loadtxt c = Raise AttributeError -> load_txt fs loadtxt a = Raise ValueError)
     end
  end.
Proof. exact load_txt_table. Qed.
Example C40_nonvacuous : load_txt (fun n => match n with [] => None | _ => Some n end) (fun c => Ok (length c)) (TxtPath [1; 2]%Z) = Ok 2%nat.
Proof. reflexivity. Qed.
Print Assumptions C40_load_txt.

(** C82: hdr2vol returns aligned directions, solid angles and values *)
Theorem C82_hdr2vol_aligned_partial : forall A d va (omega : R * R -> R) (im : image A), va <> 360 -> im_nx im = im_ny im ->
  exists pixels : list (Z * Z), pixels = zgrid (im_nx im) (im_ny im) /\
  hdr2vol (mk_view d va) omega im =
   (map (fun p => pixel2ray (mk_view d va) (im_ny im) (IZR (fst p) + 1 / 2, IZR (snd p) + 1 / 2)) pixels,
    map (fun p => omega (IZR (fst p) + 1 / 2, IZR (snd p) + 1 / 2)) pixels,
    map (fun p => im_px im (fst p) (snd p)) pixels).
Proof. exact vol_aligned. Qed.
(** missing: 360 degree images (2n x n), for which only half of the solid angles are returned *)
Theorem C82_hdr2vol_360_refuted : forall A d (omega : R * R -> R) (im : image A), (0 <= im_ny im)%Z -> im_nx im = (2 * im_ny im)%Z ->
  let '(vecs, oga, lum) := hdr2vol (mk_view d 360) omega im in
  Z.of_nat (length vecs) = (im_nx im * im_ny im)%Z /\ Z.of_nat (length lum) = (im_nx im * im_ny im)%Z /\
  Z.of_nat (length oga) = (im_ny im * im_ny im)%Z.
Proof. exact vol_counts_360. Qed.
Example C82_nonvacuous : (0 <= im_ny (Img 4 2 (fun _ _ => 1%Z)))%Z /\ im_nx (Img 4 2 (fun _ _ => 1%Z)) = (2 * 2)%Z.
Proof. split; [|reflexivity]. cbn [im_ny]. lia. Qed.
Print Assumptions C82_hdr2vol_aligned_partial.
Print Assumptions C82_hdr2vol_360_refuted.

(** C83: the solid angle of a pixel depends on its place in the image only *)
Theorem C83_omega_rotation_invariant : forall d e va res p,
  pixel2omega (mk_view d va) res p = pixel2omega (mk_view e va) res p.
Proof. exact omega_dir. Qed.
Theorem C83_omega_nonneg : forall vm res p, 0 <= pixel2omega vm res p.
Proof. exact omega_nonneg. Qed.
Theorem C83_omega_mirror : forall d va res x y, (res <> 0)%Z ->
  pixel2omega (mk_view d va) res (IZR res - x, y) = pixel2omega (mk_view d va) res (x, y).
Proof. exact omega_mirror. Qed.
Theorem C83_omega_transpose : forall d va res x y,
  pixel2omega (mk_view d va) res (y, x) = pixel2omega (mk_view d va) res (x, y).
Proof. exact omega_swap. Qed.
(** its value on the horizontal axis of the image, h half the angle of a pixel, theta the angle to the view axis *)
Theorem C83_omega_on_axis : forall d va res x, hemi_angle va -> (0 < res)%Z -> 1 / 2 <= x <= IZR res - 1 / 2 ->
  let s := vm_chordfactor (mk_view d va) * va / 180 in
  let h := PI * s / (2 * IZR res) in
  let theta := PI * s * (x / IZR res - 1 / 2) in
  let rho := sqrt (theta * theta + h * h) in
  pixel2omega (mk_view d va) res (x, IZR res / 2) = 4 * sin h * sin rho * (h / rho).
Proof. exact omega_axis. Qed.
Theorem C83_omega_centre : forall d va res, hemi_angle va -> (0 < res)%Z ->
  pixel2omega (mk_view d va) res (IZR res / 2, IZR res / 2) =
  4 * square (sin (PI * (vm_chordfactor (mk_view d va) * va / 180) / (2 * IZR res))).
Proof. exact omega_axis_centre. Qed.
Example C83_nonvacuous_axis : hemi_angle 180 /\ (0 < 512)%Z /\ 1 / 2 <= 100 <= IZR 512 - 1 / 2.
Proof. unfold hemi_angle. repeat split; lra || lia. Qed.
Example C83_nonvacuous : (512 <> 0)%Z.
Proof. lia. Qed.
Print Assumptions C83_omega_rotation_invariant.
Print Assumptions C83_omega_nonneg.
Print Assumptions C83_omega_mirror.
Print Assumptions C83_omega_transpose.
Print Assumptions C83_omega_on_axis.
Print Assumptions C83_omega_centre.
