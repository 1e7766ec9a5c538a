(** Model of raytools/io.py: byte buffers, hdr images, colour conversion, and of
    hdr2vol, raytools/imagetools.py. The process cap is in M_Utility.v, header
    cleaning in M_Header.v. *)
From Verif Require Import Base M_Translate M_Mapper.
Local Open Scope Z_scope.

(** * numpy arrays: a shape and the element at each index tuple *)
(** numpy arrays as used at io.py:49-391 *)
Record ndarray (A : Type) := Arr { nd_shape : list nat; nd_get : list nat -> A }.
Arguments Arr {A}.
Arguments nd_shape {A}.
Arguments nd_get {A}.
(** all index tuples of a shape in C order (last axis fastest). Numpy arrays as used at io.py:49-391 *)
Fixpoint nd_indices (s : list nat) : list (list nat) :=
  match s with
  | [] => [[]]
  | n :: s => flat_map (fun i => map (cons i) (nd_indices s)) (seq 0 n)
  end.
(** numpy arrays as used at io.py:49-391 *)
Definition nd_size (s : list nat) : nat := fold_right Nat.mul 1%nat s.
(** position of an index tuple in the C order. Numpy arrays as used at io.py:49-391 *)
Fixpoint flat_index (s idx : list nat) : nat :=
  match s, idx with
  | _ :: s, i :: idx => (i * nd_size s + flat_index s idx)%nat
  | _, _ => 0%nat
  end.
(** a.ravel(). Numpy arrays as used at io.py:49-391 *)
Definition nd_ravel {A} (a : ndarray A) : list A := map (nd_get a) (nd_indices (nd_shape a)).
(** the array of shape s whose ravel is l; d is never read when the sizes agree. Numpy arrays as used at io.py:49-391 *)
Definition nd_of_list {A} (d : A) (s : list nat) (l : list A) : ndarray A :=
  Arr s (fun idx => nth (flat_index s idx) l d).
(** l.reshape( *dims ): at most one negative dimension, replaced by the one that
    fits; every mismatch raises ValueError. Numpy arrays as used at io.py:49-391 *)
Definition dim_product (dims : list Z) : Z := fold_right Z.mul 1 (filter (fun d => 0 <=? d) dims).
(** numpy arrays as used at io.py:49-391 *)
Definition np_reshape {A} (d : A) (l : list A) (dims : list Z) : res (ndarray A) :=
  let n := Z.of_nat (length l) in
  let k := dim_product dims in
  match length (filter (fun d => d <? 0) dims) with
  | 0%nat => if k =? n then Ok (nd_of_list d (map Z.to_nat dims) l) else Raise ValueError
  | 1%nat => if (k =? 0) || negb (n mod k =? 0) then Raise ValueError
             else Ok (nd_of_list d (map (fun x => Z.to_nat (if x <? 0 then n / k else x)) dims) l)
  | _ => Raise ValueError
  end.
(** a.T, a[::-1], a[:, ::-1] and np.transpose(a, (0, 2, 1)). Numpy arrays as used at io.py:49-391 *)
Definition nd_T {A} (a : ndarray A) : ndarray A := Arr (rev (nd_shape a)) (fun idx => nd_get a (rev idx)).
(** numpy arrays as used at io.py:49-391 *)
Definition nd_flip0 {A} (a : ndarray A) : ndarray A :=
  Arr (nd_shape a) (fun idx => match idx with
     | i :: r => nd_get a ((hd 0 (nd_shape a) - 1 - i)%nat :: r) | [] => nd_get a [] end).
(** numpy arrays as used at io.py:49-391 *)
Definition nd_flip1 {A} (a : ndarray A) : ndarray A :=
  Arr (nd_shape a) (fun idx => match idx with
     | i :: j :: r => nd_get a (i :: (nth 1 (nd_shape a) 0 - 1 - j)%nat :: r) | _ => nd_get a idx end).
(** numpy arrays as used at io.py:49-391 *)
Definition swap12 {X} (l : list X) : list X := match l with a :: b :: c :: r => a :: c :: b :: r | _ => l end.
(** numpy arrays as used at io.py:49-391 *)
Definition nd_T021 {A} (a : ndarray A) : ndarray A := Arr (swap12 (nd_shape a)) (fun idx => nd_get a (swap12 idx)).

(** * bytes, io.py:49-119 *)

(** a single precision number is its 32 bit pattern (0 <= w < 2^32), so NaN
    payloads and signed zeros are kept apart; [ar.astype('<f')] is the identity
    on such arrays. Dtype '<f' of io.py:49-119 *)
Definition le_bytes (w : Z) : list Z := [w mod 256; w / 256 mod 256; w / 65536 mod 256; w / 16777216 mod 256].
(** dtype '<f' of io.py:49-119 *)
Definition of_le_bytes (b0 b1 b2 b3 : Z) : Z := b0 + 256 * b1 + 65536 * b2 + 16777216 * b3.
(** io.py:49-63 *)
Definition np2bytes (a : ndarray Z) : list Z := flat_map le_bytes (nd_ravel a).
(** np.frombuffer(buf, '<f'): ValueError when the size is not a multiple of 4 (io.py:83-99) *)
Fixpoint frombuffer (buf : list Z) : res (list Z) :=
  match buf with
  | [] => Ok []
  | b0 :: b1 :: b2 :: b3 :: buf => bind (frombuffer buf) (fun l => Ok (of_le_bytes b0 b1 b2 b3 :: l))
  | _ => Raise ValueError
  end.
(** io.py:83-98 *)
Definition bytes2np (buf : list Z) (dims : list Z) : res (ndarray Z) :=
  bind (frombuffer buf) (fun l => np_reshape 0 l dims).

(** io.py:66-80, 102-119: files are byte lists; mode 'wb' replaces, 'ab' appends *)
Inductive filemode := Wb | Ab.
(** io.py:66-80 *)
Definition np2bytefile (a : ndarray Z) (m : filemode) (file : list Z) : list Z :=
  match m with Wb => np2bytes a | Ab => file ++ np2bytes a end.
(** io.py:102-119 *)
Definition bytefile2np (file : list Z) (dims : list Z) : res (ndarray Z) := bytes2np file dims.

(** * hdr images, io.py:122-267 *)

(** a picture: number of rows, number of columns and the pixels in scanline
    order (-Y ny +X nx: top row first, left to right). The files and the program of io.py:122-267 *)
Record picture (P : Type) := Pic { pic_ny : nat; pic_nx : nat; pic_px : list P }.
Arguments Pic {P}.
Arguments pic_ny {P}.
Arguments pic_nx {P}.
Arguments pic_px {P}.
(** the external pvalue program, as documented: [-r -df -y ny +x nx] packs
    floats from stdin into a picture, with [-b] one float per pixel, otherwise
    three; [-df] unpacks, with [-b] the brightness of each pixel, with [-n] all
    red, then all green, then all blue values. gray/color/bright/chan are the
    pixel encoding (not modelled). The files and the program of io.py:122-267 *)
Record pvalue_ops (P : Type) := PVal {
  pv_gray : Z -> P; pv_color : Z -> Z -> Z -> P; pv_bright : P -> Z; pv_chan : nat -> P -> Z }.
Arguments PVal {P}.
Arguments pv_gray {P}.
Arguments pv_color {P}.
Arguments pv_bright {P}.
Arguments pv_chan {P}.
(** the files and the program of io.py:122-267 *)
Fixpoint triples {X P} (f : X -> X -> X -> P) (l : list X) : list P :=
  match l with a :: b :: c :: l => f a b c :: triples f l | _ => [] end.
(** the files and the program of io.py:122-267 *)
Definition pvalue_r {P} (pv : pvalue_ops P) (gray : bool) (ny nx : nat) (buf : list Z) : res (picture P) :=
  bind (frombuffer buf) (fun l => Ok (Pic ny nx (if gray then map (pv_gray pv) l else triples (pv_color pv) l))).
(** the files and the program of io.py:122-267 *)
Definition pvalue_b {P} (pv : pvalue_ops P) (p : picture P) : list Z := flat_map le_bytes (map (pv_bright pv) (pic_px p)).
(** the files and the program of io.py:122-267 *)
Definition pvalue_n {P} (pv : pvalue_ops P) (p : picture P) : list Z :=
  flat_map le_bytes (flat_map (fun c => map (pv_chan pv c) (pic_px p)) [0; 1; 2]%nat).

(** io.py:122-203: array2hdr hands arrays of more than two dimensions to carray2hdr *)
Definition carray2hdr {P} (pv : pvalue_ops P) (a : ndarray Z) : res (picture P) :=
  let s := rev (nd_shape a) in
  pvalue_r pv false (nth 0 s 0%nat) (nth 1 s 0%nat) (np2bytes (nd_flip0 (nd_T a))).
(** io.py:164-183 *)
Definition array2hdr {P} (pv : pvalue_ops P) (a : ndarray Z) : res (picture P) :=
  let s := rev (nd_shape a) in
  if (2 <? length s)%nat then carray2hdr pv a
  else pvalue_r pv true (nth 0 s 0%nat) (nth 1 s 0%nat) (np2bytes (nd_flip0 (nd_T a))).
(** io.py:206-245, vlambda=None *)
Definition hdr2array {P} (pv : pvalue_ops P) (p : picture P) : res (ndarray Z) :=
  bind (bytes2np (pvalue_b pv p) [Z.of_nat (pic_ny p); Z.of_nat (pic_nx p)]) (fun a => Ok (nd_flip1 (nd_T a))).
(** io.py:206-220, 248-267 *)
Definition hdr2carray {P} (pv : pvalue_ops P) (p : picture P) : res (ndarray Z) :=
  bind (bytes2np (pvalue_n pv p) [3; Z.of_nat (pic_ny p); Z.of_nat (pic_nx p)]) (fun a => Ok (nd_T021 (nd_flip1 a))).

(** * imagetools.py:197-206: hdr2vol, for one channel. [im] is the image array
    (x, y), the three results are vecs, oga and luminances.
    vm.pixels(res) has res x res entries whatever the aspect (angularmixin.py:87-89) *)
Definition hdr2vol {A} (vm : viewmapper) (omega : R * R -> R) (im : image A) : list vec3 * list R * list A :=
  let res := im_ny im in
  (pixelrays vm res,
   map (fun p => omega (IZR (fst p) + 1 / 2, IZR (snd p) + 1 / 2)%R) (zgrid res res),
   map (fun p => im_px im (fst p) (snd p)) (zgrid (im_nx im) (im_ny im))).

(** angularmixin.py:100-108 *)
Definition cross (a b : vec3) : vec3 :=
  V3 (vy a * vz b - vz a * vy b)%R (vz a * vx b - vx a * vz b)%R (vx a * vy b - vy a * vx b)%R.
(** angularmixin.py:100-108 *)
Definition pixel2omega (vm : viewmapper) (res : Z) (p : R * R) : R :=
  let f x y := vxy2xyz vm (x / IZR res, y / IZR res)%R in
  let xa := f (fst p - 1 / 2)%R (snd p) in
  let xb := f (fst p + 1 / 2)%R (snd p) in
  let ya := f (fst p) (snd p - 1 / 2)%R in
  let yb := f (fst p) (snd p + 1 / 2)%R in
  vnorm (cross (vsub xb xa) (vsub yb ya)).

(** * colour, io.py:329-355 *)
Local Open Scope R_scope.
(** io.py:329-334 *)
Definition radiance_weights : list R := [265 / 1000; 670 / 1000; 65 / 1000].
(** np.einsum('...j,j->...'): channel counts must agree (a single channel
    broadcast is not modelled) (io.py:329-334) *)
Definition rgb2rad (vlambda rgb : list R) : R := Rsum (map (fun p => fst p * snd p) (combine rgb vlambda)).
(** io.py:329-334 *)
Definition rgb2lum (vlambda rgb : list R) : R := rgb2rad (map (fun x => x * 179) vlambda) rgb.
(** np.power(2., k) for an integer k (io.py:337-355) *)
Definition pow2 (k : Z) : R := powerRZ 2 k.
(** the array dtype: signed integers, or bytes (uint8), where e - 128 wraps (io.py:337-355) *)
Inductive int_dtype := IntDtype | Uint8.
(** io.py:337-355 *)
Definition sub128 (t : int_dtype) (e : Z) : Z :=
  match t with IntDtype => (e - 128)%Z | Uint8 => ((e - 128) mod 256)%Z end.
(** io.py:337-355 *)
Definition rgbe2rgb (t : int_dtype) (c : Z) (e : Z) : R :=
  if (c =? 0)%Z then 0 else (IZR c + 1 / 2) * (pow2 (sub128 t e) / 256).
(** io.py:337-355 *)
Definition rgbe2lum (t : int_dtype) (r g b e : Z) : R :=
  rgb2lum radiance_weights [rgbe2rgb t r e; rgbe2rgb t g e; rgbe2rgb t b e].

(** * io.py:298-302: is_hdr. The file is opened in text mode: [decode] gives the
    characters or fails (UnicodeDecodeError); the first ten of them, a str, are
    compared with a bytes literal *)
Inductive pyval := PStr (s : list Z) | PBytes (s : list Z).
(** io.py:298-302 *)
Definition py_eq (a b : pyval) : bool :=
  match a, b with
  | PStr s, PStr t | PBytes s, PBytes t => if list_eq_dec Z.eq_dec s t then true else false
  | _, _ => false
  end.
(** io.py:298-302 *)
Definition hdr_magic : list Z := [35; 63; 82; 65; 68; 73; 65; 78; 67; 69]%Z.  (* #?RADIANCE *)
(** io.py:298-302 *)
Definition is_hdr (decode : list Z -> res (list Z)) (content : list Z) : res bool :=
  bind (decode content) (fun s => Ok (py_eq (PStr (firstn 10 s)) (PBytes hdr_magic))).

(** * io.py:358-391: load_txt. [file] is the file state of a path, [loadtxt] what
    np.loadtxt does with the content *)
Inductive txt_arg := TxtPath (name : list Z) | TxtOther.
(** io.py:358-391 *)
Definition load_txt {A} (fs : list Z -> option (list Z)) (loadtxt : list Z -> res A) (a : txt_arg) : res A :=
  match a with
  | TxtOther => Raise TypeError
  | TxtPath n => match fs n with
                 | None => Raise FileNotFoundError
                 | Some c => match loadtxt c with
                             | Raise ValueError => Raise ValueError
                             | Raise AttributeError => Raise ValueError
                             | r => r
                             end
                 end
  end.
