(** Model of raytools/translate.py: coordinate translations and rotations.

    Every function is given for one row of its (N, k) array argument: the code is
    elementwise over rows (np.atleast_2d + vectorised arithmetic), see [rows] for
    the lifting to arrays. *)
From Verif Require Import Base.
Local Open Scope R_scope.

(** lifting of a row function to an (N, k) array. Arrays of rows, translate.py:17-331 *)
Definition rows {A B} (f : A -> B) (a : list A) : list B := map f a.

(** translate.py:17-19 [norm]; a zero row gives nan in the code (0/0), theorems
    about [norm] exclude it *)
Definition norm (v : vec3) : vec3 :=
  V3 (vx v / vnorm v) (vy v / vnorm v) (vz v / vnorm v).

(** translate.py:22-27 [norm1], zero is passed through *)
Definition norm1 (v : vec3) : vec3 :=
  let n := sqrt (square (vx v) + square (vy v) + square (vz v)) in
  let n := if Reqb n 0 then 1 else n in
  V3 (vx v / n) (vy v / n) (vz v / n).

(** translate.py:44-50 = 67-74, the common part of [uv2xy] and [uv2xyz]:
    (n, r, phi) of a point of the double square *)
Definition concentric (u v : R) : R * R * R :=
  let n := if Rgtb u 1 then -1 else 1 in
  let u := if Rgtb u 1 then u - 1 else u in
  let a := 2 * u - 1 in
  let b := 2 * v - 1 in
  let cond := Rgtb (a * a) (b * b) in
  let r := if cond then a else if Reqb b 0 then 0 else b in
  let phi := (if cond then b / (2 * a)
              else if Reqb b 0 then 0 else 1 - a / (2 * b)) * PI / 2 in
  (n, r, phi).

(** translate.py:34-53 [uv2xy] *)
Definition uv2xy (uv : R * R) : R * R :=
  let '(n, r, phi) := concentric (fst uv) (snd uv) in
  (n * cos phi * r, sin phi * r).

(** translate.py:56-81 [uv2xyz]; np.empty is modelled by the zero vector, all
    three components are overwritten when axes is a permutation of (0,1,2) *)
Definition uv2xyz (axes : nat * nat * nat) (xsign : R) (uv : R * R) : vec3 :=
  let '(ax0, ax1, ax2) := axes in
  let '(n, r, phi) := concentric (fst uv) (snd uv) in
  let sphterm := r * sqrt (2 - r * r) in
  vset (vset (vset vzero ax0 (xsign * n * cos phi * sphterm))
             ax1 (sin phi * sphterm))
       ax2 (n * (1 - r * r)).

(** translate.py:56-81 *)
Definition xyz_axes : nat * nat * nat := (0, 1, 2)%nat.

(** translate.py:84-114 [xyz2uv] *)
Definition xyz2uv (normalize : bool) (axes : nat * nat * nat) (flipu : bool) (xyz : vec3) : R * R :=
  let '(ax0, ax1, ax2) := axes in
  let xyz := if normalize then norm xyz else xyz in
  let n := if Rltb (vget xyz ax2) 0 then -1 else 1 in
  let r2 := 1 - n * vget xyz ax2 in
  let x := vget xyz ax0 / sqrt (2 - r2) in
  let y := vget xyz ax1 / sqrt (2 - r2) in
  let r := sqrt (square x + square y) in
  let phi := arctan2 y x in
  let pi4 := PI / 4 in
  let phi := phi + (if Rltb phi (- pi4) then 2 * PI else 0) in
  let a :=
    if Rltb phi pi4 then (r, phi * r / pi4)
    else if Rltb phi (3 * pi4) then (- (phi - PI / 2) * r / pi4, r)
    else if Rltb phi (5 * pi4) then (- r, - (phi - PI) * r / pi4)
    else ((phi - 3 * PI / 2) * r / pi4, - r) in
  let u := if flipu then ((if Rltb n 0 then 3 else 1) - fst a * n) / 2
           else (fst a + 2 - n) / 2 in
  (u, (snd a + 1) / 2).

(** translate.py:332-337 [uv2ij]; np.mod of the (integral) floor by side *)
Definition uv2ij (uv : R * R) (side : Z) (aspect : Z) : Z * Z :=
  let i := (Rfloor (IZR side * fst uv) mod side)%Z in
  let j := (Rfloor (IZR side * snd uv) mod side)%Z in
  let i := if Z.eqb aspect 2 then (i + (if Rgeb (fst uv) 1 then side else 0))%Z else i in
  (i, j).

(** translate.py:340-342 [uv2bin] *)
Definition uv2bin (uv : R * R) (side : Z) : Z :=
  let '(i, j) := uv2ij uv side 2 in (i * side + j)%Z.

(** translate.py:345-348 [bin2uv] *)
Definition bin2uv (bn side : Z) (offset : R) : R * R :=
  ((IZR (bn - bn mod side) / IZR side + offset) / IZR side,
   (IZR (bn mod side) + offset) / IZR side).

(** translate.py:176-187 [xyz2skybin] with tol = 0 *)
Definition xyz2skybin (xyz : vec3) (side : Z) (normalize : bool) : Z :=
  uv2bin (xyz2uv normalize xyz_axes false xyz) side.

(** translate.py:190-208 [skybin2xyz] *)
Definition skybin2xyz (bn side : Z) : vec3 :=
  let xyz := uv2xyz xyz_axes 1 (bin2uv bn side (1 / 2)) in
  if Rltb (vz xyz) 0 then V3 0 0 (-1) else xyz.

(** translate.py:215-225 [xyz2xy] *)
Definition xyz2xy (axes : nat * nat * nat) (flip : bool) (xyz : vec3) : R * R :=
  let '(ax0, ax1, ax2) := axes in
  let r := arctan2 (sqrt (square (vget xyz ax0) + square (vget xyz ax1))) (vget xyz ax2) / (PI / 2) in
  let phi := arctan2 (vget xyz ax0) (vget xyz ax1) in
  let x := r * sin phi in
  let y := r * cos phi in
  (if flip then - x else x, y).

(** translate.py:232-237 [tpnorm], value only (see [tpnorm_call] for the
    in place update) *)
Definition tpnorm (tp : R * R) : R * R :=
  (Rmod (fst tp + PI) PI, Rmod (snd tp + 2 * PI) (2 * PI)).

(** translate.py:232-237: effect on the caller. np.atleast_2d returns its
    argument itself for a 2-d array, so a 2-d argument is overwritten with the
    result; a 1-d argument gives a view of the same buffer, overwritten as well.
    Only python sequences (tuple, list) are copied. Result: (returned rows,
    caller's rows afterwards). *)
Inductive argkind := ndarray | pysequence.
(** translate.py:232-237 *)
Definition tpnorm_call (k : argkind) (a : list (R * R)) : list (R * R) * list (R * R) :=
  let r := map tpnorm a in
  (r, match k with ndarray => r | pysequence => a end).

(** translate.py:240-250 [tp2xyz] *)
Definition tp2xyz (normalize : bool) (tp : R * R) : vec3 :=
  let tp := if normalize then tpnorm tp else tp in
  let theta := fst tp in
  let phi := snd tp in
  let sint := sin theta in
  norm (V3 (sint * cos phi) (sint * sin phi) (cos theta)).

(** translate.py:240-250: result and caller's array after the call *)
Definition tp2xyz_call (k : argkind) (normalize : bool) (a : list (R * R)) : list vec3 * list (R * R) :=
  if normalize then
    let '(b, a') := tpnorm_call k a in (map (tp2xyz false) b, a')
  else (map (tp2xyz false) a, a).

(** np.isclose default rtol. Used by the np.isclose calls of translate.py:84-176, 584-642 *)
Definition rtol_default : R := / 10 ^ 5.
(** used by the np.isclose calls of translate.py:84-176, 584-642 *)
Definition atol_default : R := / 10 ^ 8.

(** translate.py:253-260 [xyz2tp]; arccos outside [-1,1] is nan in the code,
    theorems only use unit vectors *)
Definition xyz2tp (xyz : vec3) : R * R :=
  let theta := acos (vz xyz) in
  let phi := if isclose rtol_default (/ 10 ^ 10) theta 0 then PI
             else if isclose rtol_default (/ 10 ^ 10) theta PI then PI
             else arctan2 (vy xyz) (vx xyz) in
  tpnorm (theta, phi).

(** translate.py:263-268 [aa2xyz] *)
Definition aa2xyz (aa : R * R) : vec3 :=
  let t := PI / 2 - fst aa * PI / 180 in
  let p := PI / 2 - snd aa * PI / 180 in
  tp2xyz true (t, p + PI).

(** translate.py:271-276 [xyz2aa] *)
Definition xyz2aa (xyz : vec3) : R * R :=
  let tp := xyz2tp xyz in
  let tp := (fst tp, snd tp - PI) in
  ((PI / 2 - fst tp) / (PI / 180), (PI / 2 - snd tp) / (PI / 180)).

(** translate.py:279-292 [chord2theta], 295-308 [theta2chord] *)
Definition chord2theta (c : R) : R := 2 * asin (c / 2).
(** translate.py:295-308 *)
Definition theta2chord (theta : R) : R := 2 * sin (theta / 2).

(** translate.py:311-315 [ctheta], 318-320 [radians], 323-325 [degrees] *)
Definition ctheta (a b : vec3) : R := clip (dot a b) (-1) 1.
(** translate.py:318-320 *)
Definition radians (a b : vec3) : R := acos (ctheta a b).
(** translate.py:323-329 *)
Definition degrees (a b : vec3) : R := radians a b * 180 / PI.

(** np.roll(m, k, (0,1)) of a 3x3 matrix: element (i,j) moves to
    ((i+k) mod 3, (j+k) mod 3). Used at translate.py:570-576 *)
Definition mget (m : mat3) (i j : nat) : R :=
  vget (match i with O => r0 m | S O => r1 m | _ => r2 m end) j.
(** used at translate.py:570-576 *)
Definition roll3 (m : mat3) (k : Z) : mat3 :=
  let src (i : Z) := Z.to_nat ((i - k) mod 3)%Z in
  let row (i : Z) := V3 (mget m (src i) (src 0%Z)) (mget m (src i) (src 1%Z)) (mget m (src i) (src 2%Z)) in
  M3 (row 0%Z) (row 1%Z) (row 2%Z).

(** translate.py:570-576 [rmtx_elem] *)
Definition rmtx_elem (theta : R) (axis : Z) (degrees : bool) : mat3 :=
  let theta := if degrees then theta * PI / 180 else theta in
  let rmtx := M3 (V3 (cos theta) (- sin theta) 0) (V3 (sin theta) (cos theta) 0) (V3 0 0 1) in
  roll3 rmtx (axis - 2).

(** translate.py:579-581 [rotate_elem], einsum('ij,kj->ki') is m @ row *)
Definition rotate_elem (v : vec3) (theta : R) (axis : Z) (degrees : bool) : vec3 :=
  mmulv (rmtx_elem theta axis degrees) v.

(** translate.py:584-642 [rmtx_yp] for one row; np.stack(...).T transposes each
    3x3 block *)
Definition vclose (a b : vec3) : bool :=
  isclose rtol_default atol_default (vx a) (vx b)
  && isclose rtol_default atol_default (vy a) (vy b)
  && isclose rtol_default atol_default (vz a) (vz b).
(** translate.py:584-642 *)
Definition rmtx_yp (v : vec3) : mat3 * mat3 :=
  let vs := norm v in
  let v2 := V3 0 0 1 in
  let tp := xyz2tp vs in
  let e := vclose vs v2 in
  let ne := vclose vs (vopp v2) in
  let y := 3 * PI / 2 - snd tp in
  let cy := cos y in
  let sy := sin y in
  let ymtx := mtrans (M3 (V3 cy sy 0) (V3 (- sy) cy 0) (V3 0 0 1)) in
  let ymtx := if e then mid else ymtx in
  let ymtx := if ne then M3 (V3 (-1) 0 0) (V3 0 (-1) 0) (V3 0 0 1) else ymtx in
  let p := - fst tp in
  let cp := cos p in
  let sp := sin p in
  let pmtx := mtrans (M3 (V3 1 0 0) (V3 0 cp sp) (V3 0 (- sp) cp)) in
  let pmtx := if e then mid else pmtx in
  let pmtx := if ne then M3 (V3 1 0 0) (V3 0 (-1) 0) (V3 0 0 (-1)) else pmtx in
  (ymtx, pmtx).

(** translate.py:605, the documented forward and backward use of the pair *)
Definition yp_forward (m : mat3 * mat3) (v : vec3) : vec3 := mmulv (snd m) (mmulv (fst m) v).
(** translate.py:584-642 *)
Definition yp_backward (m : mat3 * mat3) (v : vec3) : vec3 :=
  mmulv (mtrans (fst m)) (mmulv (mtrans (snd m)) v).

(** translate.py:679-689 [reflect] for one ray and one normal: the reflected
    vector and its validity flag *)
Definition reflect1 (ray normal : vec3) : vec3 * bool :=
  let refl := vsub ray (vscale (2 * dot ray normal) normal) in
  (refl, isclose rtol_default atol_default (vnorm refl) 1).
(** translate.py:679-689: all pairs, (nrays, nnormals); np.squeeze(.., 0) drops
    the first axis when there is exactly one ray *)
Definition reflect (rays normals : list vec3) : list (list (vec3 * bool)) :=
  map (fun r => map (fun n => reflect1 r n) normals) rays.
(** translate.py:687-688, returnmasked=True: boolean indexing flattens *)
Definition reflect_masked (rays normals : list vec3) : list vec3 :=
  map fst (filter snd (concat (reflect rays normals))).
