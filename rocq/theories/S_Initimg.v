(** What C125 and C126 speak about. *)
From Coq Require Import Ascii String Sorted.
From Verif Require Import Base M_Mapper M_Header M_Initimg S_Mapper S_Rotate.
Import ListNotations.
Local Open Scope R_scope.

(** * C125 *)
(** the projections and their documented names *)
Inductive projection := Equiangular | Equisolid | Square.
Inductive names : str -> projection -> Prop :=
| n_a r : names ("a"%char :: r) Equiangular
| n_A r : names ("A"%char :: r) Equiangular
| n_vta : names (s "vta") Equiangular
| n_fish r : names (s "fish" ++ r) Equiangular
| n_e r : names ("e"%char :: r) Equisolid
| n_E r : names ("E"%char :: r) Equisolid
| n_vte : names (s "vte") Equisolid
| n_u r : names ("u"%char :: r) Square
| n_U r : names ("U"%char :: r) Square
| n_square : names (s "square") Square.
(** the view type in the header *)
Definition label (p : projection) : str := match p with Equiangular => s "vta" | Equisolid => s "vte" | Square => s "vuv" end.
(** the header h names the projection p and is otherwise the header of an equiangular image *)
Definition header_as (p : projection) (equiangular h : str) : Prop :=
  exists rest, equiangular = s "VIEW= -vta" ++ rest /\ h = s "VIEW= -" ++ label p ++ rest.
(** the centre of pixel (i, j) lies inside the circle inscribed in n x n pixels *)
Definition in_circle (n i j : Z) : Prop := ((2 * i + 1 - n) * (2 * i + 1 - n) + (2 * j + 1 - n) * (2 * j + 1 - n) < n * n)%Z.
(** row by row *)
Definition before (p q : Z * Z) : Prop := (fst p < fst q \/ fst p = fst q /\ snd p < snd q)%Z.
(** the pixels with P of an image with h x w pixels, row by row *)
Definition lists_pixels (h w : Z) (P : Z -> Z -> Prop) (l : list (Z * Z)) : Prop :=
  StronglySorted before l /\ forall i j, In (i, j) l <-> ((0 <= i < h)%Z /\ (0 <= j < w)%Z /\ P i j).
(** a mask of the pixels with P, as index pairs or as booleans *)
Definition masks (h w : Z) (P : Z -> Z -> Prop) (indices : bool) (m : mask) : Prop :=
  if indices then exists l, m = Pairs l /\ lists_pixels h w P l
  else exists l, m = Flat l /\ Z.of_nat (List.length l) = (h * w)%Z /\
       forall i j, (0 <= i < h)%Z -> (0 <= j < w)%Z -> nth (Z.to_nat (i * w + j)) l false = true <-> P i j.
(** the same for all planes of an image *)
Definition masks_planes (features h w : Z) (P : Z -> Z -> Prop) (indices : bool) (m : mask) : Prop :=
  if (1 <? features)%Z && indices
  then exists l, m = Triples l /\ NoDup l /\ forall f i j, In (f, i, j) l <-> ((0 <= f < features)%Z /\ (0 <= i < h)%Z /\ (0 <= j < w)%Z /\ P i j)
  else masks h w P indices m.
(** the shape of an image of h x w pixels *)
Definition shape_of (features h w : Z) : list Z := if (1 <? features)%Z then [features; h; w] else [h; w].
(** the vector of pixel (i, j) *)
Definition vec_at (r : initimg) (w i j : Z) : vec3 := nth (Z.to_nat (i * w + j)) (i_vecs r) vzero.
(** one vector for each pixel of h x w *)
Definition vecs_fill (r : initimg) (h w : Z) : Prop := i_vecs_shape r = [h; w; 3]%Z /\ Z.of_nat (List.length (i_vecs r)) = (h * w)%Z.

(** * C126 *)
(** q lies in the square of 2 g + 1 pixels around p *)
Definition near (g : Z) (p q : Z * Z) : Prop := (Z.abs (fst p - fst q) <= g /\ Z.abs (snd p - snd q) <= g)%Z.
(** all pixels of the image are k *)
Definition constant (im : image R) (k : R) : Prop := forall x y, in_image im (x, y) -> im_px im x y = k.
(** the pixels a vector list falls on *)
Definition hit {A} (im : image A) (pixel : vec3 -> Z * Z) (vs : list vec3) (p : Z * Z) : Prop := in_image im p /\ exists v, In v vs /\ pixel v = p.
(** every square around these pixels lies within the image, and no two of them overlap *)
Definition apart (im : image R) (g : Z) (P : Z * Z -> Prop) : Prop :=
  (forall p q, P p -> near g p q -> in_image im q) /\ forall p q r, P p -> P q -> near g p r -> near g q r -> p = q.
(** what is drawn around the pixels P of a blank image: nothing away from their squares, something in them, and the
    value c if they do not touch *)
Definition grown (im out : image R) (c : R) (P : Z * Z -> Prop) (g : Z) : Prop :=
  im_nx out = im_nx im /\ im_ny out = im_ny im /\
  (forall p, in_image im p -> (forall q, P q -> ~ near g q p) -> im_px out (fst p) (snd p) = 0) /\
  (0 < c -> forall p q, in_image im p -> P q -> near g q p -> 0 < im_px out (fst p) (snd p)) /\
  (apart im g P -> forall p q, in_image im p -> P q -> near g q p -> im_px out (fst p) (snd p) = c).
(** an image of n x n zeros, and the vector through the centre of a pixel *)
Definition blank (n : Z) : image R := Img n n (fun _ _ => 0).
Definition ray (d : vec3) (va : R) (n i j : Z) : vec3 := pixel2ray (mk_view d va) n (pixel_centre i j).
