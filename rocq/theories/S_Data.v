(** Specifications used by the statements about the data functions of raytools/translate.py. They do not refer
    to the model except for the types of images and arrays. *)
From Coq Require Import Sorting.Permutation Sorting.Sorted.
From Verif Require Import Base M_Mapper.
Local Open Scope R_scope.

(** a sort of (key, value) pairs by key: any order of equal keys *)
Definition sorts (argsort : list (R * R) -> list (R * R)) : Prop :=
  forall l, Permutation (argsort l) l /\ StronglySorted (fun a b => fst a <= fst b) (argsort l).

(** x is one of the data whose weight is above the threshold *)
Definition included (dw : list (R * R)) (t x : R) : Prop := exists w, In (x, w) dw /\ t < w.
Definition smallest (P : R -> Prop) (m : R) : Prop := P m /\ forall x, P x -> m <= x.
Definition largest (P : R -> Prop) (m : R) : Prop := P m /\ forall x, P x -> x <= m.

(** v is the linear interpolation quantile of the ascending data l *)
Definition linear_quantile (l : list R) (q v : R) : Prop :=
  exists (k : nat) (frac : R),
    (k < length l)%nat /\ 0 <= frac < 1 /\ INR k + frac = q * (INR (length l) - 1) /\
    v = (1 - frac) * nth k l 0 + frac * nth (k + 1) l 0.

(** total weight of the data that satisfy a test *)
Definition weight_of (test : R -> bool) (dw : list (R * R)) : R :=
  fold_right Rplus 0 (map snd (filter (fun p => test (fst p)) dw)).

(** the values of a sum over a rectangular block of pixels *)
Definition zsum (n : Z) (f : Z -> R) : R :=
  fold_right Rplus 0 (map (fun k => f (Z.of_nat k)) (seq 0 (Z.to_nat n))).
Definition block_mean (kx ky : Z) (f : Z -> Z -> R) (i j : Z) : R :=
  zsum ky (fun b => zsum kx (fun a => f (i * kx + a)%Z (j * ky + b)%Z)) / (IZR kx * IZR ky).

(** two images agree: same shape, same value at every pixel *)
Definition same_image {A} (a b : image A) : Prop :=
  im_nx a = im_nx b /\ im_ny a = im_ny b /\
  forall i j, (0 <= i < im_nx a)%Z -> (0 <= j < im_ny a)%Z -> im_px a i j = im_px b i j.

(** a band width is absent or at least one sample *)
Definition bw_ok (bw : option Z) : Prop := match bw with Some b => (1 <= b)%Z | None => True end.

(** the neighbour lists of n points: list j has the points i with close i j, each once *)
Definition neighbours (n : nat) (close : nat -> nat -> Prop) (p : nat -> list nat) : Prop :=
  forall j, (j < n)%nat -> NoDup (p j) /\ forall i, In i (p j) <-> (i < n)%nat /\ close i j.

(** what simple_take selects along an axis of length n for one index specification *)
From Verif Require Import M_Data.
Definition wrapped (n v : Z) : Z := if (v <? 0)%Z then (v + n)%Z else v.
Definition chosen (spec : take_spec) (n : Z) (l : list Z) : Prop :=
  match spec with
  | TNone => l = map Z.of_nat (seq 0 (Z.to_nat n))
  | TSeq v => l = map (wrapped n) v /\ Forall (fun i => (0 <= i < n)%Z) l
  | TSlice start stop step =>
      let s := match step with Some s => s | None => 1%Z end in
      if (0 <? s)%Z then
        let a := match start with Some v => wrapped n v | None => 0%Z end in
        let b := match stop with Some v => wrapped n v | None => n end in
        StronglySorted Z.lt l /\
        forall i, In i l <-> (a <= i < b)%Z /\ (0 <= i < n)%Z /\ ((i - Z.max a 0) mod s)%Z = 0%Z
      else
        let a := match start with Some v => wrapped n v | None => (n - 1)%Z end in
        let b := match stop with Some v => wrapped n v | None => (-1)%Z end in
        StronglySorted Z.gt l /\
        forall i, In i l <-> (b < i <= a)%Z /\ (0 <= i < n)%Z /\ ((Z.min a (n - 1) - i) mod (- s))%Z = 0%Z
  end.

(** the specification given for axis d *)
Fixpoint spec_for (d : Z) (l : list (take_spec * Z)) : take_spec :=
  match l with
  | [] => TNone
  | (s, j) :: l => if (j =? d)%Z then s else spec_for d l
  end.

(** a multi index inside a shape *)
Definition inside (shape idx : list Z) : Prop := Forall2 (fun n i => (0 <= i < n)%Z) shape idx.
