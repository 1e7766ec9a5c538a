(** Model of xyz2skybin with a tolerance (raytools/translate.py) *)
From Coq Require Import List.
From Verif Require Import Base M_Translate.
Import ListNotations.
Local Open Scope R_scope.

(** one step of np.unique. Used at translate.py:183 *)
Fixpoint insert_new (x : Z) (l : list Z) : list Z :=
  match l with
  | [] => [x]
  | y :: t => if (x <? y)%Z then x :: l else if (x =? y)%Z then l else y :: insert_new x t
  end.
(** np.unique of integers: sorted, without repetition. Used at translate.py:183 *)
Definition unique (l : list Z) : list Z := fold_right insert_new [] l.
(** translate.py:181-182: np.stack(np.meshgrid(uvi, uvi)).reshape(2, 9).T; the first column changes fastest *)
Definition tol_grid (t : R) : list (R * R) := flat_map (fun b => map (fun a => (a, b)) [- t; 0; t]) [- t; 0; t].
(** sum of two rows. Used at translate.py:182 *)
Definition row_add (a b : R * R) : R * R := (fst a + fst b, snd a + snd b).
(** translate.py:182: nine rows of offsets plus the rows of uv, by the broadcasting rule of numpy *)
Definition add_offsets (grid uv : list (R * R)) : res (list (R * R)) :=
  match uv with
  | [p] => Ok (map (fun d => row_add d p) grid)
  | _ => if Nat.eqb (length uv) (length grid) then Ok (map (fun q => row_add (fst q) (snd q)) (combine grid uv)) else Raise ValueError
  end.
(** translate.py:176-187 [xyz2skybin]; vs are the rows of xyz *)
Definition skybins (vs : list vec3) (side : Z) (tol : R) (normalize : bool) : res (list Z) :=
  let uv := map (xyz2uv normalize xyz_axes false) vs in
  if Rgtb tol 0 then
    bind (add_offsets (tol_grid (tol / IZR side)) uv) (fun uvs =>
    Ok (filter (fun b => (b <? side * side)%Z) (unique (map (fun p => uv2bin p side) uvs))))
  else Ok (map (fun p => uv2bin p side) uv).
