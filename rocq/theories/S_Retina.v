(** Specifications for the retina functions. *)
From Verif Require Import Base BaseX.
Local Open Scope R_scope.

(** a result that is a finite number satisfying P *)
Definition yields (P : R -> Prop) (x : xr) : Prop := exists r, x = Fin r /\ P r.

(** the meridians of a point of the visual field: 0 temporal, 1 superior, 2 nasal, 3 inferior, by the sign of
    each coordinate (what the documentation "selected by quadrant" says) *)
Definition x_meridian (x : R) : nat := if Rlt_dec 0 x then 0%nat else 2%nat.
Definition y_meridian (y : R) : nat := if Rlt_dec 0 y then 1%nat else 3%nat.
Definition uses_own_quadrant (density : (R -> nat -> R) -> R * R -> R) : Prop :=
  forall func x y, (forall r m, 0 < func r m) -> 0 < x * x + y * y ->
    let r := sqrt (x * x + y * y) in
    density func (x, y) = (r * r) / (x * x / func r (x_meridian x) + y * y / func r (y_meridian y)).
