(** What C158 speaks about. *)
From Coq Require Import Sorting.Permutation.
From Verif Require Import Base M_Io M_Peak.
Import ListNotations.
Local Open Scope R_scope.

(** the rays above the threshold, and the others, in their order *)
Definition bright_part (w : list R) (p : peak_args) : list pix -> list pix := filter (fun r => Rltb (a_peakt p / a_scale p) (rgb2rad w (p_l r))).
Definition dim_part (w : list R) (p : peak_args) : list pix -> list pix := filter (fun r => negb (Rltb (a_peakt p / a_scale p) (rgb2rad w (p_l r)))).
(** the sort is l[argsort(keys of l)], where argsort sees the keys only and returns each position once *)
Definition by_argsort (order : (nat -> R) -> list nat -> list nat) : Prop :=
  exists argsort : list R -> list nat, (forall xs, Permutation (argsort xs) (seq 0 (length xs))) /\
    forall key l, order key l = map (fun k => nth k l 0%nat) (argsort (map key l)).
(** two results for two lists of rays: both unchanged, or with the same new ray at the end, the same bright rays kept, and all other rays kept; or the same exception *)
Definition alike w p (rays rays' : list pix) (a b : res (list pix)) : Prop :=
  match a, b with
  | Ok r, Ok r' => (r = rays /\ r' = rays') \/ exists kept kept' q, r = kept ++ [q] /\ r' = kept' ++ [q] /\
      bright_part w p kept = bright_part w p kept' /\ dim_part w p kept = dim_part w p rays /\ dim_part w p kept' = dim_part w p rays'
  | Raise e, Raise e' => e = e' | _, _ => False end.
