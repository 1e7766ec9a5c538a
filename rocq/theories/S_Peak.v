(** Specifications used by the statements about peak normalisation. *)
From Coq Require Import Sorting.Permutation Sorting.Sorted.
From Verif Require Import Base M_Io M_Peak.
Local Open Scope R_scope.

(** energy of a list of rays: sum of solid angle times luminance, or times one channel *)
Definition energy (vlambda : list R) (rays : list pix) : R :=
  Rsum (map (fun r => p_o r * rgb2rad vlambda (p_l r)) rays).
Definition channel_energy (c : nat) (rays : list pix) : R :=
  Rsum (map (fun r => p_o r * nth c (p_l r) 0) rays).

(** a sort of indices by descending key, any order of equal keys *)
Definition sorts_down (order : (nat -> R) -> list nat -> list nat) : Prop :=
  forall key l, Permutation (order key l) l /\ StronglySorted (fun i j => key j <= key i) (order key l).
(** the same for rays and their luminance *)
Definition sorts_rays_down (vlambda : list R) (sortdesc : list pix -> list pix) : Prop :=
  forall l, Permutation (sortdesc l) l /\
            StronglySorted (fun a b => rgb2rad vlambda (p_l b) <= rgb2rad vlambda (p_l a)) (sortdesc l).

(** ray i is brighter than the threshold; within the grouping radius of ray j *)
Definition is_bright (vlambda : list R) (p : peak_args) (r : pix) : Prop :=
  a_peakt p / a_scale p < rgb2rad vlambda (p_l r).
Definition within_radius (p : peak_args) (a b : pix) : Prop :=
  cos (sqrt (a_peaka p / PI) * a_peakrad p) < dot (p_v a) (p_v b).

(** sensible arguments and rays: a threshold that is not negative, a positive area, and a grouping radius
    between 0 and pi; unit directions with one value per channel, and bright rays with a solid angle *)
Definition args_ok (p : peak_args) : Prop :=
  0 < a_scale p /\ 0 <= a_peakt p /\ 0 < a_peaka p /\ 0 < sqrt (a_peaka p / PI) * a_peakrad p <= PI.
Definition rays_ok (vlambda : list R) (p : peak_args) (rays : list pix) : Prop :=
  Forall (fun r => dot (p_v r) (p_v r) = 1 /\ length (p_l r) = length vlambda /\
                   (is_bright vlambda p r -> 0 < p_o r)) rays.

(** l with the positions in [removed] left out, in order *)
Definition without (removed : list nat) (l : list pix) (r : list pix) : Prop :=
  exists kept : list nat, StronglySorted lt kept /\
    (forall i, In i kept <-> (i < length l)%nat /\ ~ In i removed) /\
    r = map (fun i => nth i l dummy_pix) kept.

(** a reported secondary source describes a group of rays: its area is their total solid angle, area times
    each channel is their energy in the channel, the direction is the mean of their directions, and all lie
    within an angle, of which the cosine is given, of the brightest of them *)
Definition describes (vlambda : list R) (cosr : R) (g : list pix) (s : stray) : Prop :=
  s_o s = Rsum (map p_o g) /\
  s_v s = vscale (/ INR (length g)) (fold_right (fun r a => vadd (p_v r) a) vzero g) /\
  (forall c, (c < length vlambda)%nat -> s_o s * nth c (s_l s) 0 = channel_energy c g) /\
  exists top, In top g /\
    forall r, In r g -> rgb2rad vlambda (p_l r) <= rgb2rad vlambda (p_l top) /\ cosr < dot (p_v top) (p_v r).
(** the examples: the zenith, the weights of red, green and blue, the options of normalize_peak, the rays *)
Definition up : vec3 := V3 0 0 1.
Definition vl3 : list R := [0.265; 0.670; 0.065].
Definition args1 : peak_args := PeakArgs 1 PI 0 4 0.75 1 1 false.
Definition red_green : list pix := [Pix up 1 [10; 0; 0]; Pix up 1 [0; 8; 0]].
Definition coarse : list pix := [Pix up 5 [10]; Pix up 100 [1]].
