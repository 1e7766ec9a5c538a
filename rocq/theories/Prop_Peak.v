(** Properties C56-C58, C93 and C94: peak normalisation. *)
From Coq Require Import Sorting.Permutation Sorting.Sorted Lra.
From Verif Require Import Base M_Mapper M_Io M_Peak S_Peak L_Peak L_Peak2 L_Peak3.
Local Open Scope R_scope.

(** C56: total energy (solid angle times luminance) is the same before and after, with and without keepzeros,
    in every branch, with and without the blur correction, for every order of equal luminances *)
Theorem C56_energy order blur vlambda p rays keepzeros :
  sorts_down order -> (forall a l, 0 < blur a l) -> args_ok p -> rays_ok vlambda p rays ->
  exists r, normalize_peak order blur vlambda p keepzeros rays = Ok r /\ energy vlambda r = energy vlambda rays.
Proof. exact (fun H1 H2 H3 H4 => normalize_energy order blur vlambda p rays H1 H2 H3 H4 keepzeros). Qed.
Print Assumptions C56_energy.

(** C94: with colours, each channel is conserved when a photo correction peakc > 1 is given *)
Theorem C94_channels_partial order blur vlambda p rays keepzeros :
  sorts_down order -> (forall a l, 0 < blur a l) -> args_ok p -> rays_ok vlambda p rays -> 1 < a_peakc p ->
  exists r, normalize_peak order blur vlambda p keepzeros rays = Ok r /\
    forall c, (c < length vlambda)%nat -> channel_energy c r = channel_energy c rays.
Proof. exact (fun H1 H2 H3 H4 => normalize_channels order blur vlambda p rays H1 H2 H3 H4 keepzeros). Qed.
Print Assumptions C94_channels_partial.

(** with the default peakc it is not: a partly visible source takes the colour of its brightest ray *)
Theorem C94_channels_refuted order blur : sorts_down order ->
  args_ok args1 /\ rays_ok vl3 args1 red_green /\
  exists r, normalize_peak order blur vl3 args1 false red_green = Ok r /\
    channel_energy 0 red_green = 10 /\ channel_energy 0 r = 0.
Proof. exact (channels_counterexample order blur). Qed.
Print Assumptions C94_channels_refuted.

(** C57: with a ray above the threshold, the result is the input without some rays, in order, followed by one
    new ray. The removed rays are above the threshold and within the radius of a brightest ray, which is one
    of them, and no ray kept within the radius is brighter than a removed one. *)
Theorem C57_removed order blur vlambda p rays :
  sorts_down order -> (forall a l, 0 < blur a l) -> args_ok p -> rays_ok vlambda p rays ->
  (exists i, (i < length rays)%nat /\ is_bright vlambda p (nth i rays dummy_pix)) ->
  exists kept peak removed top,
    normalize_peak order blur vlambda p false rays = Ok (kept ++ [peak]) /\
    without removed rays kept /\ In top removed /\ NoDup removed /\
    (forall i, (i < length rays)%nat ->
       rgb2rad vlambda (p_l (nth i rays dummy_pix)) <= rgb2rad vlambda (p_l (nth top rays dummy_pix))) /\
    (forall i, In i removed ->
       (i < length rays)%nat /\ is_bright vlambda p (nth i rays dummy_pix) /\
       within_radius p (nth top rays dummy_pix) (nth i rays dummy_pix)) /\
    (forall i j, In i removed -> (j < length rays)%nat -> ~ In j removed ->
       within_radius p (nth top rays dummy_pix) (nth j rays dummy_pix) ->
       rgb2rad vlambda (p_l (nth j rays dummy_pix)) <= rgb2rad vlambda (p_l (nth i rays dummy_pix))).
Proof. exact (fun H1 H2 H3 H4 => normalize_removed order blur vlambda p rays H1 H2 H3 H4). Qed.
Print Assumptions C57_removed.

(** with no ray above the threshold the rays are returned unchanged *)
Theorem C57_unchanged order blur vlambda p rays keepzeros :
  (forall i, (i < length rays)%nat -> ~ is_bright vlambda p (nth i rays dummy_pix)) ->
  normalize_peak order blur vlambda p keepzeros rays = Ok rays.
Proof. exact (normalize_dark order blur vlambda p rays keepzeros). Qed.
Print Assumptions C57_unchanged.

(** the new ray has a unit direction, within the radius of a brightest ray (radius up to a right angle) *)
Theorem C57_direction order blur vlambda p rays :
  sorts_down order -> (forall a l, 0 < blur a l) -> args_ok p -> rays_ok vlambda p rays ->
  0 <= cos (sqrt (a_peaka p / PI) * a_peakrad p) ->
  (exists i, (i < length rays)%nat /\ is_bright vlambda p (nth i rays dummy_pix)) ->
  exists kept peak top, normalize_peak order blur vlambda p false rays = Ok (kept ++ [peak]) /\
    In top rays /\ (forall r, In r rays -> rgb2rad vlambda (p_l r) <= rgb2rad vlambda (p_l top)) /\
    dot (p_v peak) (p_v peak) = 1 /\ within_radius p top peak.
Proof. exact (normalize_direction order blur vlambda p rays). Qed.
Print Assumptions C57_direction.

(** the hypotheses of C56 and C57 are met by two coloured rays *)
Example C56_example : args_ok args1 /\ rays_ok vl3 args1 red_green /\
  exists i, (i < length red_green)%nat /\ is_bright vl3 args1 (nth i red_green dummy_pix).
Proof.
  exact (conj args1_ok (conj red_green_ok (ex_intro _ 0%nat (conj (Nat.lt_0_succ 1) red_bright)))).
Qed.

(** C58: the recursion ends (as many calls as rays are enough), and the secondary sources are made of disjoint
    groups of the rays above four times the threshold that lie more than eight radii from a brightest ray;
    at most three such rays are left over *)
Theorem C58_groups fuel order sortdesc vlambda p rays :
  sorts_down order -> sorts_rays_down vlambda sortdesc -> args_ok p -> rays_ok vlambda p rays ->
  cos (sqrt (a_peaka p / PI) * a_peakrad p * 8) < 1 -> (length rays < fuel)%nat ->
  (exists i, (i < length rays)%nat /\ is_bright vlambda p (nth i rays dummy_pix)) ->
  exists top groups left strays,
    secondary fuel order sortdesc vlambda p rays = Ok strays /\
    In top rays /\ (forall r, In r rays -> rgb2rad vlambda (p_l r) <= rgb2rad vlambda (p_l top)) /\
    Permutation (filter (fun r => Rltb (4 * (a_peakt p / a_scale p)) (rgb2rad vlambda (p_l r)) &&
                                  Rltb (dot (p_v top) (p_v r)) (cos (sqrt (a_peaka p / PI) * a_peakrad p * 8))) rays)
      (concat groups ++ left) /\ (length left <= 3)%nat /\
    Forall2 (describes vlambda (cos (sqrt (a_peaka p / PI) * a_peakrad p * 8))) groups strays.
Proof. exact (secondary_spec fuel order sortdesc vlambda p rays). Qed.
Print Assumptions C58_groups.

Theorem C58_none fuel order sortdesc vlambda p rays :
  (forall i, (i < length rays)%nat -> ~ is_bright vlambda p (nth i rays dummy_pix)) ->
  secondary fuel order sortdesc vlambda p rays = Ok [].
Proof. exact (secondary_dark fuel order sortdesc vlambda p rays). Qed.
Print Assumptions C58_none.

(** five rays, four of them strays far from the brightest, form one group *)
Example C58_example : args_ok args8 /\ rays_ok [1] args8 far_rays /\
  cos (sqrt (a_peaka args8 / PI) * a_peakrad args8 * 8) < 1 /\
  (exists i, (i < length far_rays)%nat /\ is_bright [1] args8 (nth i far_rays dummy_pix)) /\
  length (filter (fun r => Rltb (4 * (a_peakt args8 / a_scale args8)) (rgb2rad [1] (p_l r)) &&
      Rltb (dot (p_v (nth 0 far_rays dummy_pix)) (p_v r)) (cos (sqrt (a_peaka args8 / PI) * a_peakrad args8 * 8)))
      far_rays) = 4%nat.
Proof. exact far_example. Qed.

(** C93: without corrections and with pixels no larger than the tolerated part of the source area, no ray of
    the result is brighter than the brightest ray of the input *)
Theorem C93_luminance_partial order blur vlambda p rays :
  sorts_down order -> (forall a l, 0 < blur a l) -> args_ok p -> rays_ok vlambda p rays ->
  a_peakc p = 1 -> a_blursun p = false -> 0 < a_blurtol p <= 1 ->
  (forall r, In r rays -> p_o r <= a_blurtol p * a_peaka p) ->
  exists res, normalize_peak order blur vlambda p false rays = Ok res /\
    forall r, In r res -> exists r0, In r0 rays /\ rgb2rad vlambda (p_l r) <= rgb2rad vlambda (p_l r0).
Proof. exact (normalize_luminance order blur vlambda p rays). Qed.
Print Assumptions C93_luminance_partial.

(** a pixel larger than the source defeats it: the source is three times brighter than every input ray *)
Theorem C93_luminance_refuted order blur : sorts_down order ->
  args_ok args1 /\ rays_ok [1] args1 coarse /\
  exists r peak, normalize_peak order blur [1] args1 false coarse = Ok r /\ In peak r /\
    forall r0, In r0 coarse -> 3 * rgb2rad [1] (p_l r0) < rgb2rad [1] (p_l peak).
Proof. exact (luminance_counterexample order blur). Qed.
Print Assumptions C93_luminance_refuted.

(** the hypotheses of C93_luminance_partial *)
Example C93_example : args_ok args1 /\ rays_ok vl3 args1 red_green /\ a_peakc args1 = 1 /\ a_blursun args1 = false /\
  0 < a_blurtol args1 <= 1 /\ forall r, In r red_green -> p_o r <= a_blurtol args1 * a_peaka args1.
Proof. exact red_green_small. Qed.

(** the hypotheses on the sorts are met *)
Example sorts_example : exists order, sorts_down order.
Proof. exact sort_down_exists. Qed.
Example sorts_rays_example vlambda : exists sortdesc, sorts_rays_down vlambda sortdesc.
Proof. exact (sort_rays_down_exists vlambda). Qed.
