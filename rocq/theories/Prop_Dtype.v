(** Properties of tpnorm and tp2xyz (translate.py): what they do to their argument, and with whole numbers (C133) *)
From Coq Require Import Reals List Lra Lia.
From Verif Require Import Base M_Translate M_Dtype L_Angles L_Dtype.
Import ListNotations.
Local Open Scope R_scope.

(** C133: the directions do not depend on the kind of the argument *)
Theorem C133_value : forall k normalize a, fst (tp2xyz_call k normalize a) = map (tp2xyz normalize) a.
Proof. exact tp2xyz_call_value. Qed.
Theorem C133_tpnorm : forall k a, fst (tpnorm_call k a) = map tpnorm a /\
  Forall (fun tp => 0 <= fst tp < PI /\ 0 <= snd tp < 2 * PI) (fst (tpnorm_call k a)) /\ snd (tpnorm_call pysequence a) = a.
Proof. exact tpnorm_call_spec. Qed.
(** the argument is kept when it is a sequence, is not to be normalized or is normal already ... *)
Theorem C133_kept_partial : forall k normalize a,
  k = pysequence \/ normalize = false \/ Forall (fun tp => 0 <= fst tp < PI /\ 0 <= snd tp < 2 * PI) a -> snd (tp2xyz_call k normalize a) = a.
Proof. exact tp2xyz_call_kept. Qed.
(** ... but other arrays are overwritten *)
Theorem C133_kept_refuted : exists a, snd (tp2xyz_call ndarray true a) <> a /\ snd (tpnorm_call ndarray a) <> a.
Proof. exact tp2xyz_call_overwrites. Qed.
(** what is left of the array stands for the same directions, and does not change any more *)
Theorem C133_again : forall k normalize a, let after := snd (tp2xyz_call k normalize a) in
  fst (tp2xyz_call k normalize after) = fst (tp2xyz_call k normalize a) /\ snd (tp2xyz_call k normalize after) = after.
Proof. exact tp2xyz_call_again. Qed.
(** whole numbers are angles like others, as long as they are normal ... *)
Theorem C133_whole_partial : forall t p, (0 <= t <= 3)%Z -> (0 <= p <= 6)%Z -> tp2xyz_whole true (t, p) = tp2xyz true (IZR t, IZR p).
Proof. exact tp2xyz_whole_ok. Qed.
(** ... but the result of normalizing others is truncated: 4 radians from the zenith becomes the zenith *)
Theorem C133_whole_refuted : forall p, tp2xyz_whole true (4%Z, p) = V3 0 0 1 /\ tp2xyz true (4, IZR p) <> V3 0 0 1.
Proof. exact tp2xyz_whole_off. Qed.
Example C133_nonvacuous : Forall (fun tp => 0 <= fst tp < PI /\ 0 <= snd tp < 2 * PI) [(3, 6); (1, 0)] /\
  tp2xyz_call ndarray true [(3, 6); (1, 0)] = (map (tp2xyz true) [(3, 6); (1, 0)], [(3, 6); (1, 0)]) /\
  tp2xyz_whole true (3%Z, 6%Z) = tp2xyz true (3, 6).
Proof.
  pose proof PI_gt_3 as G. assert (Forall (fun tp => 0 <= fst tp < PI /\ 0 <= snd tp < 2 * PI) [(3, 6); (1, 0)]) as F.
  { apply Forall_cons; [cbn [fst snd]; lra|]. apply Forall_cons; [cbn [fst snd]; lra|]. apply Forall_nil. }
  split; [exact F|]. split.
  - rewrite (surjective_pairing (tp2xyz_call _ _ _)), C133_value, C133_kept_partial; [reflexivity|]. right. right. exact F.
  - exact (tp2xyz_whole_ok 3 6 ltac:(lia) ltac:(lia)).
Qed.
Print Assumptions C133_value.
Print Assumptions C133_tpnorm.
Print Assumptions C133_kept_partial.
Print Assumptions C133_kept_refuted.
Print Assumptions C133_again.
Print Assumptions C133_whole_partial.
Print Assumptions C133_whole_refuted.
