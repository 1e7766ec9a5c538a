(** Property C88: the rounding of the frame size. *)
From Coq Require Import ZArith Reals.
From Verif Require Import Base M_Translate M_Mapper L_Tight4.
Local Open Scope R_scope.

(** C88: a side half way between two integers is rounded to the even one *)
Theorem C88_half m res k :
  (m_aspect m < 1 -> IZR res * m_aspect m = IZR k + 1 / 2 -> Z.Even (fst (m_framesize m res))) /\
  (1 <= m_aspect m -> IZR res / m_aspect m = IZR k + 1 / 2 -> Z.Even (snd (m_framesize m res))).
Proof. exact (framesize_half m res k). Qed.
Print Assumptions C88_half.
Example C88_half_example d : exists m, m_aspect m = 1 / 2 /\ IZR 5 * m_aspect m = IZR 2 + 1 / 2 /\ m = mk_mapper d (1, 1) ((0, 0), (1, 1)) (Some (1 / 2)) 0 0.
Proof. exact (half_example d). Qed.
