(** Property C66: the defaults of the point spread and the values it never takes. *)
From Coq Require Import Lra.
From Verif Require Import Base BaseX M_Retina S_Retina L_Retina L_Retina2.
Local Open Scope R_scope.

(** C66: the default width is 11 minutes of arc, the default threshold 50000 cd/m2 in units of 179 cd/m2 *)
Theorem C66_defaults : Rabs (60 * fwhm0 - 11) < 1 / 1000 /\ Rabs (179 * lmin0 - 50000) < 1 / 10.
Proof. exact defaults. Qed.
Print Assumptions C66_defaults.

(** C66: a value the point spread never takes has no radius: nan below 0 and above 1, inf at 0 *)
Theorem C66_outside fwhm y : 0 < fwhm -> (y < 0 \/ 1 < y -> inv_hpsf fwhm y = NaN) /\ inv_hpsf fwhm 0 = PInf.
Proof. exact (fun H => conj (inv_hpsf_above fwhm y H) (inv_hpsf_at_zero fwhm H)). Qed.
Print Assumptions C66_outside.

Example C66_outside_example : 0 < fwhm0 /\ 1 < 1.5.
Proof. unfold fwhm0. lra. Qed.
