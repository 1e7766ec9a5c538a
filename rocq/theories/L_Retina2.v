(** The defaults of the point spread and its inverse outside (0,1], for C66. *)
From Coq Require Import Lra.
From Verif Require Import Base BaseX M_Retina S_Retina L_Retina.
Local Open Scope R_scope.

Lemma defaults : Rabs (60 * fwhm0 - 11) < 1 / 1000 /\ Rabs (179 * lmin0 - 50000) < 1 / 10.
Proof. unfold fwhm0, lmin0. split; apply Rabs_def1; lra. Qed.

Lemma inv_hpsf_above fwhm y : 0 < fwhm -> y < 0 \/ 1 < y -> inv_hpsf fwhm y = NaN.
Proof.
  intros H Hy. assert (0 < square (fwhm / 2)) as P by (apply sq_pos; lra).
  unfold inv_hpsf, xdiv, Reqb. destruct (Req_EM_T y 0); [lra|]. cbn [xadd xsqrt]. unfold Rltb.
  destruct (Rlt_dec _ 0) as [C|C]; [reflexivity|]. exfalso. apply C. clear C.
  generalize dependent (square (fwhm / 2)). intros q P. unfold Rdiv.
  destruct Hy as [Hy|Hy].
  - assert (/ y < 0) by now apply Rinv_lt_0_compat. nra.
  - assert (/ y < 1) by (rewrite <- Rinv_1; apply Rinv_1_lt_contravar; lra). nra.
Qed.
Lemma inv_hpsf_at_zero fwhm : 0 < fwhm -> inv_hpsf fwhm 0 = PInf.
Proof.
  intros H. assert (0 < square (fwhm / 2)) as P by (apply sq_pos; lra).
  unfold inv_hpsf. generalize dependent (square (fwhm / 2)). intros q P.
  assert (xdiv (Fin q) (Fin 0) = PInf) as ->; [|reflexivity].
  unfold xdiv, Reqb, xinf, Rltb. destruct (Req_EM_T 0 0); [|lra]. destruct (Rlt_dec 0 q); [reflexivity|lra].
Qed.
