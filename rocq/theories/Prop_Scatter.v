(** Property C144: the light scattered in the eye. *)
From Coq Require Import Lra.
From Verif Require Import Base M_Mapper M_Gss S_Gss L_Scatter.
Local Open Scope R_scope.

(** C144: the further from a source, the less of its light: the point spread function and the line spread function fall
    strictly with the angle, the same to both sides *)
Theorem C144_angle age pigment pupd p q : 0 <= age <= 100 -> 0 < pigment < 1 -> 1 / 4 <= pupd <= 100 ->
  0 <= p < q -> q <= PI / 2 ->
  spread f_b (psf_coef age pigment pupd) q < spread f_b (psf_coef age pigment pupd) p /\
  spread l_b (psf_coef age pigment pupd) q < spread l_b (psf_coef age pigment pupd) p.
Proof.
  exact (fun A G D P Q => conj (spread_falls f_b age pigment pupd p q f_b_falls A G D P Q)
                               (spread_falls l_b age pigment pupd p q l_b_falls A G D P Q)).
Qed.
Print Assumptions C144_angle.
Theorem C144_even age pigment pupd phi :
  spread f_b (psf_coef age pigment pupd) (- phi) = spread f_b (psf_coef age pigment pupd) phi /\
  spread l_b (psf_coef age pigment pupd) (- phi) = spread l_b (psf_coef age pigment pupd) phi.
Proof. exact (spread_even age pigment pupd phi). Qed.
Print Assumptions C144_even.
(** C144: the part of the light that is scattered widely (the last two of the four components) grows with age *)
Theorem C144_age a1 a2 pigment pupd : 0 <= a1 < a2 -> 0 < pigment < 1 ->
  nth 2 (snd (psf_coef a1 pigment pupd)) 0 + nth 3 (snd (psf_coef a1 pigment pupd)) 0 <
  nth 2 (snd (psf_coef a2 pigment pupd)) 0 + nth 3 (snd (psf_coef a2 pigment pupd)) 0.
Proof. exact (wide_age a1 a2 pigment pupd). Qed.
Print Assumptions C144_age.
(** C144: and with the pigmentation parameter, which is larger for lighter eyes *)
Theorem C144_pigment age p1 p2 pupd : 0 < p1 < p2 -> p2 < 1 ->
  nth 2 (snd (psf_coef age p1 pupd)) 0 + nth 3 (snd (psf_coef age p1 pupd)) 0 <
  nth 2 (snd (psf_coef age p2 pupd)) 0 + nth 3 (snd (psf_coef age p2 pupd)) 0.
Proof. exact (wide_pigment age p1 p2 pupd). Qed.
Print Assumptions C144_pigment.
Example C144_example : 0 <= 20 <= 100 /\ 0 < 0.106 < 1 /\ 1 / 4 <= 3.2 <= 100 /\ 0 <= 0.1 < 0.2 /\ 0 <= 20 < 60 /\ 0 < 0.056 < 0.106.
Proof. lra. Qed.
