(** Properties C69, C70 and C71: the constants of the responses. *)
From Coq Require Import Lra Lia.
From Verif Require Import Base M_Mapper M_Gss S_Gss L_Gss2 L_Tight3.
Local Open Scope R_scope.

(** C71: the 31 widths are a geometric series from 0.009 to 0.12 *)
Theorem C71_geometric :
  (forall i, (i < 31)%nat -> nth i steps 0 = 0.009 * Rpower (0.12 / 0.009) (INR i / 30)) /\
  (forall i, (i < 30)%nat -> nth (S i) steps 0 / nth i steps 0 = Rpower (0.12 / 0.009) (1 / 30)).
Proof. exact (conj step_nth step_ratio). Qed.
Print Assumptions C71_geometric.
Example C71_geometric_example : (15 < 30)%nat.
Proof. lia. Qed.
(** C70: within the view the odds of the on response are exp (22 (r - 0.25)), those of the off response exp (-22 (r + 0.25)) *)
Theorem C70_odds r :
  let p := normalized_field_response true r in
  fst p / (1 - fst p) = exp (22 * (r - 0.25)) /\ snd p / (1 - snd p) = exp (- (22 * (r + 0.25))).
Proof. exact (response_odds r). Qed.
Print Assumptions C70_odds.
(** C69: the odds of the cone response are the 0.74th power of the irradiance in units of the half saturation *)
Theorem C69_odds e_r e_a v : 0 < e_r -> 0 <= e_a -> cone_response e_r e_a = Ok v ->
  v / (1 - v) = Rpower (e_r / half_saturation e_a) 0.74.
Proof. exact (cone_odds e_r e_a v). Qed.
Print Assumptions C69_odds.
Example C69_odds_example : 0 < 1 /\ 0 <= 2 /\ exists v, cone_response 1 2 = Ok v.
Proof.
  exact (conj Rlt_0_1 (conj (Rlt_le 0 2 Rlt_0_2) (match cone_ok 1 2 ltac:(lra) ltac:(lra) with ex_intro _ v (conj H _) => ex_intro _ v H end))).
Qed.
