(** Property C158: rays below the threshold do not matter. *)
From Verif Require Import Base M_Translate M_Io M_Peak S_Peak L_Peak3 S_Dark L_Dark.
Import ListNotations.
Local Open Scope R_scope.

(** C158: two lists with the same bright rays give the same source, made of the same rays; the other rays stay *)
Theorem C158_peak order blur w p rays rays' : sorts_down order -> by_argsort order -> bright_part w p rays = bright_part w p rays' ->
  alike w p rays rays' (normalize_peak order blur w p false rays) (normalize_peak order blur w p false rays').
Proof. exact (dark_peak' order blur w p rays rays'). Qed.
Print Assumptions C158_peak.
(** C158: and the same secondary sources *)
Theorem C158_secondary fuel order sortdesc w p rays rays' : sorts_down order -> by_argsort order -> bright_part w p rays = bright_part w p rays' ->
  secondary fuel order sortdesc w p rays = secondary fuel order sortdesc w p rays'.
Proof. exact (dark_secondary' fuel order sortdesc w p rays rays'). Qed.
Print Assumptions C158_secondary.
(** such a sort; two lists with the same two bright rays *)
Example C158_sort : exists order, sorts_down order /\ by_argsort order.
Proof. exact argsort_exists. Qed.
Example C158_example : bright_part [1] args1 [Pix up 1 [10]; Pix up 2.5 [8]] = bright_part [1] args1 [Pix up 3 [0]; Pix up 1 [10]; Pix vzero 7 [-5]; Pix up 2.5 [8]] /\
  length (bright_part [1] args1 [Pix up 1 [10]; Pix up 2.5 [8]]) = 2%nat.
Proof. exact dark_example. Qed.
