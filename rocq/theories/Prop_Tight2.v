(** Property C59: the weights of pvalue. *)
From Coq Require Import Lra String.
From Verif Require Import Base L_Base M_Header M_Io M_Imgmetric S_Imgmetric L_Imgmetric L_Tight2.
Local Open Scope R_scope.

(** C59: with the weights of pvalue a grey pixel keeps its value, and a header that states the default weights of raytools
    (0.265, 0.670, 0.065) is read like one that states none *)
Theorem C59_pvalue parse item x :
  rgb2rad [26507413 / 10 ^ 8; 67011463 / 10 ^ 8; 6481124 / 10 ^ 8] [x; x; x] = x /\
  (header_triple parse item [0.265; 0.670; 0.065] -> choose_lumrgb parse false None (Ok item) = Ok None).
Proof. exact (conj (grey x) (default_item parse item)). Qed.
Print Assumptions C59_pvalue.

Example C59_pvalue_example :
  let read := fun t => if str_eqb t (list_ascii_of_string ".265") then Some 0.265
                       else if str_eqb t (list_ascii_of_string ".67") then Some 0.670 else Some 0.065 in
  header_triple read (list_ascii_of_string ".265 .67 .065") [0.265; 0.670; 0.065].
Proof. split; [reflexivity|]. vm_compute split_words. repeat apply Forall2_cons; try apply Forall2_nil; reflexivity. Qed.
