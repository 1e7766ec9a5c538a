(** Lemmas on the weights of pvalue. *)
From Coq Require Import Lra String.
From Verif Require Import Base L_Base BaseX M_Translate M_Mapper M_Header M_Io M_Data M_Imgmetric S_Imgmetric L_Imgmetric.
Local Open Scope R_scope.

Lemma grey x : rgb2rad pvalue_weights [x; x; x] = x.
Proof. unfold rgb2rad, pvalue_weights, Rsum. cbn [combine map fold_right fst snd]. field. Qed.
Lemma default_close : all_close pvalue_weights radiance_weights = true.
Proof.
  unfold all_close, pvalue_weights, radiance_weights, isclose. cbn [combine forallb fst snd].
  repeat (apply andb_true_intro; split); try reflexivity; apply Rleb_true; apply Rabs_le; split.
  all: rewrite Rabs_pos_eq by lra; lra.
Qed.
Lemma default_item parse item : header_triple parse item radiance_weights ->
  choose_lumrgb parse false None (Ok item) = Ok None.
Proof. intros H. rewrite (header_choice _ _ _ _ H), default_close. reflexivity. Qed.
