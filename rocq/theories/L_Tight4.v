(** Lemmas that tighten C88. *)
From Coq Require Import Lra Lia.
From Verif Require Import Base L_Base M_Translate M_Mapper L_Mapper2.
Local Open Scope R_scope.

Lemma pyround_half k : Z.Even (pyround (IZR k + 1 / 2)).
Proof.
  assert (F : Rfloor (IZR k + 1 / 2) = k).
  { pose proof (Rfloor_spec (IZR k + 1 / 2)) as [A B]. set (n := Rfloor _) in *. clearbody n.
    assert (n < k + 1)%Z by (apply lt_IZR; rewrite plus_IZR; lra). assert (k < n + 1)%Z by (apply lt_IZR; rewrite plus_IZR; lra). lia. }
  unfold pyround. rewrite F. replace (IZR k + 1 / 2 - IZR k) with (1 / 2) by ring. unfold Rgtb. case_Rltb (1 / 2) (1 / 2); [lra|].
  destruct (Z.even k) eqn:Ev; [now apply Z.even_spec|]. apply Z.even_spec. rewrite Z.even_add, Ev. reflexivity.
Qed.
Lemma framesize_half m res k :
  (m_aspect m < 1 -> IZR res * m_aspect m = IZR k + 1 / 2 -> Z.Even (fst (m_framesize m res))) /\
  (1 <= m_aspect m -> IZR res / m_aspect m = IZR k + 1 / 2 -> Z.Even (snd (m_framesize m res))).
Proof.
  unfold m_framesize. case_Rltb (m_aspect m) 1; split; try lra; intros _ Ex; cbn [fst snd]; rewrite Ex; apply pyround_half.
Qed.
Lemma half_example d : exists m, m_aspect m = 1 / 2 /\ IZR 5 * m_aspect m = IZR 2 + 1 / 2 /\ m = mk_mapper d (1, 1) ((0, 0), (1, 1)) (Some (1 / 2)) 0 0.
Proof. eexists. split; [|split; [|reflexivity]]; cbn; lra. Qed.
