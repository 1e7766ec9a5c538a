(** The runs of communicate, for C140. *)
From Coq Require Import Ascii String Lia.
From Verif Require Import Base M_Utility M_Header M_Io M_Tools M_Pipe S_Pipe M_Pipe2 S_Pipe2 L_Pipe.
Import ListNotations.
Local Open Scope list_scope.

Definition t_measure {A} (t : talking A) : nat :=
  2 * length (t_todo t) + length (t_out t) + length (t_err t) + (match t_result t with None => 1 | _ => 0 end).
Lemma t_down {A} cap (f : str -> str -> res A) t u : talk_step cap f t u -> (t_measure u < t_measure t)%nat.
Proof. intros H. destruct H; unfold t_measure; cbn [t_todo t_out t_err t_result]; rewrite ?app_length; cbn [length]; lia. Qed.
Definition t_inv {A} (f : str -> str -> res A) prog (t : talking A) : Prop :=
  t_read t ++ t_out t ++ printed (t_todo t) = printed prog /\ t_heard t ++ t_err t ++ message_text (t_todo t) = message_text prog /\
  forall r, t_result t = Some r -> t_todo t = [] /\ t_out t = [] /\ t_err t = [] /\ r = f (t_read t) (t_heard t).
Lemma t_inv_step {A} cap (f : str -> str -> res A) prog t u : t_inv f prog t -> talk_step cap f t u -> t_inv f prog u.
Proof.
  intros (I1 & I2 & I3) H. destruct H; unfold t_inv in *; cbn [t_todo t_out t_err t_read t_heard t_result printed message_text] in *.
  - rewrite <- !app_assoc. split; [exact I1|]. split; [exact I2|]. intros x E. destruct (I3 x E) as (X & _). discriminate.
  - rewrite <- !app_assoc. split; [exact I1|]. split; [exact I2|]. intros x E. destruct (I3 x E) as (X & _). discriminate.
  - rewrite <- !app_assoc. split; [exact I1|]. split; [exact I2|]. discriminate.
  - rewrite <- !app_assoc. split; [exact I1|]. split; [exact I2|]. discriminate.
  - split; [exact I1|]. split; [exact I2|]. intros x E. injection E as <-. auto.
Qed.
Lemma talk_ends {A} cap (f : str -> str -> res A) prog : (0 < cap)%nat ->
  always_ends (talk_step cap f) (talking_start prog) (fun t => t_result t = Some (f (printed prog) (message_text prog))).
Proof.
  intros C. split.
  - exists (t_measure (A:=A) (talking_start prog)). intros n y. apply run_measure. intros u v. apply t_down.
  - intros t R S. assert (t_inv f prog t) as (I1 & I2 & I3).
    { apply (run_invariant _ (t_inv f prog) _ _ (t_inv_step cap f prog)) with (2 := R). unfold t_inv. cbn. repeat split; discriminate. }
    destruct t as [todo out err got heard r]. cbn [t_todo t_out t_err t_read t_heard t_result] in *. destruct r as [r|].
    + destruct (I3 r eq_refl) as (-> & -> & -> & ->). cbn in *. rewrite app_nil_r in *. subst. reflexivity.
    + exfalso. destruct out as [|c out]; [|eapply S; apply T_read]. destruct err as [|c err]; [|eapply S; apply T_hear].
      destruct todo as [|[[|] c] todo]; [eapply S; apply T_end|eapply S; apply T_print; exact C|eapply S; apply T_message; exact C].
Qed.
