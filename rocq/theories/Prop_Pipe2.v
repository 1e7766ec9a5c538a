(** Property C140: the header is read through two pipes without waiting for ever. *)
From Coq Require Import Ascii String Lia.
From Verif Require Import Base M_Utility M_Header M_Io M_Tools M_Pipe S_Pipe M_Pipe2 S_Pipe2 L_Pipe4.
Import ListNotations.
Local Open Scope list_scope.

(** C140: hdr_header comes to an end in every order of the steps, however much getinfo prints to both outputs, and its result
    depends on the two texts only (contrast C140_messages_refuted) *)
Theorem C140_header cap utf8 fill imgf mode prog : (0 < cap)%nat ->
  always_ends (talk_step cap (header_from utf8 fill imgf mode)) (talking_start prog)
    (fun t => t_result t = Some (header_from utf8 fill imgf mode (printed prog) (message_text prog))).
Proof. exact (talk_ends cap (header_from utf8 fill imgf mode) prog). Qed.
Print Assumptions C140_header.

(** three messages with a pipe for one byte, and a result that depends on them *)
Example C140_header_example :
  let prog := map (fun c => (Err, c)) (s "bad header!") ++ [(Out, "x"%char)] in
  (0 < 1)%nat /\ header_from Some (fun _ l _ => l) (s "a.hdr") AsIs (printed prog) (message_text prog) = Raise (OtherError 2) /\
  header_from Some (fun _ l _ => l) (s "a.hdr") AsIs (s "EXPOSURE=1") [] = Ok [s "EXPOSURE=1"].
Proof. cbv zeta. split; [lia|]. split; reflexivity. Qed.
