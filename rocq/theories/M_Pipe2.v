(** Model of Popen(...).communicate() with both outputs in pipes, as in hdr_header (raytools/io.py): both pipes are read until the
    program ends. *)
From Coq Require Import Ascii String.
From Verif Require Import Base M_Utility M_Header M_Io M_Tools M_Pipe.
Import ListNotations.
Local Open Scope list_scope.

(** what getinfo has still to print, both pipes, what was read from each, and the result. Io.py:306-307 *)
Record talking (A : Type) := Talking { t_todo : list (stream * ascii); t_out : str; t_err : str; t_read : str; t_heard : str; t_result : option (res A) }.
Arguments Talking {A}.
Arguments t_todo {A}.
Arguments t_out {A}.
Arguments t_err {A}.
Arguments t_read {A}.
Arguments t_heard {A}.
Arguments t_result {A}.
(** after Popen, io.py:306 *)
Definition talking_start {A} (prog : list (stream * ascii)) : talking A := Talking prog [] [] [] [] None.
(** one step of getinfo or of communicate, which waits for both pipes at the same time, io.py:306-307; [f] is the rest of hdr_header *)
Inductive talk_step {A} (cap : nat) (f : str -> str -> res A) : talking A -> talking A -> Prop :=
| T_print c todo out err got heard r : (length out < cap)%nat ->
    talk_step cap f (Talking ((Out, c) :: todo) out err got heard r) (Talking todo (out ++ [c]) err got heard r)
| T_message c todo out err got heard r : (length err < cap)%nat ->
    talk_step cap f (Talking ((Err, c) :: todo) out err got heard r) (Talking todo out (err ++ [c]) got heard r)
| T_read c todo out err got heard :
    talk_step cap f (Talking todo (c :: out) err got heard None) (Talking todo out err (got ++ [c]) heard None)
| T_hear c todo out err got heard :
    talk_step cap f (Talking todo out (c :: err) got heard None) (Talking todo out err got (heard ++ [c]) None)
| T_end got heard :
    talk_step cap f (Talking [] [] [] got heard None) (Talking [] [] [] got heard (Some (f got heard))).
(** io.py:305-326 [hdr_header] when getinfo prints [out] and [err]; [utf8] is bytes.decode, None if it fails *)
Definition header_from (utf8 : str -> option str) (fill : nat -> str -> str -> str) (imgf : str) (mode : header_mode) (out err : str) : res (list str) :=
  hdr_header (P:=unit) (Tools (fun _ => None) (fun _ => (utf8 out, err))) fill imgf mode.
