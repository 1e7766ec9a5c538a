(** Model of img_size and vf_to_vm (raytools/imagetools.py) *)
From Coq Require Import Ascii String.
From Verif Require Import Base M_Translate M_Mapper M_Utility M_Header.
Import ListNotations.
Local Open Scope list_scope.

(** imagetools.py:225-229: the loop over the words of the answer, two at a time *)
Fixpoint size_from (prev : str) (l : list str) (x y : Z) : res (Z * Z) :=
  match l with
  | [] => Ok (x, y)
  | c :: l =>
    if existsb (char_eqb "X") prev then
      match py_int c with Some v => size_from c l v y | None => Raise ValueError end
    else if existsb (char_eqb "Y") prev then
      match py_int c with Some v => size_from c l x v | None => Raise ValueError end
    else size_from c l x y
  end.
(** imagetools.py:221-230 [img_size]; out is what getinfo -d prints *)
Definition img_size (out : str) : res (Z * Z) :=
  match split_words out with
  | _ :: w :: l => size_from w l 1 1
  | _ => Ok (1, 1)%Z
  end.

(** imagetools.py:209-218 [vf_to_vm]; lines are the lines of the file, [parse] is float() *)
Definition vf_to_vm (parse : str -> option R) (lines : list str) : res viewmapper :=
  match rev (filter (fun l => match last_after (s "-vta") l with Some _ => true | None => false end) lines) with
  | [] => Raise ValueError
  | line :: _ =>
    let vp := split_words line in
    bind (list_index (s "-vh") vp) (fun i =>
    bind (float_at parse vp (i + 1)) (fun angle =>
    bind (list_index (s "-vd") vp) (fun i =>
    bind (float3_at parse vp (i + 1)) (fun dir =>
    Ok (mk_view dir angle)))))
  end.
