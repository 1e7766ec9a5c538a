(** What C101 speaks about. *)
From Coq Require Import Ascii String.
From Verif Require Import Base M_Header M_Paths S_Utility.
Import ListNotations.

(** a path with the extension .hdr *)
Definition hdr_path (f : str) : Prop := exists a, f = a ++ s ".hdr".
(** the order of the actions of n tasks: each reads once, then writes once *)
Definition schedule (n : nat) (l : list action) : Prop :=
  (forall k, k < n -> exists a b c, l = a ++ Read k :: b ++ Write k :: c /\
     ~ In (Read k) (a ++ b ++ c) /\ ~ In (Write k) (a ++ b ++ c)) /\
  (forall k, In (Read k) l \/ In (Write k) l -> k < n).
(** one task after the other *)
Definition in_turn (n : nat) : list action := flat_map (fun k => [Read k; Write k]) (seq 0 n).
(** the command labels its results *)
Definition labelled (c : command) : Prop :=
  match c with
  | Align r ct _ => r <> 0%R \/ ct <> None
  | Gss _ suffix => suffix <> s ".hdr"
  | _ => True
  end.
(** results are written beside the images *)
Definition beside (c : command) : Prop := match c with Gss (Some _) _ => False | _ => True end.
(** t is the integer z in decimal digits, with a minus sign if it is negative *)
Definition int_text (z : Z) (t : str) : Prop :=
  exists ds, ds <> [] /\ Forall (fun d => d < 10) ds /\ decimal ds = Z.abs z /\
    t = (if (z <? 0)%Z then ["-"%char] else []) ++ map digit_sign ds.
(** without zeros in front *)
Definition shortest_text (z : Z) (t : str) : Prop := int_text z t /\ forall u, int_text z u -> length t <= length u.
(** filled up with one zero to two characters *)
Definition two_text (z : Z) (t : str) : Prop := int_text z t /\ 2 <= length t /\ forall u, int_text z u -> length t = 2 \/ length t <= length u.
(** k is r without its fraction *)
Definition whole_part (r : R) (k : Z) : Prop :=
  (0 <= r -> IZR k <= r < IZR k + 1)%R /\ (r <= 0 -> IZR k - 1 < r <= IZR k)%R.
(** the label of a rotation by r and of a center, in the order of the two operations *)
Definition align_text (r : R) (center : option (Z * Z)) (rotate_first : bool) (t : str) : Prop :=
  exists a b, t = (if rotate_first then a ++ b else b ++ a) /\
    (r = 0%R /\ a = [] \/ r <> 0%R /\ exists k u, whole_part r k /\ two_text k u /\ a = s "_r" ++ u) /\
    match center with
    | None => b = []
    | Some (x, y) => exists u v, shortest_text x u /\ shortest_text y v /\ b = s "_" ++ u ++ s "-" ++ v
    end.
(** the argument center with two values *)
Definition pair_arg (c : option (Z * Z)) : option (list Z) := option_map (fun p => [fst p; snd p]) c.
(** two files: x.hdr holds 0 and x_uv.hdr holds 10 *)
Definition two_files (p : str) : option nat := if str_eqb p (s "x.hdr") then Some 0%nat else if str_eqb p (s "x_uv.hdr") then Some 10%nat else None.
