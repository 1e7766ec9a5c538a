(** What C118, C119 and C120 speak about *)
From Coq Require Import Ascii String.
From Verif Require Import Base M_Translate M_Mapper M_Utility M_Header M_Io M_Tools.
Import ListNotations.
Local Open Scope list_scope.

(** characters that a command line gives a meaning: blanks, line ends, quotes and the backslash *)
Definition special : list ascii := [" "%char; "009"%char; "010"%char; "013"%char; "'"%char; """"%char; "\"%char].
(** a file name without these *)
Definition plain_name (n : str) : Prop := n <> [] /\ Forall (fun c => ~ In c special) n.
(** the command lines that read the pixels of a file and its header *)
Definition pixels_command (gray : bool) (n : str) : list str := [s "pvalue"; if gray then s "-b" else s "-n"; s "-h"; s "-df"; s "-o"; n].
Definition header_command (n : str) : list str := [s "getinfo"; n].
(** an image file: its header lines after the first (#?RADIANCE), and its pixels *)
Record imgfile (P : Type) := Img { f_header : list str; f_picture : picture P }.
Arguments Img {P}.
Arguments f_header {P}.
Arguments f_picture {P}.
(** what getinfo prints: the name, a colon and the indented lines *)
Definition printed (n : str) (lines : list str) : str :=
  n ++ s ":" ++ newline ++ flat_map (fun l => ["009"%char] ++ l ++ newline) (s "#?RADIANCE" :: lines) ++ newline.
(** the programs do what their manual pages say with the files *)
Definition tools_read {P} (t : tools P) (files : str -> option (imgfile P)) : Prop :=
  forall n, match files n with
            | Some f => (forall gray, t_pvalue t (pixels_command gray n) = Some (f_picture f)) /\
                        t_getinfo t (header_command n) = (Some (printed n (f_header f)), [])
            | None => (forall gray, t_pvalue t (pixels_command gray n) = None) /\
                      t_getinfo t (header_command n) = (Some (n ++ s ": cannot open" ++ newline), [])
            end.
(** p is part of l *)
Definition mentions (p l : str) : Prop := exists a b, l = a ++ p ++ b.
(** a header line: not empty, without line break, and not ending in a blank *)
Definition header_line (l : str) : Prop :=
  Forall (fun c => is_break c = false) l /\ exists a c, l = a ++ [c] /\ is_space c = false.
(** the picture has a pixel in each place *)
Definition full {P} (p : picture P) : Prop := length (pic_px p) = (pic_ny p * pic_nx p)%nat.
(** channels are 32 bit numbers, and writing the channels of a pixel gives that pixel again *)
Definition faithful {P} (pv : pvalue_ops P) : Prop :=
  (forall c p, (0 <= pv_chan pv c p < 2 ^ 32)%Z) /\ forall p, pv_color pv (pv_chan pv 0 p) (pv_chan pv 1 p) (pv_chan pv 2 p) = p.
