(** Model of the calls of the Radiance programs in raytools/io.py (_hdr_in, hdr2array, hdr2carray, hdr_header) and of the
    cleanheader command (raytools/cli.py). Texts are lists of ascii characters, as in M_Header.v. *)
From Coq Require Import Ascii String.
From Verif Require Import Base M_Translate M_Mapper M_Utility M_Header M_Io.
Import ListNotations.
Local Open Scope list_scope.

(** p in l, for str. Used at io.py:313, 318 and 320 *)
Fixpoint contains (p l : str) : bool := prefixb p l || match l with [] => false | _ :: l => contains p l end.
(** the arguments of pvalue when reading: io.py:207 with the commands of lines 239 (gray) and 260 (colour) *)
Definition pvalue_args (gray : bool) (imgf : str) : res (list str) :=
  shlex_split ((if gray then s "pvalue -b -h -df -o " else s "pvalue -n -h -df -o ") ++ imgf).
(** the arguments of getinfo: io.py:306 *)
Definition getinfo_read_args (imgf : str) : res (list str) := shlex_split (s "getinfo " ++ imgf).
(** the programs (not modelled): [t_pvalue args] is the picture that pvalue prints when started with args, None if it prints no size;
    [t_getinfo args] is what getinfo prints, None if that is not utf-8, and its messages. Started at io.py:207 and 306 *)
Record tools (P : Type) := Tools { t_pvalue : list str -> option (picture P); t_getinfo : list str -> option str * str }.
Arguments Tools {P}.
Arguments t_pvalue {P}.
Arguments t_getinfo {P}.
(** io.py:206-245 with vlambda=None and header=False: without a size line ValueError *)
Definition hdr2array_file {P} (pv : pvalue_ops P) (t : tools P) (imgf : str) : res (ndarray Z) :=
  bind (pvalue_args true imgf) (fun args =>
  match t_pvalue t args with Some p => hdr2array pv p | None => Raise ValueError end).
(** io.py:206-220 and 248-267, header=False *)
Definition hdr2carray_file {P} (pv : pvalue_ops P) (t : tools P) (imgf : str) : res (ndarray Z) :=
  bind (pvalue_args false imgf) (fun args =>
  match t_pvalue t args with Some p => hdr2carray pv p | None => Raise ValueError end).
(** the arguments clean and items of io.py:305 *)
Inductive header_mode := AsIs | Cleaned | Items (items : list str).
(** io.py:305-326 [hdr_header]; IOError is [OtherError 2]. The pattern .*#?RADIANCE.* of line 320 matches every line with RADIANCE
    anywhere. Simplification: the messages of getinfo are utf-8 *)
Definition hdr_header {P} (t : tools P) (fill : nat -> str -> str -> str) (imgf : str) (mode : header_mode) : res (list str) :=
  bind (getinfo_read_args imgf) (fun args =>
  let (out, err) := t_getinfo t args in
  if contains (s "bad header!") err then Raise (OtherError 2)
  else match out with
       | None => Raise (OtherError 2)
       | Some text =>
         if contains (s "cannot open") text then Raise FileNotFoundError
         else
           let header := filter (fun i => negb (contains (s "RADIANCE") i)) (splitlines (strip text)) in
           match mode with
           | AsIs => Ok header
           | Cleaned => clean_header fill header
           | Items items => header_items fill header items
           end
       end).
(** cli.py:238-240 [cleanheader]: the picture written by pvalue and the command line of getinfo that adds the header (io.py:144-150) *)
Definition cleanheader {P} (pv : pvalue_ops P) (t : tools P) (fill : nat -> str -> str -> str) (img : str) : res (picture P * list str) :=
  bind (hdr2carray_file pv t img) (fun imarray =>
  bind (hdr_header t fill img AsIs) (fun header =>
  bind (clean_header fill header) (fun hdr =>
  bind (getinfo_args hdr) (fun args =>
  bind (carray2hdr pv imarray) (fun p => Ok (p, args)))))).
