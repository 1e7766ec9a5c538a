(** Model of the pipes between raytools and the Radiance programs (raytools/io.py): a step of either process at a time, in any
    order. A pipe holds at most [cap] bytes: writing to a full one waits, reading from an empty one waits until the writer ends. *)
From Coq Require Import Ascii String.
From Verif Require Import Base M_Utility M_Header M_Io.
Import ListNotations.
Local Open Scope list_scope.

(** * reading, io.py:206-267 *)

(** the value of a byte. Used at io.py:220 *)
Definition byte (c : ascii) : Z := Z.of_N (N_of_ascii c).
(** p.stdout.readline(): up to the first line feed, which is kept, or all there is; and what follows. Io.py:208 *)
Fixpoint readline (l : str) : str * str :=
  match l with
  | [] => ([], [])
  | c :: l => if char_eqb c "010" then ([c], l) else let (a, b) := readline l in (c :: a, b)
  end.
(** l[-n] of a list. Used at io.py:210 *)
Definition from_end {A} (n : nat) (l : list A) : option A := nth_error (rev l) (n - 1).
(** io.py:208-219: the size that the first line gives; int of a word that is no number and a missing word are both ValueError.
    Simplification: the bytes 28 to 31 count as blanks, as for str *)
Definition line_shape (line : str) : res (Z * Z) :=
  let words := split_words (strip line) in
  match from_end 3 words, from_end 1 words with
  | Some a, Some b => match py_int a, py_int b with Some ny, Some nx => Ok (ny, nx) | _, _ => Raise ValueError end
  | _, _ => Raise ValueError
  end.
(** io.py:206-220 [_hdr_in], when the program prints [out] *)
Definition hdr_in (out : str) : res (list Z * (Z * Z)) :=
  let (line, data) := readline out in bind (line_shape line) (fun sh => Ok (map byte data, sh)).
(** io.py:223-245 [hdr2array] with vlambda=None and header=False, when pvalue prints [out] *)
Definition read_gray (out : str) : res (ndarray Z) :=
  bind (hdr_in out) (fun r => bind (bytes2np (fst r) [fst (snd r); snd (snd r)]) (fun a => Ok (nd_flip1 (nd_T a)))).
(** io.py:248-267 [hdr2carray] with header=False, when pvalue prints [out] *)
Definition read_color (out : str) : res (ndarray Z) :=
  bind (hdr_in out) (fun r => bind (bytes2np (fst r) [3; fst (snd r); snd (snd r)]%Z) (fun a => Ok (nd_T021 (nd_flip1 a)))).
(** line 210 raises before line 220 reads the rest: the first line is complete and gives no size. Io.py:208-219 *)
Definition bad_line (got : str) : bool :=
  existsb (fun c => char_eqb c "010") got && match line_shape (fst (readline got)) with Ok _ => false | Raise _ => true end.

(** where the program prints a byte to. Io.py:207 *)
Inductive stream := Out | Err.
(** what pvalue has still to print, both pipes (of stderr only the number of bytes counts, nobody reads it), what raytools has
    read, and the result of the call. Io.py:206-267 *)
Record reading (A : Type) := Reading { r_todo : list (stream * ascii); r_out : str; r_err : nat; r_got : str; r_result : option (res A) }.
Arguments Reading {A}.
Arguments r_todo {A}.
Arguments r_out {A}.
Arguments r_err {A}.
Arguments r_got {A}.
Arguments r_result {A}.
(** after Popen, io.py:207 *)
Definition reading_start {A} (prog : list (stream * ascii)) : reading A := Reading prog [] 0 [] None.
(** one step of pvalue or of raytools, io.py:207-220; [f] is the caller (lines 242, 262-264). With [dies], pvalue may also end
    at any moment *)
Inductive read_step {A} (dies : bool) (cap : nat) (f : str -> res A) : reading A -> reading A -> Prop :=
| R_print c todo out err got r : (length out < cap)%nat ->
    read_step dies cap f (Reading ((Out, c) :: todo) out err got r) (Reading todo (out ++ [c]) err got r)
| R_message c todo out err got r : (err < cap)%nat ->
    read_step dies cap f (Reading ((Err, c) :: todo) out err got r) (Reading todo out (S err) got r)
| R_read c todo out err got :
    read_step dies cap f (Reading todo (c :: out) err got None) (Reading todo out err (got ++ [c]) None)
| R_bad todo out err got : bad_line got = true ->
    read_step dies cap f (Reading todo out err got None) (Reading todo out err got (Some (f got)))
| R_end err got :
    read_step dies cap f (Reading [] [] err got None) (Reading [] [] err got (Some (f got)))
| R_dies todo out err got r : dies = true -> todo <> [] ->
    read_step dies cap f (Reading todo out err got r) (Reading [] out err got r).

(** * writing, io.py:122-203 *)

(** what pvalue -r does, not modelled further: the number of bytes it reads, what it prints at the start and what it prints after
    each byte, given all the bytes so far. Started at io.py:149, 152 *)
Record packer := Packer { k_need : nat; k_start : list Z; k_emit : list Z -> list Z }.
(** a program runs, has ended by itself or was killed. Io.py:149-153 *)
Inductive life := Runs | Ended | Killed.
(** whether a program still runs. Io.py:149-153 *)
Definition runs (l : life) : bool := match l with Runs => true | _ => false end.
(** the bytes raytools has still to write, pvalue's input pipe and whether it is closed, what pvalue has read and has still to
    print, the pipe to getinfo, what getinfo has read (it adds the header lines; without a header: what pvalue has put into the
    file), and the result of the call. Io.py:140-161 *)
Record writing := Writing { w_todo : list Z; w_in : list Z; w_closed : bool; w_seen : list Z; w_pend : list Z; w_pvalue : life;
  w_mid : list Z; w_getinfo : life; w_file : list Z; w_result : option (res unit) }.
(** after Popen, io.py:140-153 *)
Definition writing_start (k : packer) (data : list Z) : writing := Writing data [] false [] (k_start k) Runs [] Runs [] None.
(** BrokenPipeError, io.py:154-155 *)
Definition BrokenPipe : exn := OtherError 32.
(** one step of raytools, pvalue or getinfo, io.py:154-161. With a header (line 144) q is getinfo, otherwise pvalue. Line 156:
    q.communicate() closes the input of q only, so pvalue's input stays open when q is getinfo; raytools keeps the read end
    of the pipe to getinfo, so pvalue can write to it as long as there is room. With [dies] the programs may be killed *)
Inductive write_step (dies header : bool) (cap : nat) (k : packer) : writing -> writing -> Prop :=
| W_write b todo i cl seen pend mid gi file : (length i < cap)%nat ->
    write_step dies header cap k (Writing (b :: todo) i cl seen pend Runs mid gi file None)
                                 (Writing todo (i ++ [b]) cl seen pend Runs mid gi file None)
| W_broken b todo i cl seen pend pv mid gi file : runs pv = false ->
    write_step dies header cap k (Writing (b :: todo) i cl seen pend pv mid gi file None)
                                 (Writing (b :: todo) i cl seen pend pv mid gi file (Some (Raise BrokenPipe)))
| W_close i seen pend pv mid gi file : header = false ->
    write_step dies header cap k (Writing [] i false seen pend pv mid gi file None)
                                 (Writing [] i true seen pend pv mid gi file None)
| W_return i cl seen pend pv mid gi file : (if header then runs gi = false else cl = true /\ runs pv = false) ->
    write_step dies header cap k (Writing [] i cl seen pend pv mid gi file None)
                                 (Writing [] i cl seen pend pv mid gi file (Some (Ok tt)))
| P_read b todo i cl seen mid gi file r : (length seen < k_need k)%nat ->
    write_step dies header cap k (Writing todo (b :: i) cl seen [] Runs mid gi file r)
                                 (Writing todo i cl (seen ++ [b]) (k_emit k (seen ++ [b])) Runs mid gi file r)
| P_print b todo i cl seen pend mid gi file r : header = true -> (length mid < cap)%nat ->
    write_step dies header cap k (Writing todo i cl seen (b :: pend) Runs mid gi file r)
                                 (Writing todo i cl seen pend Runs (mid ++ [b]) gi file r)
| P_file b todo i cl seen pend mid gi file r : header = false ->
    write_step dies header cap k (Writing todo i cl seen (b :: pend) Runs mid gi file r)
                                 (Writing todo i cl seen pend Runs mid gi (file ++ [b]) r)
| P_done todo i cl seen mid gi file r : (k_need k <= length seen)%nat \/ (cl = true /\ i = []) ->
    write_step dies header cap k (Writing todo i cl seen [] Runs mid gi file r)
                                 (Writing todo i cl seen [] Ended mid gi file r)
| G_read b todo i cl seen pend pv mid file r : header = true ->
    write_step dies header cap k (Writing todo i cl seen pend pv (b :: mid) Runs file r)
                                 (Writing todo i cl seen pend pv mid Runs (file ++ [b]) r)
| G_end todo i cl seen pend pv file r : header = true -> runs pv = false ->
    write_step dies header cap k (Writing todo i cl seen pend pv [] Runs file r)
                                 (Writing todo i cl seen pend pv [] Ended file r)
| P_dies todo i cl seen pend mid gi file r : dies = true ->
    write_step dies header cap k (Writing todo i cl seen pend Runs mid gi file r)
                                 (Writing todo i cl seen pend Killed mid gi file r)
| G_dies todo i cl seen pend pv mid file r : dies = true -> header = true ->
    write_step dies header cap k (Writing todo i cl seen pend pv mid Runs file r)
                                 (Writing todo i cl seen pend pv mid Killed file r).
(** the bytes that pvalue -r -y ny +x nx reads, four for each number: one number for each pixel with -b, else three.
    Io.py:182, 202 *)
Definition packer_bytes (gray : bool) (ny nx : nat) : nat := (4 * ((if gray then 1 else 3) * (ny * nx)))%nat.
(** io.py:164-203: whether array2hdr starts pvalue with -b, and the size it gives *)
Definition write_gray (a : ndarray Z) : bool := (length (nd_shape a) <=? 2)%nat.
(** the data and the number of bytes pvalue expects when array2hdr(a, imgf) is called, io.py:154, 180-203 *)
Definition write_data (a : ndarray Z) : list Z := np2bytes (nd_flip0 (nd_T a)).
(** io.py:182, 202 *)
Definition write_need (a : ndarray Z) : nat :=
  let sh := rev (nd_shape a) in packer_bytes (write_gray a) (nth 0 sh 0%nat) (nth 1 sh 0%nat).
