(** Model of the paths the image commands write to (raytools/imagetools.py, raytools/evaluate/hvsgsm.py) and of their
    effect on the files when the images are processed in parallel (raytools/cli.py, raytools/utility.py). *)
From Coq Require Import Ascii String Decimal DecimalString.
From Verif Require Import Base M_Header.
Import ListNotations.
Local Open Scope R_scope.

(** f.rsplit(".", 1)[0], imagetools.py:43, 65, 170, 188 and hvsgsm.py:62 *)
Definition stem (f : str) : str :=
  match drop_while (fun c => negb (char_eqb c ".")) (rev f) with [] => f | _ :: r => rev r end.
(** f.rsplit("/")[-1], hvsgsm.py:64 *)
Definition base_name (f : str) : str := rev (take_while (fun c => negb (char_eqb c "/")) (rev f)).
(** an int in decimal: f"{center[0]}", imagetools.py:184 *)
Definition show_int (z : Z) : str := s (NilZero.string_of_int (Z.to_int z)).
(** f"{z:02d}": zeros between the sign and the digits up to two characters, imagetools.py:182, 186 *)
Definition show_int2 (z : Z) : str := if ((0 <=? z) && (z <? 10))%Z then "0"%char :: show_int z else show_int z.
(** int(x) of a float: towards zero, imagetools.py:182, 186 *)
Definition truncate (x : R) : Z := if Rltb x 0 then (- Rfloor (- x))%Z else Rfloor x.

(** imagetools.py:179-186: the label of a rotated image *)
Definition rotate_label (rotate : R) (center : option (list Z)) (rotate_first : bool) : str :=
  let turned := if Reqb rotate 0 then [] else s "_r" ++ show_int2 (truncate rotate) in
  let moved := match center with
               | Some c => s "_" ++ show_int (nth 0 c 0%Z) ++ s "-" ++ show_int (nth 1 c 0%Z)
               | None => []
               end in
  if rotate_first then turned ++ moved else moved ++ turned.

(** the commands that write one image for each image (without stdout): project (cli.py:162-177), align
    (cli.py:193-213), solid2ang (cli.py:223-238) and metric --gssimage (cli.py:130-146), which never gives an outdir;
    gss_compute does (hvsgsm.py:21-55) *)
Inductive command :=
| Project (uv2ang : bool)
| Align (rotate : R) (center : option (list Z)) (rotate_first : bool)
| Solid2ang (reverse : bool)
| Gss (outdir : option str) (suffix : str).
(** imagetools.py:43, 65, 170 (the names of array_solid2ang, 146-149), 188 and hvsgsm.py:62-64 *)
Definition out_path (c : command) (f : str) : str :=
  match c with
  | Project true => stem f ++ s "_ang.hdr"
  | Project false => stem f ++ s "_uv.hdr"
  | Align r ct first => stem f ++ rotate_label r ct first ++ s ".hdr"
  | Solid2ang false => stem f ++ s "_2vta.hdr"
  | Solid2ang true => stem f ++ s "_2vts.hdr"
  | Gss None suffix => stem f ++ suffix
  | Gss (Some d) suffix => d ++ s "/" ++ base_name (stem f ++ suffix)
  end.
(** the default suffix of gss_compute, hvsgsm.py:21 *)
Definition gss_suffix : str := s "_rg.hdr".

(** * cli.py: one task for each image, run by pool_call (utility.py:66-131): it reads its image, then writes its result.
    The files of the machine and what each task has read *)
Record disk (C : Type) := Disk { d_files : str -> option C; d_read : nat -> option C }.
Arguments Disk {C}.
Arguments d_files {C}.
Arguments d_read {C}.
(** cli.py:162-238: the two actions of task k on files. Simplified: each is one step, and a result is written also when
    nothing was read (then there is none) *)
Inductive action := Read (k : nat) | Write (k : nat).
(** one step of task k: imagetools.py:44-46, 70-73, 159-173, 189-193 with [f] the transformation of the image *)
Definition step {C} (f : C -> C) (out : str -> str) (imgs : list str) (d : disk C) (a : action) : disk C :=
  match a with
  | Read k => Disk (d_files d) (fun j => if (j =? k)%nat then d_files d (nth k imgs []) else d_read d j)
  | Write k => Disk (fun p => if str_eqb p (out (nth k imgs [])) then option_map f (d_read d k) else d_files d p) (d_read d)
  end.
(** the files after the steps (cli.py:162-238) *)
Definition run {C} (f : C -> C) (out : str -> str) (imgs : list str) (files : str -> option C) (l : list action) : str -> option C :=
  d_files (fold_left (step f out imgs) l (Disk files (fun _ => None))).
(** cli.py:130-146: the images the metric command writes with gssimage, for gss then for gssnb *)
Definition metric_images (g gnb : bool) (imgs : list str) : list str :=
  let saved := map (out_path (Gss None gss_suffix)) imgs in
  (if g then saved else []) ++ (if gnb then saved else []).
