(** Model of the header handling of raytools: CleanHeader, clean_header and
    header_items (raytools/io.py), the view line of AngularMixin.header
    (raytools/mapper/angularmixin.py) and hdr2vm (raytools/imagetools.py).
    Texts are lists of ascii characters (no unicode blanks or line breaks). *)
From Coq Require Import Ascii String.
From Verif Require Import Base M_Translate M_Mapper M_Utility.
Import ListNotations.
Local Open Scope list_scope.

(** * python str *)
(** python str functions used by CleanHeader, io.py:394-573 *)
Definition str := list ascii.
Notation "'s' x" := (list_ascii_of_string x%string) (at level 0, x constr at level 0, only parsing).
(** python str functions used by CleanHeader, io.py:394-573 *)
Definition str_eqb (a b : str) : bool := if list_eq_dec ascii_dec a b then true else false.
(** python str functions used by CleanHeader, io.py:394-573 *)
Definition in_strs (x : str) (l : list str) : bool := existsb (str_eqb x) l.
(** line boundaries of str.splitlines. Python str functions used by CleanHeader, io.py:394-573 *)
Definition is_break (c : ascii) : bool :=
  let n := Z.of_N (N_of_ascii c) in (((10 <=? n) && (n <=? 13)) || ((28 <=? n) && (n <=? 30)))%Z.
(** python str functions used by CleanHeader, io.py:394-573 *)
Fixpoint splitlines_from (acc : str) (l : str) : list str :=
  match l with
  | [] => match acc with [] => [] | _ => [rev acc] end
  | "013"%char :: "010"%char :: l => rev acc :: splitlines_from [] l
  | c :: l => if is_break c then rev acc :: splitlines_from [] l else splitlines_from (c :: acc) l
  end.
(** python str functions used by CleanHeader, io.py:394-573 *)
Definition splitlines : str -> list str := splitlines_from [].
(** sep.join(l). Python str functions used by CleanHeader, io.py:394-573 *)
Fixpoint join (sep : str) (l : list str) : str :=
  match l with [] => [] | [x] => x | x :: l => x ++ sep ++ join sep l end.
(** s.split(): blank separated words. Python str functions used by CleanHeader, io.py:394-573 *)
Fixpoint words_from (acc : str) (l : str) : list str :=
  let out := match acc with [] => [] | _ => [rev acc] end in
  match l with
  | [] => out
  | c :: l => if is_space c then out ++ words_from [] l else words_from (c :: acc) l
  end.
(** python str functions used by CleanHeader, io.py:394-573 *)
Definition split_words : str -> list str := words_from [].
(** python str functions used by CleanHeader, io.py:394-573 *)
Fixpoint take_while (f : ascii -> bool) (l : str) : str :=
  match l with c :: l => if f c then c :: take_while f l else [] | [] => [] end.
(** python str functions used by CleanHeader, io.py:394-573 *)
Fixpoint drop_while (f : ascii -> bool) (l : str) : str :=
  match l with c :: l' => if f c then drop_while f l' else l | [] => [] end.
(** python str functions used by CleanHeader, io.py:394-573 *)
Definition char_eqb (a b : ascii) : bool := if ascii_dec a b then true else false.
(** python str functions used by CleanHeader, io.py:394-573 *)
Definition lower_char (c : ascii) : ascii :=
  let n := N_of_ascii c in if ((65 <=? n) && (n <=? 90))%N then ascii_of_N (n + 32) else c.
(** python str functions used by CleanHeader, io.py:394-573 *)
Definition lower (l : str) : str := map lower_char l.
(** python str functions used by CleanHeader, io.py:394-573 *)
Fixpoint prefixb (p l : str) : bool :=
  match p, l with
  | [], _ => true
  | a :: p, b :: l => char_eqb a b && prefixb p l
  | _, [] => false
  end.
(** the text behind the last occurrence of p, None when p does not occur. For the pattern of io.py:469 *)
Fixpoint last_after (p l : str) : option str :=
  match l with
  | [] => if prefixb p [] then Some [] else None
  | _ :: l' => match last_after p l' with
               | Some r => Some r
               | None => if prefixb p l then Some (skipn (length p) l) else None
               end
  end.

(** * io.py:394-577: CleanHeader *)

(** io.py:469: re.sub(r"\S*clasp_tmp[^\s:]*", "<stdin>", cl): in every word, from
    its start to the first colon (or end) behind the last clasp_tmp *)
Definition clasp_word (w : str) : str :=
  match last_after (s "clasp_tmp") w with
  | Some r => s "<stdin>" ++ drop_while (fun c => negb (char_eqb c ":")) r
  | None => w
  end.
(** io.py:469 *)
Fixpoint sub_clasp_from (acc : str) (l : str) : str :=
  match l with
  | [] => clasp_word (rev acc)
  | c :: l => if is_space c then clasp_word (rev acc) ++ c :: sub_clasp_from [] l else sub_clasp_from (c :: acc) l
  end.
(** io.py:469 *)
Definition sub_clasp : str -> str := sub_clasp_from [].
(** io.py:471-474: leading blanks, four spaces or one other blank per level *)
Fixpoint inset_depth (w : str) : nat :=
  match w with
  | " "%char :: " "%char :: " "%char :: " "%char :: w => S (inset_depth w)
  | c :: w => if char_eqb c " " then inset_depth w else S (inset_depth w)
  | [] => 0
  end.
(** io.py:471-474 *)
Definition depth_of (h : str) : nat := inset_depth (take_while is_space h).
(** io.py:475: re.match(r"(.+):$", cl) for a line without breaks *)
Definition is_file (cl : str) : bool :=
  match rev cl with c :: _ :: _ => char_eqb c ":" | _ => false end.
(** io.py:476: cl.rsplit("/", 1)[-1][:-1] *)
Definition file_name (cl : str) : str := removelast (rev (take_while (fun c => negb (char_eqb c "/")) (rev cl))).
(** io.py:496-508: the separator, key and value of a line; sep None stands for
    blanks and is stored as one space *)
Definition split_key (cl : str) : str * str * str :=
  if existsb (char_eqb "=") cl then
    (take_while (fun c => negb (char_eqb c "=")) cl, s "=", tl (drop_while (fun c => negb (char_eqb c "=")) cl))
  else match lstrip (drop_while (fun c => negb (is_space c)) (lstrip cl)) with
       | [] => (cl, s " ", [])
       | v => (take_while (fun c => negb (is_space c)) (lstrip cl), s " ", v)
       end.

(** the nested list: text lines, and dicts(name, depth, content); the id stands
    for the identity of the dict, shared with the stack cs (io.py:455-536: the data CleanHeader builds) *)
Inductive item := Line (l : str) | File (id : nat) (name : str) (depth : nat) (content : list item).
(** f applied to the content list of dict [id], or to the outermost list (io.py:455-536: the data CleanHeader builds) *)
Fixpoint on_content (id : nat) (f : list item -> list item) (t : item) : item :=
  match t with
  | Line l => Line l
  | File i n d c => if (i =? id)%nat then File i n d (f c) else File i n d (map (on_content id f) c)
  end.
(** io.py:455-536: the data CleanHeader builds *)
Definition update (cur : option nat) (f : list item -> list item) (files : list item) : list item :=
  match cur with None => f files | Some id => map (on_content id f) files end.
(** io.py:455-536: the data CleanHeader builds *)
Fixpoint find_content (id : nat) (t : item) : option (list item) :=
  match t with
  | Line _ => None
  | File i n d c =>
      if (i =? id)%nat then Some c
      else (fix go l := match l with
                        | [] => None
                        | t :: l => match find_content id t with Some c => Some c | None => go l end
                        end) c
  end.
(** io.py:455-536: the data CleanHeader builds *)
Definition content_of (cur : option nat) (files : list item) : list item :=
  match cur with
  | None => files
  | Some id => match find_content id (File 0 [] 0 files) with Some c => c | None => [] end
  end.
(** l[:m] (io.py:455-536: the data CleanHeader builds) *)
Definition slice_to {A} (m : Z) (l : list A) : list A :=
  if (m <? 0)%Z then firstn (Z.to_nat (Z.of_nat (length l) + m)) l else firstn (Z.to_nat m) l.

(** io.py:455-466: the local variables of _preprocess *)
Record hstate := HS {
  h_files : list item; h_view : option str; h_vals : list str;
  h_cs : list (nat * nat);  (* (id, depth), innermost last *)
  h_lastkey : str; h_next : nat (* next dict id *) }.
(** io.py:455-466: the local variables of _preprocess *)
Definition h_init : hstate := HS [] None [] [] [] 1.
(** io.py:455-466: the local variables of _preprocess *)
Definition top_id (cs : list (nat * nat)) : option nat :=
  match rev cs with p :: _ => Some (fst p) | [] => None end.
(** io.py:455-466: the local variables of _preprocess *)
Definition top_depth (cs : list (nat * nat)) : nat :=
  match rev cs with p :: _ => snd p | [] => 0 end.

(** io.py:538-553; pop from the content of t, idx the path to it. Only the
    first dict of a list is searched *)
Fixpoint pop_promote (v : str) (idx : list nat) (t : item) {struct t} : item * option (list nat) :=
  match t with
  | Line l => (Line l, Some idx)
  | File id n d c =>
      let r := (fix go (i : nat) (l : list item) : list item * option (list nat) :=
        match l with
        | [] => ([], Some idx)
        | Line x :: l' =>
            if str_eqb x v then match idx with [] => (l, None) | _ => (l', Some (idx ++ [i])) end
            else let r := go (S i) l' in (Line x :: fst r, snd r)
        | (File _ _ _ _ as f) :: l' => let r := pop_promote v (idx ++ [i]) f in (fst r :: l', snd r)
        end) 0%nat c in
      (File id n d (fst r), snd r)
  end.
(** io.py:522-527 *)
Fixpoint insert_path (p : list nat) (pos : nat) (x : str) (data : list item) : res (list item) :=
  match p with
  | [] => Ok (firstn pos data ++ Line x :: skipn pos data)
  | j :: p => match nth_error data j with
              | Some (File i n d c) => bind (insert_path p pos x c) (fun c' => Ok (firstn j data ++ File i n d c' :: skipn (S j) data))
              | Some (Line _) => Raise TypeError
              | None => Raise IndexError
              end
  end.
(** io.py:522-536 *)
Definition promote (cl : str) (files : list item) : res (list item) :=
  match pop_promote cl [] (File 0 [] 0 files) with
  | (File _ _ _ files', None) => Ok files'
  | (File _ _ _ files', Some idx) =>
      let k := (length idx - 2)%nat in
      match nth_error idx k with
      | Some pos => insert_path (firstn k idx) pos cl files'
      | None => Raise IndexError
      end
  | (Line _, _) => Raise TypeError
  end.
(** curf[-1] += x (io.py:522-536) *)
Definition append_to_last (x : str) (data : list item) : res (list item) :=
  match rev data with
  | [] => Raise IndexError
  | Line y :: r => Ok (rev (Line (y ++ x) :: r))
  | File _ _ _ _ :: _ => Raise TypeError
  end.
(** io.py:522-536 *)
Definition append_to_last_str (x : str) (l : list str) : res (list str) :=
  match rev l with [] => Raise IndexError | y :: r => Ok (rev ((y ++ x) :: r)) end.

(** io.py:475-494: a file line *)
Definition step_file (st : hstate) (cl : str) (depth : nat) : hstate :=
  let id := h_next st in
  let fi := File id (file_name cl) depth [] in
  let cs := if (length (h_cs st) =? 0)%nat then h_cs st
            else if (top_depth (h_cs st) <? depth)%nat then h_cs st
            else slice_to (- (Z.of_nat depth - Z.of_nat (top_depth (h_cs st)) + 1)) (h_cs st) in
  HS (update (top_id cs) (fun c => c ++ [fi]) (h_files st)) (h_view st) (h_vals st)
     (cs ++ [(id, depth)]) (h_lastkey st) (S id).
(** io.py:467-536: one line of the input *)
Definition step_line (st : hstate) (h : str) : res hstate :=
  let cl := sub_clasp (strip h) in
  let depth := depth_of h in
  if is_file cl then Ok (step_file st cl depth)
  else
    let '(key, sep, val) := split_key cl in
    if in_strs key [s "pvalue"; s "FORMAT"] then Ok st
    else if str_eqb key (s "VIEW") then Ok (HS (h_files st) (Some val) (h_vals st) (h_cs st) (h_lastkey st) (h_next st))
    else
      let cur := top_id (h_cs st) in
      let curf := content_of cur (h_files st) in
      let add := s " " ++ lstrip val in
      if str_eqb key (s "...") || (str_eqb key (h_lastkey st) && (0 <? length curf)%nat) then
        bind (append_to_last add curf) (fun c =>
        bind (append_to_last_str add (h_vals st)) (fun vals =>
          Ok (HS (update cur (fun _ => c) (h_files st)) (h_view st) vals (h_cs st) key (h_next st))))
      else if in_strs cl (h_vals st) then
        bind (promote cl (h_files st)) (fun files =>
          Ok (HS files (h_view st) (h_vals st) (h_cs st) key (h_next st)))
      else
        let x := key ++ sep ++ val in
        let cs := if (0 <? length (h_cs st))%nat && (depth <=? top_depth (h_cs st))%nat
                  then slice_to (- (Z.of_nat (top_depth (h_cs st)) - Z.of_nat depth + 1)) (h_cs st)
                  else h_cs st in
        Ok (HS (update (top_id cs) (fun c => c ++ [Line x]) (h_files st)) (h_view st) (h_vals st ++ [x]) cs key (h_next st)).
(** io.py:455-536 *)
Fixpoint preprocess_from (st : hstate) (lines : list str) : res hstate :=
  match lines with [] => Ok st | h :: l => bind (step_line st h) (fun st => preprocess_from st l) end.
(** io.py:455-536 *)
Definition preprocess (text : str) : res hstate := preprocess_from h_init (splitlines text).

(** io.py:555-577, outtab = "\t"; a negative repeat count gives "" *)
Definition tabs (n : Z) : str := repeat "009"%char (Z.to_nat n).
(** io.py:555-573 *)
Definition is_dict (t : item) : bool := match t with File _ _ _ _ => true | Line _ => false end.
(** io.py:555-573 *)
Fixpoint clean_item (depth da : Z) (t : item) : list str :=
  match t with
  | Line l => [tabs (depth + 1 - da) ++ l]
  | File _ n d c =>
      if (length c =? 0)%nat then []
      else if forallb is_dict c then flat_map (clean_item (Z.of_nat d) (da + 1)) c
      else (tabs (Z.of_nat d - da) ++ n ++ s ":") :: flat_map (clean_item (Z.of_nat d) da) c
  end.
(** io.py:555-573 *)
Definition clean_up (data : list item) : list str := flat_map (clean_item (-1) 0) data.

(** io.py:430-453. [fill width line indent] is textwrap.fill without whitespace
    changes: lines longer than width are broken, continuation lines start with
    indent *)
Definition wrap_indent (i : str) : str :=
  let st := strip i in
  let ws := take_while is_space i in
  if existsb (char_eqb "=") st then ws ++ take_while (fun c => negb (char_eqb c "=")) st ++ s "= "
  else ws ++ s "   ...  ".
(** io.py:430-453 *)
Definition newline : str := ["010"%char].
(** io.py:430-453 *)
Definition clean_text (fill : nat -> str -> str -> str) (width : nat) (text : str) : res (list str) :=
  bind (preprocess text) (fun st =>
    let hdr := map (fun i => fill width i (wrap_indent i)) (clean_up (h_files st)) in
    let header := splitlines (join newline hdr) in
    Ok (header ++ match h_view st with Some v => [s "VIEW=" ++ v] | None => [] end)).
(** io.py:292-295 for a list of lines (a str is the case of one element) *)
Definition clean_header (fill : nat -> str -> str -> str) (header : list str) : res (list str) :=
  clean_text fill 150 (join newline header).

(** io.py:270-289 *)
Fixpoint index_of (x : str) (l : list str) : nat :=
  match l with [] => 0 | y :: l => if str_eqb x y then 0 else S (index_of x l) end%nat.
(** io.py:270-289 *)
Definition set_nth {A} (i : nat) (x : A) (l : list A) : list A := firstn i l ++ x :: skipn (S i) l.
(** io.py:270-289 *)
Definition item_step (items : list str) (out : list str) (line : str) : list str :=
  let cl := strip line in
  if is_file cl then out
  else
    let '(key, _, val) := split_key cl in
    let key := lower key in
    if in_strs key items then set_nth (index_of key items) (strip val) out else out.
(** io.py:270-289 *)
Definition header_items (fill : nat -> str -> str -> str) (header items : list str) : res (list str) :=
  bind (clean_text fill 4096 (join newline header)) (fun h =>
    let items := map lower items in
    Ok (fold_left (item_step items) h (map (fun _ => []) items))).

(** * view lines *)

(** angularmixin.py:121-128 with viewproj 'vta'; [show] formats a number.
    np.allclose(dxyz, (0, 0, 1)): rtol 1e-5, atol 1e-8 *)
Definition near_z (v : vec3) : bool :=
  isclose (/ 10 ^ 5) (/ 10 ^ 8) (vx v) 0 && isclose (/ 10 ^ 5) (/ 10 ^ 8) (vy v) 0 && isclose (/ 10 ^ 5) (/ 10 ^ 8) (vz v) 1.
(** angularmixin.py:121-128 *)
Definition vm_header (show : R -> str) (vm : viewmapper) (pt : vec3) : str :=
  let a := show (vm_viewangle vm) in
  let d := vm_dxyz vm in
  let sp := s " " in
  s "VIEW= -vta -vv " ++ a ++ s " -vh " ++ a ++ s " -vd " ++ show (vx d) ++ sp ++ show (vy d) ++ sp ++ show (vz d)
  ++ s " -vp " ++ show (vx pt) ++ sp ++ show (vy pt) ++ sp ++ show (vz pt)
  ++ s " -vu " ++ (if near_z d then s "0 1 0" else s "0 0 1").

(** l.index(x). Used at imagetools.py:233-271 *)
Definition list_index (x : str) (l : list str) : res nat := if in_strs x l then Ok (index_of x l) else Raise ValueError.
(** float(l[i]). Used at imagetools.py:233-271 *)
Definition float_at (parse : str -> option R) (l : list str) (i : nat) : res R :=
  match nth_error l i with
  | None => Raise IndexError
  | Some t => match parse t with Some x => Ok x | None => Raise ValueError end
  end.
(** used at imagetools.py:233-271 *)
Definition float3_at (parse : str -> option R) (l : list str) (i : nat) : res vec3 :=
  bind (float_at parse l i) (fun x => bind (float_at parse l (i + 1)) (fun y => bind (float_at parse l (i + 2)) (fun z => Ok (V3 x y z)))).
(** imagetools.py:233-272: hdr2vm(imgf, vpt=True) when getinfo succeeds; header is its output,
    (x, y) the image size from img_size; [parse] is float() *)
Definition hdr2vm (parse : str -> option R) (header : str) (x y : Z) : res (option (viewmapper * vec3)) :=
  let after p := match last_after p header with
                 | None => None
                 | Some r => Some (match splitlines r with [] => Raise IndexError | l :: _ => Ok (split_words l) end)
                 end in
  match (match after (s "VIEW= -vta") with Some r => Some r | None => after (s "rvu -vta") end) with
  | None => Ok None
  | Some r =>
    bind r (fun vp =>
    bind (list_index (s "-vh") vp) (fun i =>
    bind (float_at parse vp (i + 1)) (fun angle =>
    bind (match list_index (s "-vd") vp with
          | Ok i => float3_at parse vp (i + 1)
          | Raise _ => Ok (V3 0 1 0)
          end) (fun dir =>
    bind (match list_index (s "-vp") vp with
          | Ok i => float3_at parse vp (i + 1)
          | Raise _ => Ok (V3 0 0 0)
          end) (fun pt =>
    Ok (Some (mk_view dir (angle * IZR x / IZR y)%R, pt)))))))
  end.

(** * writing the header lines: io.py:147-148 *)

(** python's shlex.split (posix, no comments): blanks separate words; quotes group;
    backslash escapes outside quotes and in double quotes. Used at io.py:140-150 *)
Definition is_white (c : ascii) : bool := in_strs [c] [s " "; ["009"%char]; ["013"%char]; ["010"%char]].
(** used at io.py:140-150 *)
Definition is_quote (c : ascii) : bool := char_eqb c "'" || char_eqb c """".
(** used at io.py:140-150 *)
Inductive lexstate := LOut | LIn (q : ascii) | LEsc (back : option ascii).
(** used at io.py:140-150 *)
Fixpoint shlex_from (st : lexstate) (token : str) (quoted : bool) (l : str) : res (list str) :=
  let emit := match token with [] => if quoted then [[]] else [] | _ => [token] end in
  match l with
  | [] => match st with LOut => Ok emit | LIn _ | LEsc _ => Raise ValueError end
  | c :: l =>
    match st with
    | LOut => if is_white c then bind (shlex_from LOut [] false l) (fun r => Ok (emit ++ r))
              else if is_quote c then shlex_from (LIn c) token true l
              else if char_eqb c "\" then shlex_from (LEsc None) token quoted l
              else shlex_from LOut (token ++ [c]) quoted l
    | LIn q => if char_eqb c q then shlex_from LOut token true l
               else if char_eqb c "\" && char_eqb q """" then shlex_from (LEsc (Some q)) token true l
               else shlex_from (LIn q) (token ++ [c]) true l
    | LEsc None => shlex_from LOut (token ++ [c]) quoted l
    | LEsc (Some q) => let t := if negb (char_eqb c "\") && negb (char_eqb c q) then token ++ s "\" else token in
                       shlex_from (LIn q) (t ++ [c]) quoted l
    end
  end.
(** used at io.py:140-150 *)
Definition shlex_split : str -> res (list str) := shlex_from LOut [] false.
(** io.py:147-148: the command that appends the header lines to the image *)
Definition getinfo_args (header : list str) : res (list str) :=
  shlex_split (s "getinfo -a '" ++ join (s "' '") header ++ s "'").
