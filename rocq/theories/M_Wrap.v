(** Model of the wrapping of long header lines: textwrap.fill of the python standard library as CleanHeader calls it (raytools/io.py). *)
From Coq Require Import Ascii String.
From Verif Require Import Base M_Translate M_Mapper M_Utility M_Header.
Import ListNotations.
Local Open Scope list_scope.

(** * the chunks: TextWrapper.wordsep_re.split(text), for ascii text. For io.py:446-450 *)

(** io.py:446-450, textwrap: the whitespace of the pattern *)
Definition wrap_space (c : ascii) : bool := existsb (char_eqb c) [" "; "009"; "010"; "011"; "012"; "013"]%char.
(** io.py:446-450, textwrap: [^\d\W] *)
Definition letter (c : ascii) : bool :=
  let n := N_of_ascii c in (((65 <=? n) && (n <=? 90)) || ((97 <=? n) && (n <=? 122)) || (n =? 95))%N.
(** io.py:446-450, textwrap: \w *)
Definition word_char (c : ascii) : bool := let n := N_of_ascii c in (letter c || ((48 <=? n) && (n <=? 57))%N)%bool.
(** io.py:446-450, textwrap: word characters and six marks *)
Definition word_punct (c : ascii) : bool := (word_char c || existsb (char_eqb c) ["!"; """"; "'"; "&"; "."; ","; "?"]%char)%bool.
(** io.py:446-450, textwrap: -{2,}(?=\w) at the start of l *)
Definition em_dash (l : str) : bool :=
  match drop_while (char_eqb "-") l with c :: _ => (word_char c && (2 <=? length (take_while (char_eqb "-") l))%nat)%bool | [] => false end.
(** io.py:446-450, textwrap: the text in front of l (last character first) and l around the end of a hyphenated word:
    -(?:(?<=lt{2}-)|(?<=lt-lt-))(?=lt-?lt) for lt = [^\d\W] *)
Definition hyphen_break (before l : str) : bool :=
  match l with
  | "-"%char :: l' =>
      ((match before with a :: b :: _ => letter a && letter b | _ => false end ||
        match before with a :: b :: c :: _ => letter a && char_eqb b "-" && letter c | _ => false end) &&
       match l' with a :: b :: r => letter a && (letter b || (char_eqb b "-" && match r with c :: _ => letter c | [] => false end)) | _ => false end)%bool
  | _ => false
  end.
(** io.py:446-450, textwrap: what stands in front of an em dash *)
Definition after_punct (before : str) : bool := match before with c :: _ => word_punct c | [] => false end.
(** io.py:446-450, textwrap: the rest of a word of which [before] ends with at least one character *)
Fixpoint word_tail (before l : str) : str :=
  match l with
  | [] => []
  | c :: l' =>
      if hyphen_break before l then [c]
      else if wrap_space c then []
      else if (after_punct before && em_dash l)%bool then []
      else c :: word_tail (c :: before) l'
  end.
(** io.py:446-450, textwrap: one chunk *)
Definition next_chunk (before : str) (c : ascii) (l : str) : str :=
  if wrap_space c then take_while wrap_space (c :: l)
  else if (after_punct before && em_dash (c :: l))%bool then take_while (char_eqb "-") (c :: l)
  else c :: word_tail (c :: before) l.
(** io.py:446-450, textwrap: all chunks; every chunk has at least one character, so that length l of them are enough *)
Fixpoint split_from (n : nat) (before l : str) : list str :=
  match n, l with
  | S n, c :: l' => let chunk := next_chunk before c l' in chunk :: split_from n (rev chunk ++ before) (skipn (length chunk) l)
  | _, _ => []
  end.
(** io.py:446-450, textwrap: TextWrapper._split *)
Definition wrap_split (text : str) : list str := split_from (length text) [] text.

(** * the lines: TextWrapper._wrap_chunks with drop_whitespace=False, break_long_words=True, break_on_hyphens=True and no
    max_lines. For io.py:446-450 *)

(** io.py:446-450, textwrap: the chunks that fit on a line *)
Fixpoint fit (room : Z) (chunks : list str) : list str * list str :=
  match chunks with
  | [] => ([], [])
  | c :: r => if (Z.of_nat (length c) <=? room)%Z then let p := fit (room - Z.of_nat (length c)) r in (c :: fst p, snd p) else ([], chunks)
  end.
(** io.py:446-450, textwrap: the last hyphen (rfind), None for -1 *)
Fixpoint last_hyphen (l : str) : option nat :=
  match l with
  | [] => None
  | c :: l => match last_hyphen l with Some i => Some (S i) | None => if char_eqb c "-" then Some 0%nat else None end
  end.
(** io.py:446-450, textwrap: where _handle_long_word cuts a chunk *)
Definition cut_at (space : nat) (chunk : str) : nat :=
  if (space <? length chunk)%nat then
    match last_hyphen (firstn space chunk) with
    | Some (S h) => if existsb (fun c => negb (char_eqb c "-")) (firstn (S h) chunk) then S (S h) else space
    | _ => space
    end
  else space.
(** io.py:446-450, textwrap: _handle_long_word, when the next chunk fits on no line *)
Definition long_word (width : Z) (line rest : list str) : list str * list str :=
  match rest with
  | chunk :: r =>
      if (width <? Z.of_nat (length chunk))%Z then
        let space := if (width <? 1)%Z then 1%nat else Z.to_nat (width - Z.of_nat (length (concat line))) in
        let e := cut_at space chunk in (line ++ [firstn e chunk], skipn e chunk :: r)
      else (line, rest)
  | [] => (line, rest)
  end.
(** io.py:446-450, textwrap: the loop of _wrap_chunks, [fuel] rounds of it at most; None when they are not enough *)
Fixpoint wrap_lines (fuel : nat) (width : nat) (indent : str) (started : bool) (chunks : list str) : option (list str) :=
  match chunks with
  | [] => Some []
  | _ =>
      match fuel with
      | O => None
      | S fuel =>
          let ind := if started then indent else [] in
          let w := (Z.of_nat width - Z.of_nat (length ind))%Z in
          let p := fit w chunks in
          let q := long_word w (fst p) (snd p) in
          match fst q with
          | [] => wrap_lines fuel width indent started (snd q)
          | line => match wrap_lines fuel width indent true (snd q) with Some ls => Some ((ind ++ concat line) :: ls) | None => None end
          end
      end
  end.
(** io.py:446-450: textwrap.wrap; None as long as the fuel does not suffice *)
Definition wrap (fuel width : nat) (text indent : str) : option (list str) := wrap_lines fuel width indent false (wrap_split text).
(** io.py:439-450 *)
Fixpoint wrap_all (fuel width : nat) (lines : list str) : option (list str) :=
  match lines with
  | [] => Some []
  | i :: l => match wrap fuel width i (wrap_indent i), wrap_all fuel width l with Some a, Some b => Some (join newline a :: b) | _, _ => None end
  end.
(** io.py:430-454: CleanHeader(text, headerwidth=width).header; None as long as the fuel does not suffice *)
Definition clean_run (fuel width : nat) (text : str) : option (res (list str)) :=
  match preprocess text with
  | Raise e => Some (Raise e)
  | Ok st => match wrap_all fuel width (clean_up (h_files st)) with
             | None => None
             | Some hdr => Some (Ok (splitlines (join newline hdr) ++ match h_view st with Some v => [s "VIEW=" ++ v] | None => [] end))
             end
  end.
(** io.py:292-295 *)
Definition clean_header_run (fuel : nat) (header : list str) : option (res (list str)) := clean_run fuel 150 (join newline header).
(** io.py:270-289 *)
Definition header_items_run (fuel : nat) (header items : list str) : option (res (list str)) :=
  match clean_run fuel 4096 (join newline header) with
  | None => None
  | Some r => Some (bind r (fun h => let items := map lower items in Ok (fold_left (item_step items) h (map (fun _ => []) items))))
  end.
(** io.py:446-450: the text that textwrap.fill returns, for the oracle of clean_text *)
Definition textwrap_fill (fuel width : nat) (text indent : str) : str := match wrap fuel width text indent with Some l => join newline l | None => [] end.
