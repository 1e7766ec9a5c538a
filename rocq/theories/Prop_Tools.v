(** Image names and headers on their way through the Radiance programs: C118, C119, C120 *)
From Coq Require Import Ascii String ZArith Lia.
From Verif Require Import Base M_Translate M_Mapper M_Utility M_Header S_Header M_Io M_Tools S_Tools L_Tools L_Tools2.
Import ListNotations.
Local Open Scope list_scope.

(** C118: a plain name is handed over unchanged, as one argument ... *)
Theorem C118_arguments_partial : forall n, plain_name n ->
  (forall gray, pvalue_args gray n = Ok (pixels_command gray n)) /\ getinfo_read_args n = Ok (header_command n).
Proof. exact args_plain. Qed.
(** ... and no other name is *)
Theorem C118_arguments_refuted : forall n, ~ plain_name n ->
  (forall gray, pvalue_args gray n <> Ok (pixels_command gray n)) /\ getinfo_read_args n <> Ok (header_command n).
Proof. exact args_other. Qed.
(** a name with a blank is taken for two files *)
Theorem C118_blank_refuted : forall a b, plain_name a -> plain_name b ->
  (forall gray, pvalue_args gray (a ++ s " " ++ b) = Ok (pixels_command gray a ++ [b])) /\ getinfo_read_args (a ++ s " " ++ b) = Ok (header_command a ++ [b]).
Proof. exact args_blank. Qed.
(** with an apostrophe nothing is read *)
Theorem C118_apostrophe_refuted : forall a b, Forall (fun c => ~ In c special) a -> Forall (fun c => ~ In c special) b ->
  (forall gray, pvalue_args gray (a ++ s "'" ++ b) = Raise ValueError) /\ getinfo_read_args (a ++ s "'" ++ b) = Raise ValueError.
Proof. exact args_apostrophe. Qed.
(** so the pixels of that file are read, and a file that is not there raises ValueError *)
Theorem C118_read_partial : forall P (pv : pvalue_ops P) t files n, tools_read t files -> plain_name n ->
  match files n with
  | Some f => hdr2array_file pv t n = hdr2array pv (f_picture f) /\ hdr2carray_file pv t n = hdr2carray pv (f_picture f)
  | None => hdr2array_file pv t n = Raise ValueError /\ hdr2carray_file pv t n = Raise ValueError
  end.
Proof. exact @read_file. Qed.
(** luminances come from pvalue -b, colours from pvalue without it *)
Theorem C118_commands_partial : forall P (pv : pvalue_ops P) (t : tools P) n, plain_name n ->
  hdr2array_file pv t n = match t_pvalue t (pixels_command true n) with Some p => hdr2array pv p | None => Raise ValueError end /\
  hdr2carray_file pv t n = match t_pvalue t (pixels_command false n) with Some p => hdr2carray pv p | None => Raise ValueError end.
Proof. exact @read_commands. Qed.
Example C118_nonvacuous : plain_name (s "img/a.hdr") /\ ~ plain_name (s "my img.hdr") /\ ~ plain_name [] /\
  let files := one_file (s "a.hdr") (Img [s "EXPOSURE=2"] (Pic 1 1 [7%Z])) in tools_read (reader files) files /\ files (s "b.hdr") = None.
Proof.
  split; [apply plain_check; [discriminate|reflexivity]|]. split; [|split].
  - intros [_ H]. rewrite Forall_forall in H. apply (H " "%char); cbn; tauto.
  - intros [H _]. now apply H.
  - split; [apply reader_reads|reflexivity].
Qed.
Print Assumptions C118_arguments_partial.
Print Assumptions C118_arguments_refuted.
Print Assumptions C118_blank_refuted.
Print Assumptions C118_apostrophe_refuted.
Print Assumptions C118_read_partial.
Print Assumptions C118_commands_partial.

(** C119: the header is the name line and the lines of the file, in order, if no line and not the name mentions
    RADIANCE or cannot open ... *)
Theorem C119_lines_partial : forall P (t : tools P) files fill n f, tools_read t files -> plain_name n -> Forall (fun c => is_space c = false) n -> files n = Some f ->
  Forall header_line (f_header f) -> ~ mentions (s "cannot open") n -> Forall (fun l => ~ mentions (s "cannot open") l) (f_header f) ->
  ~ mentions (s "RADIANCE") n -> Forall (fun l => ~ mentions (s "RADIANCE") l) (f_header f) ->
  hdr_header t fill n AsIs = Ok ((n ++ s ":") :: map (app tab) (f_header f)).
Proof. exact @header_all. Qed.
(** ... otherwise the lines that mention RADIANCE are missing, and no others *)
Theorem C119_kept : forall P (t : tools P) files fill n f, tools_read t files -> plain_name n -> Forall (fun c => is_space c = false) n -> files n = Some f ->
  Forall header_line (f_header f) -> ~ mentions (s "cannot open") n -> Forall (fun l => ~ mentions (s "cannot open") l) (f_header f) ->
  exists kept, hdr_header t fill n AsIs = Ok kept /\
    forall l, In l kept <-> ~ mentions (s "RADIANCE") l /\ (l = n ++ s ":" \/ exists h, In h (f_header f) /\ l = tab ++ h).
Proof. exact @header_lines. Qed.
(** also a line such as SOFTWARE= RADIANCE 5.4 *)
Theorem C119_radiance_refuted : forall P (t : tools P) files fill n f l kept, tools_read t files -> plain_name n -> Forall (fun c => is_space c = false) n -> files n = Some f ->
  Forall header_line (f_header f) -> ~ mentions (s "cannot open") n -> Forall (fun l => ~ mentions (s "cannot open") l) (f_header f) ->
  mentions (s "RADIANCE") l -> hdr_header t fill n AsIs = Ok kept -> ~ In (tab ++ l) kept.
Proof. exact @header_radiance. Qed.
(** a file that is not there raises FileNotFoundError ... *)
Theorem C119_missing : forall P (t : tools P) files fill n mode, tools_read t files -> plain_name n -> files n = None -> hdr_header t fill n mode = Raise FileNotFoundError.
Proof. exact @header_missing. Qed.
(** ... but so does one that is, if its header mentions cannot open *)
Theorem C119_cannot_open_refuted : forall P (t : tools P) files fill n f mode, tools_read t files -> plain_name n -> files n = Some f ->
  Exists (mentions (s "cannot open")) (f_header f) -> hdr_header t fill n mode = Raise FileNotFoundError.
Proof. exact @header_phrase. Qed.
(** a file that getinfo rejects, or whose header is not utf-8, raises IOError *)
Theorem C119_rejected : forall P (t : tools P) fill n mode, plain_name n ->
  mentions (s "bad header!") (snd (t_getinfo t (header_command n))) \/ fst (t_getinfo t (header_command n)) = None ->
  hdr_header t fill n mode = Raise (OtherError 2).
Proof. exact @header_bad. Qed.
Example C119_rejected_case : let t : tools nat := Tools (fun _ => None) (fun _ => (Some [], s "a.png: bad header!")) in
  plain_name (s "a.png") /\ mentions (s "bad header!") (snd (t_getinfo t (header_command (s "a.png")))).
Proof. cbv zeta. split; [apply plain_check; [discriminate|reflexivity]|]. apply contains_spec. reflexivity. Qed.
Example C119_nonvacuous : let f := Img [s "EXPOSURE=2"; s "VIEW= -vta"] (Pic 1 1 [7%Z]) in let files := one_file (s "a.hdr") f in
  tools_read (reader files) files /\ plain_name (s "a.hdr") /\ Forall (fun c => is_space c = false) (s "a.hdr") /\ files (s "a.hdr") = Some f /\
  Forall header_line (f_header f) /\ ~ mentions (s "cannot open") (s "a.hdr") /\ Forall (fun l => ~ mentions (s "cannot open") l) (f_header f) /\
  ~ mentions (s "RADIANCE") (s "a.hdr") /\ Forall (fun l => ~ mentions (s "RADIANCE") l) (f_header f) /\
  header_line (s "SOFTWARE= RADIANCE 5.4") /\ mentions (s "RADIANCE") (s "SOFTWARE= RADIANCE 5.4") /\ mentions (s "cannot open") (s "note=rtrace cannot open x.oct").
Proof.
  assert (header_line (s "EXPOSURE=2")) as H1 by (split; [repeat constructor|exists (s "EXPOSURE="), "2"%char; split; reflexivity]).
  assert (header_line (s "VIEW= -vta")) as H2 by (split; [repeat constructor|exists (s "VIEW= -vt"), "a"%char; split; reflexivity]).
  cbv zeta. split; [apply reader_reads|]. split; [apply plain_check; [discriminate|reflexivity]|]. split; [repeat constructor|]. split; [reflexivity|].
  cbn [f_header]. split; [auto|]. split; [apply not_contains; reflexivity|]. split; [repeat (constructor; [apply not_contains; reflexivity|]); constructor|].
  split; [apply not_contains; reflexivity|]. split; [repeat (constructor; [apply not_contains; reflexivity|]); constructor|].
  split; [split; [repeat constructor|exists (s "SOFTWARE= RADIANCE 5."), "4"%char; split; reflexivity]|]. split.
  - exists (s "SOFTWARE= "), (s " 5.4"). reflexivity.
  - exists (s "note=rtrace "), (s " x.oct"). reflexivity.
Qed.
Print Assumptions C119_lines_partial.
Print Assumptions C119_kept.
Print Assumptions C119_radiance_refuted.
Print Assumptions C119_missing.
Print Assumptions C119_rejected.
Print Assumptions C119_cannot_open_refuted.

(** C120: cleanheader writes the pixels that it read ... *)
Theorem C120_pixels : forall P (pv : pvalue_ops P) t files fill n f p args, tools_read t files -> plain_name n -> files n = Some f -> faithful pv -> full (f_picture f) ->
  cleanheader pv t fill n = Ok (p, args) -> p = f_picture f.
Proof. exact @cleanheader_pixels. Qed.
(** ... and asks getinfo to add the name, the ordinary lines of the header in their order and the last view *)
Theorem C120_header_partial : forall P (pv : pvalue_ops P) t files fill n hs pic, tools_read t files -> files n = Some (Img (map print_hline hs) pic) -> faithful pv -> full pic -> fills fill ->
  plain_name n -> Forall (fun c => is_space c = false) n -> wf_name n -> Forall wf_hline hs ->
  Forall (fun l => ~ mentions (s "cannot open") l /\ ~ mentions (s "RADIANCE") l) (n :: map print_hline hs) ->
  adjacent_distinct (map fst (plains hs)) -> NoDup (map pair_line (plains hs)) -> Forall (fun l => (length l <= 150)%nat) (kept_section (Block n hs)) ->
  Forall (fun h => ~ In "'"%char (print_hline h)) hs -> plains hs <> [] \/ views hs <> [] ->
  cleanheader pv t fill n = Ok (pic, s "getinfo" :: s "-a" :: kept_section (Block n hs) ++ map (fun v => s "VIEW=" ++ v) (last_of (views hs))).
Proof. exact @cleanheader_good. Qed.
(** if nothing is left of the header getinfo has to add an empty line, which ends a header *)
Theorem C120_empty_refuted : forall P (pv : pvalue_ops P) t files fill n hs pic, tools_read t files -> files n = Some (Img (map print_hline hs) pic) -> faithful pv -> full pic -> fills fill ->
  plain_name n -> Forall (fun c => is_space c = false) n -> wf_name n -> Forall wf_hline hs ->
  Forall (fun l => ~ mentions (s "cannot open") l /\ ~ mentions (s "RADIANCE") l) (n :: map print_hline hs) ->
  plains hs = [] -> views hs = [] ->
  cleanheader pv t fill n = Ok (pic, [s "getinfo"; s "-a"; []]).
Proof. exact @cleanheader_nothing. Qed.
(** an apostrophe in the header: nothing is written ... *)
Theorem C120_apostrophe_refuted : forall P (pv : pvalue_ops P) t files fill pic, tools_read t files -> files (s "a.hdr") = Some (Img [s "OWNER=it's me"] pic) -> faithful pv -> full pic -> fills fill ->
  cleanheader pv t fill (s "a.hdr") = Raise ValueError.
Proof. exact @cleanheader_quote. Qed.
(** ... two of them: they are lost and the line falls into pieces *)
Theorem C120_quotes_refuted : forall P (pv : pvalue_ops P) t files fill pic, tools_read t files -> files (s "a.hdr") = Some (Img [s "cmd=gen -e 'a b' c"] pic) -> faithful pv -> full pic -> fills fill ->
  cleanheader pv t fill (s "a.hdr") = Ok (pic, [s "getinfo"; s "-a"; s "a.hdr:"; tab ++ s "cmd=gen -e a"; s "b c"]).
Proof. exact @cleanheader_quotes. Qed.
Example C120_nonvacuous :
  let pv := PVal (fun v => negb (v =? 0)%Z) (fun r g b => negb (r =? 0)%Z) (fun b : bool => if b then 1065353216%Z else 0%Z) (fun _ b => if b then 1065353216%Z else 0%Z) in
  let pic := Pic 2 2 [true; false; false; true] in let fill := fun (_ : nat) l (_ : str) => l in
  let hs := [HPlain (s "EXPOSURE") (s "2"); HView (s " -vtv"); HPlain (s "rpict") (s "-x 2"); HView (s " -vta"); HFormat (s "32-bit_rle_rgbe")] in
  let n := s "a.hdr" in
  faithful pv /\ full pic /\ fills fill /\ plain_name n /\ Forall (fun c => is_space c = false) n /\ wf_name n /\ Forall wf_hline hs /\
  Forall (fun l => ~ mentions (s "cannot open") l /\ ~ mentions (s "RADIANCE") l) (n :: map print_hline hs) /\
  adjacent_distinct (map fst (plains hs)) /\ NoDup (map pair_line (plains hs)) /\ Forall (fun l => (length l <= 150)%nat) (kept_section (Block n hs)) /\
  Forall (fun h => ~ In "'"%char (print_hline h)) hs /\ plains hs <> [] /\
  let files := one_file n (Img (map print_hline hs) pic) in
  tools_read (reader files) files /\ files n = Some (Img (map print_hline hs) pic) /\
  cleanheader pv (reader files) fill n = Ok (pic, [s "getinfo"; s "-a"; s "a.hdr:"; tab ++ s "EXPOSURE=2"; tab ++ s "rpict=-x 2"; s "VIEW= -vta"]).
Proof.
  cbv zeta. split; [split; [intros c []; cbn; lia|intros []; reflexivity]|]. split; [reflexivity|]. split; [intros w l i _; reflexivity|].
  split; [apply plain_check; [discriminate|reflexivity]|]. split; [repeat constructor|].
  split; [split; [repeat constructor|]; split; [split; [reflexivity|split; [reflexivity|discriminate]]|]; split; [apply occurs_check; reflexivity|]; cbn; intuition discriminate|].
  split; [repeat (constructor; [split; [repeat constructor|]; split; [split; [reflexivity|split; [reflexivity|discriminate]]|]; split; [apply occurs_check; reflexivity|]; cbn; intuition discriminate|]); constructor|].
  split; [cbn [map]; repeat (constructor; [split; apply not_contains; reflexivity|]); constructor|].
  split; [cbn; intuition discriminate|]. split; [cbn; repeat (constructor; [cbn; intuition discriminate|]); constructor|].
  split; [cbn; repeat constructor; lia|]. split; [repeat (constructor; [cbn; intuition discriminate|]); constructor|]. split; [discriminate|].
  split; [apply reader_reads|]. split; [reflexivity|]. vm_compute. reflexivity.
Qed.
Print Assumptions C120_pixels.
Print Assumptions C120_header_partial.
Print Assumptions C120_empty_refuted.
Print Assumptions C120_apostrophe_refuted.
Print Assumptions C120_quotes_refuted.
