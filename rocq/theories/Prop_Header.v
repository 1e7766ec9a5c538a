(** Properties of the image header functions (io.py, imagetools.hdr2vm) *)
From Coq Require Import Ascii String Reals Lra Lia.
From Verif Require Import Base M_Translate M_Mapper M_Utility M_Header S_Mapper S_Header L_Header L_Header2 L_Header3 L_Header4 L_Header5 L_Header6 L_Header7.
Import ListNotations.
Local Open Scope list_scope.

(** C41: the last view survives, as the last line *)
Theorem C41_last_view : forall (fill : nat -> str -> str -> str) header out v, clean_header fill header = Ok out ->
  last_view (splitlines (join newline header)) v -> exists rest, out = rest ++ [s "VIEW=" ++ v].
Proof. exact clean_last_view. Qed.
(** no other VIEW entry, no FORMAT and no pvalue entry: for headers without blank lines and lines that need not be
    wrapped; lines ending in a colon, read as file names, are excepted *)
Theorem C41_no_other_partial : forall (fill : nat -> str -> str -> str) header out,
  (forall l i, fill 150%nat l i = l) -> Forall (fun h => line_text h <> []) (splitlines (join newline header)) ->
  clean_header fill header = Ok out ->
  exists body view, out = body ++ view /\ (view = [] \/ exists v, view = [s "VIEW=" ++ v]) /\
    Forall (fun l => (exists a, l = a ++ s ":") \/ forall key val, entry (strip l) key val -> ~ In key [s "pvalue"; s "FORMAT"; s "VIEW"]) body.
Proof. exact clean_no_banned. Qed.
(** a view line ending in a colon is taken for a file name and stays beside the last view *)
Theorem C41_one_view_refuted : forall fill, fills fill ->
  clean_header fill [s "VIEW= -vta a:"; tab ++ s "foo=1"; s "VIEW= -vta b"] = Ok [s "VIEW= -vta a:"; tab ++ s "foo=1"; s "VIEW= -vta b"].
Proof. exact clean_bad_view. Qed.
(** a pvalue command with an equals sign among its arguments stays *)
Theorem C41_no_pvalue_refuted : forall fill, fills fill ->
  clean_header fill [s "pvalue -o a=b.hdr"] = Ok [s "pvalue -o a=b.hdr"].
Proof. exact clean_bad_pvalue. Qed.
Example C41_nonvacuous : exists fill header, fills fill /\ (forall l i, fill 150%nat l i = l) /\
  Forall (fun h => line_text h <> []) (splitlines (join newline header)) /\
  clean_header fill header = Ok [s "a.hdr:"; tab ++ s "rpict -x 10"; s "EXPOSURE=2"; s "VIEW= -vta"] /\
  last_view (splitlines (join newline header)) (s " -vta").
Proof.
  exists (fun _ l _ => l), [s "a.hdr:"; tab ++ s "rpict -x 10"; tab ++ s "VIEW= -vtv"; s "pvalue -h"; s "VIEW= -vta"; s "EXPOSURE=2"].
  split; [intros w l i _; reflexivity|]. split; [reflexivity|]. split; [|split].
  - vm_compute. repeat constructor; discriminate.
  - vm_compute. reflexivity.
  - change (splitlines (join newline [s "a.hdr:"; tab ++ s "rpict -x 10"; tab ++ s "VIEW= -vtv"; s "pvalue -h"; s "VIEW= -vta"; s "EXPOSURE=2"]))
      with ([s "a.hdr:"; tab ++ s "rpict -x 10"; tab ++ s "VIEW= -vtv"; s "pvalue -h"] ++ s "VIEW= -vta" :: [s "EXPOSURE=2"]).
    eexists _, _, _. split; [reflexivity|]. split.
    + split; [reflexivity|]. apply entry_eq; [reflexivity|]. cbn. intuition discriminate.
    + constructor; [|constructor]. intros v V. apply view_line_iff in V. vm_compute in V. destruct V as [_ [V _]]. discriminate.
Qed.
Print Assumptions C41_last_view.
Print Assumptions C41_no_other_partial.
Print Assumptions C41_one_view_refuted.
Print Assumptions C41_no_pvalue_refuted.

(** C42: lines are kept once, in order, at their place. Proved for headers without file blocks ... *)
Theorem C42_flat_partial : forall (fill : nat -> str -> str -> str) hs,
  fills fill -> Forall wf_hline hs -> Forall (fun p => (length (fst p ++ s "=" ++ snd p) <= 150)%nat) (plains hs) -> adjacent_distinct (map fst (plains hs)) ->
  clean_header fill (map print_hline hs) =
  Ok (dedup (map (fun p => fst p ++ s "=" ++ snd p) (plains hs)) ++ map (fun v => s "VIEW=" ++ v) (last_of (views hs))).
Proof. exact (fun fill => clean_flat_text fill 150). Qed.
(** ... and with file blocks one level deep and no repeated lines *)
Theorem C42_blocks_partial : forall (fill : nat -> str -> str -> str) secs, fills fill -> Forall wf_section secs -> fresh_keys None secs ->
  NoDup (map pair_line (plains (flat_map lines_of secs))) -> Forall (fun l => (length l <= 150)%nat) (flat_map kept_section secs) ->
  clean_header fill (flat_map print_section secs) =
  Ok (flat_map kept_section secs ++ map (fun v => s "VIEW=" ++ v) (last_of (views (flat_map lines_of secs)))).
Proof. exact clean_sections. Qed.
(** c.hdr was beside a.hdr in r.hdr, it ends up inside b.hdr *)
Theorem C42_nesting_refuted : forall fill, fills fill ->
  clean_header fill [s "r.hdr:"; tab ++ s "a.hdr:"; tab ++ tab ++ s "b.hdr:"; tab ++ tab ++ tab ++ s "x=1"; tab ++ s "c.hdr:"; tab ++ tab ++ s "y=2"]
  = Ok [s "b.hdr:"; tab ++ s "x=1"; tab ++ s "c.hdr:"; tab ++ tab ++ s "y=2"].
Proof. exact clean_bad_nesting. Qed.
(** lines of one word are kept twice *)
Theorem C42_once_refuted : forall fill, fills fill -> clean_header fill [s "foo"; s "bar=1"; s "foo"] = Ok [s "foo "; s "bar=1"; s "foo "].
Proof. exact clean_bad_repeat. Qed.
Theorem C42_total_refuted : forall fill, clean_header fill [s "...  a"] = Raise IndexError.
Proof. exact clean_bad_raise. Qed.
Example C42_nonvacuous : let secs := [Block (s "a.hdr") [HPlain (s "SOFTWARE") (s "R"); HView (s " -vta"); HPlain (s "EXPOSURE") (s "2")];
    Block (s "b.hdr") [HPlain (s "EXPOSURE") (s "3"); HFormat (s "rgbe")]; Top (HPlain (s "pcomb -e x") (s "1"))] in
  Forall wf_section secs /\ fresh_keys None secs /\ NoDup (map pair_line (plains (flat_map lines_of secs))).
Proof.
  assert (forall p l, last_after p l = None -> ~ occurs p l) as NO by (intros p l; apply last_after_none).
  assert (forall h, (forallb (fun c => negb (is_break c)) (print_hline h) = true) -> trimmed (print_hline h) -> last_after (s "clasp_tmp") (print_hline h) = None ->
    match h with HPlain k v => in_strs [ "="%char ] (map (fun c => [c]) k) = false /\ in_strs k [s "pvalue"; s "FORMAT"; s "VIEW"; s "..."] = false | HPvalue a => False | _ => True end -> wf_hline h) as WF.
  { intros h A B C D. split; [|split; [exact B|split; [now apply NO|]]].
    - apply Forall_forall. intros c Q. rewrite forallb_forall in A. specialize (A c Q). now apply negb_true_iff in A.
    - destruct h as [k v|v|v|a]; [|exact I|exact I|destruct D]. destruct D as [D1 D2]. apply in_strs_false in D1, D2. split; [|exact D2]. intros Q. apply D1, in_map_iff. eauto. }
  assert (forall n, forallb (fun c => negb (is_break c)) n = true -> trimmed n -> last_after (s "clasp_tmp") (n ++ s ":") = None -> in_strs ["/"%char] (map (fun c => [c]) n) = false -> wf_name n) as WN.
  { intros n A B C D. split; [|split; [exact B|split; [now apply NO|]]].
    - apply Forall_forall. intros c Q. rewrite forallb_forall in A. specialize (A c Q). now apply negb_true_iff in A.
    - apply in_strs_false in D. intros Q. apply D, in_map_iff. eauto. }
  cbv zeta. split; [|split].
  - apply Forall_cons; [split|apply Forall_cons; [split|apply Forall_cons; [|constructor]]].
    + apply WN; vm_compute; repeat split; discriminate.
    + repeat (apply Forall_cons; [apply WF; vm_compute; repeat split; discriminate|]). apply Forall_nil.
    + apply WN; vm_compute; repeat split; discriminate.
    + repeat (apply Forall_cons; [apply WF; vm_compute; repeat split; discriminate|]). apply Forall_nil.
    + apply WF; vm_compute; repeat split; discriminate.
  - vm_compute. repeat split; discriminate.
  - vm_compute. repeat (constructor; [cbn; intros Q; repeat (destruct Q as [Q|Q]; [discriminate|]); exact Q|]). constructor.
Qed.
Print Assumptions C42_flat_partial.
Print Assumptions C42_blocks_partial.
Print Assumptions C42_nesting_refuted.
Print Assumptions C42_once_refuted.
Print Assumptions C42_total_refuted.

(** C43: one entry per key *)
Theorem C43_length : forall (fill : nat -> str -> str -> str) header items out, header_items fill header items = Ok out -> length out = length items.
Proof. exact header_items_length. Qed.
(** the last value of the key: for headers without blocks and repeated lines, and different keys *)
Theorem C43_last_value_partial : forall (fill : nat -> str -> str -> str) hs items,
  fills fill -> Forall wf_hline hs -> Forall (fun p => (length (fst p ++ s "=" ++ snd p) <= 4096)%nat) (plains hs) -> adjacent_distinct (map fst (plains hs)) ->
  NoDup (plains hs) -> NoDup (map lower items) ->
  exists out, header_items fill (map print_hline hs) items = Ok out /\
    Forall2 (fun key o => last_value key (plains hs ++ map (fun v => (s "VIEW", v)) (last_of (views hs))) o) items out.
Proof. exact header_items_flat. Qed.
(** the last value is 1, but the last line repeats the first and is dropped *)
Theorem C43_last_value_refuted : forall fill, fills fill -> header_items fill [s "a=1"; s "b=0"; s "a=2"; s "b=3"; s "a=1"] [s "a"] = Ok [s "2"].
Proof. exact items_bad_lost. Qed.
(** the value of b is 2, but a continuation of a is added to it *)
Theorem C43_other_key_refuted : forall fill, fills fill -> header_items fill [s "a=1"; s "b=2"; s "a=1"; s "a=3"] [s "A"; s "b"] = Ok [s "1"; s "2 3"].
Proof. exact items_bad_merge. Qed.
(** a key asked for twice is found once *)
Theorem C43_key_twice_refuted : forall fill, fills fill -> header_items fill [s "a=1"] [s "a"; s "A"] = Ok [s "1"; []].
Proof. exact items_bad_twice. Qed.
Example C43_nonvacuous : let hs := [HPlain (s "a") (s "1"); HPlain (s "B") (s "2"); HPlain (s "a") (s "3")] in
  Forall wf_hline hs /\ adjacent_distinct (map fst (plains hs)) /\ NoDup (plains hs) /\ NoDup (map lower [s "A"; s "b"; s "view"]).
Proof.
  cbv zeta. split; [|split; [|split]].
  - repeat (apply Forall_cons; [split; [vm_compute; repeat constructor|split; [vm_compute; repeat split; discriminate|split; [apply last_after_none; reflexivity|]]]|]);
      try constructor; cbn; intuition discriminate.
  - vm_compute. repeat split; discriminate.
  - repeat (constructor; [cbn; intuition discriminate|]). constructor.
  - repeat (constructor; [cbn; intuition discriminate|]). constructor.
Qed.
Print Assumptions C43_length.
Print Assumptions C43_last_value_partial.
Print Assumptions C43_last_value_refuted.
Print Assumptions C43_other_key_refuted.
Print Assumptions C43_key_twice_refuted.

(** C44: a view written to a header is read back, whatever is before it and if no other view comes after it *)
Theorem C44_view_roundtrip : forall num show parse, number_format num show parse -> forall d va pt pre tail x y, d <> vzero ->
  (hemi_angle va /\ x = y \/ va = 360%R /\ x = (2 * y)%Z) -> (0 < y)%Z ->
  num (vm_viewangle (mk_view d va)) -> num3 num (vm_dxyz (mk_view d va)) -> num3 num pt ->
  (tail = [] \/ exists post, tail = newline ++ post /\ ~ occurs (s "VIEW= -vta") post) ->
  hdr2vm parse (pre ++ vm_header show (mk_view d va) pt ++ tail) x y = Ok (Some (mk_view d va, pt)).
Proof. exact hdr2vm_roundtrip. Qed.
Example C44_nonvacuous : number_format nat_num nat_show nat_parse /\ hemi_angle 90 /\
  nat_num (vm_viewangle (mk_view (V3 0 2 0) 90)) /\ num3 nat_num (vm_dxyz (mk_view (V3 0 2 0) 90)) /\
  ~ occurs (s "VIEW= -vta") (s "EXPOSURE=1").
Proof.
  split; [exact nat_format|]. split; [unfold hemi_angle; lra|]. split; [|split].
  - rewrite L_Mapper.mk_view_hemi_va by (unfold hemi_angle; lra). exists 90%Z. split; [lia|reflexivity].
  - rewrite L_Mapper.mk_view_dxyz by (intros Q; injection Q; lra).
    replace (norm (V3 0 2 0)) with (V3 0 1 0).
    + split; [exists 0%Z|split; [exists 1%Z|exists 0%Z]]; (split; [lia|reflexivity]).
    + change (V3 0 2 0) with (V3 0 2 0). replace (V3 0 2 0) with (vscale 2 (V3 0 1 0)) by (unfold vscale; cbn [vx vy vz]; f_equal; lra).
      rewrite L_Angles.norm_scale by (try lra; intros Q; injection Q; lra). symmetry. apply L_Angles.norm_unit_id. unfold dot. cbn [vx vy vz]. lra.
  - apply last_after_none. reflexivity.
Qed.
Print Assumptions C44_view_roundtrip.
(** the options of the last view, or without any of the last rvu command, count in any order; direction and view point
    have the defaults of Radiance *)
Theorem C44_options : forall parse pre key line tail x y a t b va dir pt,
  let header := pre ++ key ++ line ++ tail in
  key = s "VIEW= -vta" \/ key = s "rvu -vta" /\ ~ occurs (s "VIEW= -vta") header -> ~ occurs key (line ++ tail) ->
  one_line line -> (tail = [] \/ exists post, tail = newline ++ post) ->
  split_words line = a ++ [s "-vh"; t] ++ b -> ~ In (s "-vh") a -> parse t = Some va ->
  option3 parse (s "-vd") (V3 0 1 0) (split_words line) dir -> option3 parse (s "-vp") (V3 0 0 0) (split_words line) pt ->
  hdr2vm parse header x y = Ok (Some (mk_view dir (va * IZR x / IZR y)%R, pt)).
Proof. exact hdr2vm_options. Qed.
Theorem C44_no_view : forall parse header x y, ~ occurs (s "VIEW= -vta") header -> ~ occurs (s "rvu -vta") header -> hdr2vm parse header x y = Ok None.
Proof. exact hdr2vm_none. Qed.
Example C44_options_nonvacuous : let parse t := if str_eqb t (s "9") then Some 90%R else if str_eqb t (s "1") then Some 1%R else None in
  let line := s " -vp 1 1 9 -vv 1 -vh 9" in
  ~ occurs (s "rvu -vta") (line ++ newline) /\ ~ occurs (s "VIEW= -vta") (s "a" ++ s "rvu -vta" ++ line ++ newline) /\ one_line line /\
  split_words line = [s "-vp"; s "1"; s "1"; s "9"; s "-vv"; s "1"] ++ [s "-vh"; s "9"] ++ [] /\
  option3 parse (s "-vd") (V3 0 1 0) (split_words line) (V3 0 1 0) /\ option3 parse (s "-vp") (V3 0 0 0) (split_words line) (V3 1 1 90).
Proof.
  cbv zeta. split; [apply last_after_none; reflexivity|]. split; [apply last_after_none; reflexivity|]. split; [repeat constructor|]. split; [reflexivity|]. split.
  - left. split; [|reflexivity]. vm_compute. intuition discriminate.
  - right. exists [], (s "1"), (s "1"), (s "9"), [s "-vv"; s "1"; s "-vh"; s "9"]. repeat split. intros [].
Qed.
Print Assumptions C44_options.
Print Assumptions C44_no_view.

(** C114: the up vector of a written view is not parallel to its direction, except for views straight down *)
Theorem C114_up_vector : forall show d va pt, d <> vzero -> norm d <> V3 0 0 (-1) ->
  exists front u t, vm_header show (mk_view d va) pt = front ++ s " -vu " ++ t /\
    (u = V3 0 1 0 /\ t = s "0 1 0" \/ u = V3 0 0 1 /\ t = s "0 0 1") /\ forall k, norm d <> vscale k u.
Proof. exact up_vector. Qed.
Theorem C114_up_vector_refuted : forall show va pt, exists front, vm_header show (mk_view (V3 0 0 (-1)) va) pt = front ++ s " -vu 0 0 1" /\
  vm_dxyz (mk_view (V3 0 0 (-1)) va) = vscale (-1) (V3 0 0 1).
Proof. exact up_vector_down. Qed.
Example C114_nonvacuous : V3 0 0 5 <> vzero /\ norm (V3 0 0 5) <> V3 0 0 (-1).
Proof.
  split; [intros Q; injection Q; lra|]. replace (V3 0 0 5) with (vscale 5 (V3 0 0 1)) by (unfold vscale; cbn [vx vy vz]; f_equal; lra).
  rewrite L_Angles.norm_scale by (try lra; intros Q; injection Q; lra). rewrite L_Angles.norm_unit_id by (unfold dot; cbn [vx vy vz]; lra). intros Q. injection Q. lra.
Qed.
Print Assumptions C114_up_vector.
Print Assumptions C114_up_vector_refuted.

(** C84: cleaning a clean header again changes nothing *)
Theorem C84_idempotent_partial : forall (fill : nat -> str -> str -> str) hs out,
  fills fill -> Forall wf_hline hs -> Forall (fun p => (length (pair_line p) <= 150)%nat) (plains hs) -> adjacent_distinct (map fst (plains hs)) ->
  NoDup (map pair_line (plains hs)) -> clean_header fill (map print_hline hs) = Ok out -> clean_header fill out = Ok out.
Proof. exact clean_flat_idem. Qed.
(** without the line between them a=1 and a=2 are neighbours and become one *)
Theorem C84_idempotent_refuted : forall fill, fills fill -> exists out,
  clean_header fill [s "x=1"; s "a=1"; s "x=1"; s "a=2"] = Ok out /\ clean_header fill out = Ok [s "x=1"; s "a=1 2"] /\ out <> [s "x=1"; s "a=1 2"].
Proof. exact clean_bad_twice. Qed.
Example C84_nonvacuous : let hs := [HPlain (s "a") (s "1"); HView (s " -vta"); HPlain (s "b") (s "2"); HPlain (s "a") (s "3")] in
  Forall wf_hline hs /\ adjacent_distinct (map fst (plains hs)) /\ NoDup (map pair_line (plains hs)) /\
  clean_header (fun _ l _ => l) (map print_hline hs) = Ok [s "a=1"; s "b=2"; s "a=3"; s "VIEW= -vta"].
Proof.
  cbv zeta. split; [|split; [|split]].
  - repeat (apply Forall_cons; [split; [vm_compute; repeat constructor|split; [vm_compute; repeat split; discriminate|split; [apply last_after_none; reflexivity|]]]|]);
      try constructor; cbn; intuition discriminate.
  - vm_compute. repeat split; discriminate.
  - repeat (constructor; [cbn; intuition discriminate|]). constructor.
  - vm_compute. reflexivity.
Qed.
Print Assumptions C84_idempotent_partial.
Print Assumptions C84_idempotent_refuted.

(** C85: every header line reaches the image as one line: for lines without a single quote *)
Theorem C85_header_args_partial : forall header, header <> [] -> Forall (fun l => ~ In "'"%char l) header ->
  getinfo_args header = Ok (s "getinfo" :: s "-a" :: header).
Proof. exact getinfo_args_ok. Qed.
Theorem C85_quotes_refuted : getinfo_args [s "a='b c'"] = Ok [s "getinfo"; s "-a"; s "a=b"; s "c"].
Proof. exact getinfo_bad_lost. Qed.
Theorem C85_apostrophe_refuted : getinfo_args [s "it's"] = Raise ValueError.
Proof. exact getinfo_bad_raise. Qed.
Theorem C85_empty_refuted : getinfo_args [] = Ok [s "getinfo"; s "-a"; []].
Proof. exact getinfo_bad_empty. Qed.
Example C85_nonvacuous : Forall (fun l => ~ In "'"%char l) [s "a=""b c"" \d"; s "VIEW= -vta"; []].
Proof. repeat (constructor; [cbn; intuition discriminate|]). constructor. Qed.
Print Assumptions C85_header_args_partial.
Print Assumptions C85_quotes_refuted.
Print Assumptions C85_apostrophe_refuted.
Print Assumptions C85_empty_refuted.
