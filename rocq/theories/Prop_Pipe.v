(** Properties C140 and C141: images are read and written through pipes to other programs, whatever the order in which the
    processes run, the capacity of the pipes and the moment a program dies. *)
From Coq Require Import Ascii String Lia.
From Verif Require Import Base M_Utility M_Header M_Io M_Pipe S_Pipe L_Pipe L_Pipe3.
Import ListNotations.
Local Open Scope list_scope.

(** C140: when pvalue prints a picture and no more messages than the pipe holds, hdr2array and hdr2carray come to an end in every
    order of the steps, and give the image (of C36) *)
Theorem C140_read {P} (pv : pvalue_ops P) p cap prog : (0 < cap)%nat -> (messages prog <= cap)%nat ->
  printed prog = picture_text (pic_ny p) (pic_nx p) (as_text (pvalue_b pv p)) ->
  always_ends (read_step false cap read_gray) (reading_start prog) (fun t => r_result t = Some (hdr2array pv p)).
Proof. exact (gray_read pv p cap prog). Qed.
Print Assumptions C140_read.
Theorem C140_read_color {P} (pv : pvalue_ops P) p cap prog : (0 < cap)%nat -> (messages prog <= cap)%nat ->
  printed prog = picture_text (pic_ny p) (pic_nx p) (as_text (pvalue_n pv p)) ->
  always_ends (read_step false cap read_color) (reading_start prog) (fun t => r_result t = Some (hdr2carray pv p)).
Proof. exact (color_read pv p cap prog). Qed.
Print Assumptions C140_read_color.

(** C140: whatever pvalue prints, with few messages the call ends, and the result depends on the text only, not on the order *)
Theorem C140_any_output cap prog : (0 < cap)%nat -> (messages prog <= cap)%nat ->
  always_ends (read_step false cap read_gray) (reading_start prog) (fun t => r_result t = Some (read_gray (printed prog))) /\
  always_ends (read_step false cap read_color) (reading_start prog) (fun t => r_result t = Some (read_color (printed prog))).
Proof. exact (fun C M => conj (read_ends cap read_gray prog C M gray_bad) (read_ends cap read_color prog C M color_bad)). Qed.
Print Assumptions C140_any_output.

(** C140: when pvalue dies at any moment, or the file is cut so that it prints only the beginning, the call raises ValueError or
    gives the whole image: never a part of it *)
Theorem C140_cut {P} (pv : pvalue_ops P) p cap prog t r : (0 < pic_ny p)%nat -> (0 < pic_nx p)%nat ->
  length (pic_px p) = (pic_ny p * pic_nx p)%nat ->
  begins (printed prog) (picture_text (pic_ny p) (pic_nx p) (as_text (pvalue_b pv p))) ->
  reachable (read_step true cap read_gray) (reading_start prog) t -> r_result t = Some r ->
  r = Raise ValueError \/ r = hdr2array pv p.
Proof. exact (gray_died pv p cap prog t r). Qed.
Print Assumptions C140_cut.
Theorem C140_cut_color {P} (pv : pvalue_ops P) p cap prog t r : (0 < pic_ny p)%nat -> (0 < pic_nx p)%nat ->
  length (pic_px p) = (pic_ny p * pic_nx p)%nat ->
  begins (printed prog) (picture_text (pic_ny p) (pic_nx p) (as_text (pvalue_n pv p))) ->
  reachable (read_step true cap read_color) (reading_start prog) t -> r_result t = Some r ->
  r = Raise ValueError \/ r = hdr2carray pv p.
Proof. exact (color_died pv p cap prog t r). Qed.
Print Assumptions C140_cut_color.

(** every proper beginning of the output is refused *)
Theorem C140_beginning ny nx data part : (0 < ny)%nat -> (0 < nx)%nat -> begins part (picture_text ny nx data) ->
  part <> picture_text ny nx data ->
  (length data = (4 * (ny * nx))%nat -> read_gray part = Raise ValueError) /\
  (length data = (12 * (ny * nx))%nat -> read_color part = Raise ValueError).
Proof.
  exact (fun Y X B N => conj (fun L => match gray_cut ny nx data part Y X L B with or_introl E => E | or_intror E => False_ind _ (N E) end)
                             (fun L => match color_cut ny nx data part Y X L B with or_introl E => E | or_intror E => False_ind _ (N E) end)).
Qed.
Print Assumptions C140_beginning.

(** C140 is false beyond the capacity: nobody reads the messages of pvalue, so with one message byte more than the pipe holds the
    call never returns, in no order of the steps (unless the first line was refused before) *)
Theorem C140_messages_refuted cap pre c post : messages pre = cap -> bad_line (printed pre) = false ->
  never (read_step false cap read_gray) (reading_start (pre ++ (Err, c) :: post)) (fun t => r_result t <> None).
Proof. exact (read_blocks cap read_gray pre c post). Qed.
Print Assumptions C140_messages_refuted.

(** the hypotheses are met by a picture of one pixel with a message in between, and by two messages when one fits *)
Example C140_example :
  let pv := PVal (fun z => z) (fun a _ _ => a) (fun z => z) (fun _ z => z) in
  let p := Pic 1 1 [258%Z] in
  let text := map (fun c => (Out, c)) (picture_text 1 1 (as_text (pvalue_b pv p))) in
  let prog := firstn 3 text ++ (Err, "!"%char) :: skipn 3 text in
  (messages prog <= 1)%nat /\ printed prog = picture_text (pic_ny p) (pic_nx p) (as_text (pvalue_b pv p)) /\
  length (pic_px p) = (pic_ny p * pic_nx p)%nat /\ exists a, hdr2array pv p = Ok a /\ nd_get a [0; 0]%nat = 258%Z.
Proof. cbv zeta. split; [vm_compute; lia|]. split; [reflexivity|]. split; [reflexivity|]. eexists. split; reflexivity. Qed.
Example C140_messages_example :
  let pre := [(Err, "!"%char); (Out, "-"%char)] in messages pre = 1%nat /\ bad_line (printed pre) = false.
Proof. split; reflexivity. Qed.

(** C141: array2hdr of an array (x, y) and of an array (3, x, y) comes to an end in every order of the steps of the three processes,
    with and without header, returns without an exception, and the file gets all that pvalue prints *)
Theorem C141_written a nx ny header cap k : nd_shape a = [nx; ny] \/ nd_shape a = [3%nat; nx; ny] -> (0 < cap)%nat ->
  k_need k = write_need a ->
  always_ends (write_step false header cap k) (writing_start k (write_data a))
    (fun t => w_result t = Some (Ok tt) /\ w_file t = packed k (write_data a)).
Proof. exact (image_written a nx ny header cap k). Qed.
Print Assumptions C141_written.

(** C141: at every moment, and whoever is killed, the file is the beginning of what it should become *)
Theorem C141_beginning a header cap k t : reachable (write_step true header cap k) (writing_start k (write_data a)) t ->
  begins (w_file t) (packed k (write_data a)).
Proof. exact (write_prefix true header cap k (write_data a) t). Qed.
Print Assumptions C141_beginning.

(** C141 is false for one or two colour channels: pvalue waits for three values for each pixel. With a header its input is never
    closed and the call never returns; without one it returns as if nothing had happened *)
Theorem C141_channels_refuted a c nx ny cap k : nd_shape a = [c; nx; ny] -> (c < 3)%nat -> (0 < nx)%nat -> (0 < ny)%nat ->
  k_need k = write_need a ->
  never (write_step false true cap k) (writing_start k (write_data a)) (fun t => w_result t <> None).
Proof. exact (few_channels a c nx ny cap k). Qed.
Print Assumptions C141_channels_refuted.
Theorem C141_channels_unreported_refuted a c nx ny cap k : (0 < cap)%nat -> nd_shape a = [c; nx; ny] -> (c < 3)%nat -> (0 < nx)%nat ->
  (0 < ny)%nat -> k_need k = write_need a ->
  always_ends (write_step false false cap k) (writing_start k (write_data a))
    (fun t => w_result t = Some (Ok tt) /\ w_file t = packed k (write_data a)).
Proof. exact (few_channels_unreported a c nx ny cap k). Qed.
Print Assumptions C141_channels_unreported_refuted.

(** with four and more channels the file is made of the first three values of each pixel's share, that is of the wrong ones, and
    the call raises BrokenPipeError unless the rest fits into the pipe *)
Theorem C141_many_channels_refuted a c nx ny header cap k : (0 < cap)%nat -> nd_shape a = [c; nx; ny] -> (3 < c)%nat -> (0 < nx)%nat ->
  (0 < ny)%nat -> k_need k = write_need a ->
  always_ends (write_step false header cap k) (writing_start k (write_data a)) (fun t =>
    w_file t = packed k (firstn (12 * (nx * ny)) (write_data a)) /\
    (w_result t = Some (Raise BrokenPipe) \/ w_result t = Some (Ok tt) /\ (4 * ((c - 3) * (nx * ny)) <= cap)%nat)).
Proof. exact (many_channels a c nx ny header cap k). Qed.
Print Assumptions C141_many_channels_refuted.

(** C141 is false when getinfo is killed: a small image is reported as written though the file is empty *)
Theorem C141_killed_unreported_refuted cap k data : (length data <= cap)%nat ->
  exists t, reachable (write_step true true cap k) (writing_start k data) t /\ w_result t = Some (Ok tt) /\ w_file t = [].
Proof. exact (killed_unseen cap k data). Qed.
Print Assumptions C141_killed_unreported_refuted.
(** and a large one makes the call wait for ever *)
Theorem C141_killed_hangs_refuted cap k data j : (cap < length (packed k (firstn j data)))%nat -> (j + cap < length data)%nat ->
  k_need k = length data ->
  exists t, reachable (write_step true true cap k) (writing_start k data) t /\
    never (write_step false true cap k) t (fun u => w_result u <> None).
Proof. exact (killed_hangs cap k data j). Qed.
Print Assumptions C141_killed_hangs_refuted.

(** the hypotheses are met by a pvalue that prints every fourth byte it reads, pipes of two bytes and images of four pixels *)
Example C141_example :
  let emit := fun l : list Z => if (length l mod 4 =? 0)%nat then [last l 0%Z] else [] in
  let gray := Arr [2%nat; 2%nat] (fun idx => Z.of_nat (nth 0 idx 0%nat)) in
  let one := Arr [1%nat; 2%nat; 2%nat] (fun idx => Z.of_nat (nth 0 idx 0%nat)) in
  let four := Arr [4%nat; 2%nat; 2%nat] (fun idx => Z.of_nat (nth 0 idx 0%nat)) in
  k_need (Packer (write_need gray) [35%Z] emit) = length (write_data gray) /\
  packed (Packer (write_need gray) [35%Z] emit) (write_data gray) = [35; 0; 0; 0; 0]%Z /\
  (2 < length (packed (Packer (write_need gray) [35%Z] emit) (firstn 8 (write_data gray))))%nat /\
  (8 + 2 < length (write_data gray))%nat /\
  (length (write_data one) < write_need one)%nat /\ (write_need four < length (write_data four))%nat.
Proof. cbv zeta. repeat split; try (vm_compute; reflexivity); vm_compute; lia. Qed.
