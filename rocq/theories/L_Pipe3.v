(** A cut picture is refused; a complete one is read; the size of what is written, for C140 and C141. *)
From Coq Require Import Ascii String Lia Bool.
From Verif Require Import Base M_Utility M_Header M_Io L_Array L_Io M_Pipe S_Pipe L_Pipe L_Pipe2.
Import ListNotations.
Local Open Scope list_scope.

Lemma unbroken_begins p l : begins p l -> unbroken l -> unbroken p.
Proof. intros (x & ->) H. apply Forall_app in H. apply H. Qed.
Lemma hdr_cut ny nx data p : (0 < ny)%nat -> (0 < nx)%nat -> begins p (picture_text ny nx data) ->
  hdr_in p = Raise ValueError \/ (exists v, hdr_in p = Ok ([], (Z.of_nat ny, v)) /\ (0 < v)%Z) \/
  exists d, p = picture_text ny nx d /\ begins d data /\ hdr_in p = Ok (map byte d, (Z.of_nat ny, Z.of_nat nx)).
Proof.
  intros Hy Hx B. unfold picture_text in B. assert (begins p (size_line ny nx) \/ exists d, p = picture_text ny nx d /\ begins d data) as [C|(d & -> & C)].
  { apply begins_app in B. destruct B as [B|(q & -> & B)]; [now left|]. apply begins_cons in B. destruct B as [->|(d & -> & B)].
    - left. exists []. now rewrite !app_nil_r.
    - right. exists d. auto. }
  - unfold hdr_in. rewrite readline_all by (apply (unbroken_begins _ _ C), size_unbroken).
    destruct (size_cut ny nx p Hy Hx C) as [E|(v & E & V)]; rewrite E; cbn [bind map]; [now left|right; left; exists v; auto].
  - right. right. exists d. split; [reflexivity|]. split; [exact C|]. unfold hdr_in, picture_text.
    rewrite readline_line by apply size_unbroken. rewrite size_shape by (repeat constructor). reflexivity.
Qed.
Lemma begins_same {A} (d l : list A) : begins d l -> length d = length l -> d = l.
Proof. intros (x & ->). rewrite app_length. intros E. destruct x; [now rewrite app_nil_r|cbn in E; lia]. Qed.
Lemma gray_cut ny nx data p : (0 < ny)%nat -> (0 < nx)%nat -> length data = (4 * (ny * nx))%nat -> begins p (picture_text ny nx data) ->
  read_gray p = Raise ValueError \/ p = picture_text ny nx data.
Proof.
  intros Hy Hx L B. unfold read_gray. destruct (hdr_cut ny nx data p Hy Hx B) as [E|[(v & E & V)|(d & -> & C & E)]]; rewrite E; cbn [bind fst snd].
  - now left.
  - left. replace [Z.of_nat ny; v] with (map Z.of_nat [ny; Z.to_nat v]) by (cbn; rewrite Z2Nat.id by lia; reflexivity).
    rewrite bytes_wrong_length; [reflexivity|]. cbn. nia.
  - destruct (Nat.eq_dec (length d) (length data)) as [Q|Q]; [right; now rewrite (begins_same d data C Q)|]. left.
    change [Z.of_nat ny; Z.of_nat nx] with (map Z.of_nat [ny; nx]). rewrite bytes_wrong_length; [reflexivity|].
    rewrite map_length. cbn [nd_size fold_right]. lia.
Qed.
Lemma color_cut ny nx data p : (0 < ny)%nat -> (0 < nx)%nat -> length data = (12 * (ny * nx))%nat -> begins p (picture_text ny nx data) ->
  read_color p = Raise ValueError \/ p = picture_text ny nx data.
Proof.
  intros Hy Hx L B. unfold read_color. destruct (hdr_cut ny nx data p Hy Hx B) as [E|[(v & E & V)|(d & -> & C & E)]]; rewrite E; cbn [bind fst snd].
  - now left.
  - left. replace [3; Z.of_nat ny; v]%Z with (map Z.of_nat [3%nat; ny; Z.to_nat v]) by (cbn [map]; rewrite Z2Nat.id by lia; reflexivity).
    rewrite bytes_wrong_length; [reflexivity|]. cbn [nd_size fold_right length]. nia.
  - destruct (Nat.eq_dec (length d) (length data)) as [Q|Q]; [right; now rewrite (begins_same d data C Q)|]. left.
    change [3; Z.of_nat ny; Z.of_nat nx]%Z with (map Z.of_nat [3%nat; ny; nx]). rewrite bytes_wrong_length; [reflexivity|].
    rewrite map_length. cbn [nd_size fold_right]. lia.
Qed.

(** * complete output *)
Lemma bytes_text l : Forall (fun b => 0 <= b < 256)%Z l -> map byte (as_text l) = l.
Proof.
  induction 1 as [|b l B _ IH]; [reflexivity|]. cbn [as_text map]. unfold as_text in IH. rewrite IH. f_equal. unfold byte.
  rewrite N_ascii_embedding; [apply Z2N.id; lia|]. apply N2Z.inj_lt. rewrite Z2N.id by lia. apply B.
Qed.
Lemma le_range l : Forall (fun b => 0 <= b < 256)%Z (flat_map le_bytes l).
Proof.
  induction l as [|w l IH]; [constructor|]. cbn [flat_map le_bytes app]. repeat (constructor; [apply Z.mod_pos_bound; lia|]). exact IH.
Qed.
Lemma hdr_full ny nx l : hdr_in (picture_text ny nx (as_text (flat_map le_bytes l))) = Ok (flat_map le_bytes l, (Z.of_nat ny, Z.of_nat nx)).
Proof.
  unfold hdr_in, picture_text. rewrite readline_line by apply size_unbroken. rewrite size_shape by (repeat constructor). cbn [bind].
  now rewrite bytes_text by apply le_range.
Qed.
Lemma gray_full {P} (pv : pvalue_ops P) p : read_gray (picture_text (pic_ny p) (pic_nx p) (as_text (pvalue_b pv p))) = hdr2array pv p.
Proof. unfold read_gray, pvalue_b. rewrite hdr_full. reflexivity. Qed.
Lemma color_full {P} (pv : pvalue_ops P) p : read_color (picture_text (pic_ny p) (pic_nx p) (as_text (pvalue_n pv p))) = hdr2carray pv p.
Proof. unfold read_color, pvalue_n. rewrite hdr_full. reflexivity. Qed.
Lemma text_length l : length (as_text l) = length l.
Proof. apply map_length. Qed.
Lemma gray_length {P} (pv : pvalue_ops P) p : length (pic_px p) = (pic_ny p * pic_nx p)%nat -> length (as_text (pvalue_b pv p)) = (4 * (pic_ny p * pic_nx p))%nat.
Proof. intros H. unfold pvalue_b. rewrite text_length, le_length, map_length. lia. Qed.
Lemma color_length {P} (pv : pvalue_ops P) p : length (pic_px p) = (pic_ny p * pic_nx p)%nat -> length (as_text (pvalue_n pv p)) = (12 * (pic_ny p * pic_nx p))%nat.
Proof. intros H. unfold pvalue_n. rewrite text_length, le_length. cbn [flat_map]. rewrite !app_length, !map_length. cbn [length]. lia. Qed.

(** a bad first line stays bad *)
Lemma bad_hdr a b : bad_line a = true -> exists e, hdr_in a = Raise e /\ hdr_in (a ++ b) = Raise e.
Proof.
  unfold bad_line. intros H. apply andb_true_iff in H. destruct H as [H1 H2]. unfold hdr_in. rewrite (readline_app a b H1).
  destruct (readline a) as [line d]. cbn [fst snd] in *. destruct (line_shape line) as [v|e]; [discriminate|]. exists e. auto.
Qed.
Lemma gray_bad a b : bad_line a = true -> read_gray (a ++ b) = read_gray a.
Proof. intros H. destruct (bad_hdr a b H) as (e & E1 & E2). unfold read_gray. now rewrite E1, E2. Qed.
Lemma color_bad a b : bad_line a = true -> read_color (a ++ b) = read_color a.
Proof. intros H. destruct (bad_hdr a b H) as (e & E1 & E2). unfold read_color. now rewrite E1, E2. Qed.

(** * reading *)
Lemma gray_read {P} (pv : pvalue_ops P) p cap prog : (0 < cap)%nat -> (messages prog <= cap)%nat ->
  printed prog = picture_text (pic_ny p) (pic_nx p) (as_text (pvalue_b pv p)) ->
  always_ends (read_step false cap read_gray) (reading_start prog) (fun t => r_result t = Some (hdr2array pv p)).
Proof. intros C M E. rewrite <- gray_full, <- E. apply read_ends; auto using gray_bad. Qed.
Lemma color_read {P} (pv : pvalue_ops P) p cap prog : (0 < cap)%nat -> (messages prog <= cap)%nat ->
  printed prog = picture_text (pic_ny p) (pic_nx p) (as_text (pvalue_n pv p)) ->
  always_ends (read_step false cap read_color) (reading_start prog) (fun t => r_result t = Some (hdr2carray pv p)).
Proof. intros C M E. rewrite <- color_full, <- E. apply read_ends; auto using color_bad. Qed.
Lemma gray_died {P} (pv : pvalue_ops P) p cap prog t r : (0 < pic_ny p)%nat -> (0 < pic_nx p)%nat ->
  length (pic_px p) = (pic_ny p * pic_nx p)%nat ->
  begins (printed prog) (picture_text (pic_ny p) (pic_nx p) (as_text (pvalue_b pv p))) ->
  reachable (read_step true cap read_gray) (reading_start prog) t -> r_result t = Some r ->
  r = Raise ValueError \/ r = hdr2array pv p.
Proof.
  intros Hy Hx L B R E. destruct (read_dies true cap read_gray prog t r R E) as (got & G & ->).
  assert (begins got (picture_text (pic_ny p) (pic_nx p) (as_text (pvalue_b pv p)))) as C.
  { destruct B as (x & ->). destruct G as (y & ->). exists (y ++ x). now rewrite app_assoc. }
  destruct (gray_cut _ _ _ got Hy Hx (gray_length pv p L) C) as [X| ->]; [now left|right; apply gray_full].
Qed.
Lemma color_died {P} (pv : pvalue_ops P) p cap prog t r : (0 < pic_ny p)%nat -> (0 < pic_nx p)%nat ->
  length (pic_px p) = (pic_ny p * pic_nx p)%nat ->
  begins (printed prog) (picture_text (pic_ny p) (pic_nx p) (as_text (pvalue_n pv p))) ->
  reachable (read_step true cap read_color) (reading_start prog) t -> r_result t = Some r ->
  r = Raise ValueError \/ r = hdr2carray pv p.
Proof.
  intros Hy Hx L B R E. destruct (read_dies true cap read_color prog t r R E) as (got & G & ->).
  assert (begins got (picture_text (pic_ny p) (pic_nx p) (as_text (pvalue_n pv p)))) as C.
  { destruct B as (x & ->). destruct G as (y & ->). exists (y ++ x). now rewrite app_assoc. }
  destruct (color_cut _ _ _ got Hy Hx (color_length pv p L) C) as [X| ->]; [now left|right; apply color_full].
Qed.
Lemma read_over {A} cap (f : str -> res A) prog t : (0 < cap)%nat -> (messages prog <= cap)%nat ->
  (forall a b, bad_line a = true -> f (a ++ b) = f a) ->
  reachable (read_step false cap f) (reading_start prog) t -> stuck (read_step false cap f) t -> r_result t = Some (f (printed prog)).
Proof. intros C M F. apply (read_ends cap f prog C M F). Qed.

(** * writing *)
Lemma data_length a : length (write_data a) = (4 * nd_size (nd_shape a))%nat.
Proof.
  unfold write_data, np2bytes. rewrite le_length, ravel_length. unfold nd_flip0, nd_T. cbn [nd_shape]. f_equal.
  assert (forall l, nd_size (rev l) = nd_size l) as R; [|apply R].
  assert (forall a b, nd_size (a ++ b) = (nd_size a * nd_size b)%nat) as S.
  { induction a0 as [|n l IH]; intros b; cbn [app nd_size fold_right]; [unfold nd_size; lia|]. fold (nd_size (l ++ b)) (nd_size l). rewrite IH. lia. }
  induction l as [|n l IH]; [reflexivity|]. cbn [rev]. rewrite S, IH. cbn [nd_size fold_right]. fold (nd_size l). lia.
Qed.
Lemma gray_need a nx ny : nd_shape a = [nx; ny] -> write_need a = length (write_data a).
Proof. intros E. rewrite data_length. unfold write_need, write_gray, packer_bytes. rewrite E. cbn [rev app length Nat.leb nth nd_size fold_right]. lia. Qed.
Lemma color_need a nx ny : nd_shape a = [3%nat; nx; ny] -> write_need a = length (write_data a).
Proof. intros E. rewrite data_length. unfold write_need, write_gray, packer_bytes. rewrite E. cbn [rev app length Nat.leb nth nd_size fold_right]. lia. Qed.
Lemma channels_need a c nx ny : nd_shape a = [c; nx; ny] ->
  write_need a = (12 * (nx * ny))%nat /\ length (write_data a) = (4 * (c * (nx * ny)))%nat.
Proof. intros E. rewrite data_length. unfold write_need, write_gray, packer_bytes. rewrite E. cbn [rev app length Nat.leb nth nd_size fold_right]. lia. Qed.
Lemma image_written a nx ny header cap k : nd_shape a = [nx; ny] \/ nd_shape a = [3%nat; nx; ny] -> (0 < cap)%nat -> k_need k = write_need a ->
  always_ends (write_step false header cap k) (writing_start k (write_data a))
    (fun t => w_result t = Some (Ok tt) /\ w_file t = packed k (write_data a)).
Proof.
  intros H C N. apply write_ends; [exact C|]. rewrite N. destruct H as [H|H]; [now apply (gray_need a nx ny)|now apply (color_need a nx ny)].
Qed.
Lemma few_channels a c nx ny cap k : nd_shape a = [c; nx; ny] -> (c < 3)%nat -> (0 < nx)%nat -> (0 < ny)%nat -> k_need k = write_need a ->
  never (write_step false true cap k) (writing_start k (write_data a)) (fun t => w_result t <> None).
Proof.
  intros E C X Y N. apply write_waits. destruct (channels_need a c nx ny E) as [Q1 Q2]. rewrite N, Q1, Q2. nia.
Qed.
Lemma few_channels_unreported a c nx ny cap k : (0 < cap)%nat -> nd_shape a = [c; nx; ny] -> (c < 3)%nat -> (0 < nx)%nat -> (0 < ny)%nat ->
  k_need k = write_need a ->
  always_ends (write_step false false cap k) (writing_start k (write_data a))
    (fun t => w_result t = Some (Ok tt) /\ w_file t = packed k (write_data a)).
Proof.
  intros Hc E C X Y N. apply write_short; [exact Hc|]. destruct (channels_need a c nx ny E) as [Q1 Q2]. rewrite N, Q1, Q2. nia.
Qed.
Lemma many_channels a c nx ny header cap k : (0 < cap)%nat -> nd_shape a = [c; nx; ny] -> (3 < c)%nat -> (0 < nx)%nat -> (0 < ny)%nat ->
  k_need k = write_need a ->
  always_ends (write_step false header cap k) (writing_start k (write_data a)) (fun t =>
    w_file t = packed k (firstn (12 * (nx * ny)) (write_data a)) /\
    (w_result t = Some (Raise BrokenPipe) \/ w_result t = Some (Ok tt) /\ (4 * ((c - 3) * (nx * ny)) <= cap)%nat)).
Proof.
  intros Hc E C X Y N. destruct (channels_need a c nx ny E) as [Q1 Q2]. rewrite Q1 in N.
  destruct (write_more header cap k (write_data a) Hc ltac:(nia)) as [F1 F2]. split; [exact F1|]. intros t R S.
  specialize (F2 t R S). rewrite N in F2. destruct F2 as [F2 [F3|[F3 F4]]]; split; auto. right. split; [exact F3|]. nia.
Qed.
