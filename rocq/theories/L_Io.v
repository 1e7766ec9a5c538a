From Coq Require Import Lia Arith Lra.
From Verif Require Import Base L_Base M_Translate M_Mapper S_Translate S_Mapper L_Mapper M_Io S_Io L_Array.
Local Open Scope Z_scope.

(** * bytes *)
Lemma le_word w : word w -> match le_bytes w with [b0; b1; b2; b3] => of_le_bytes b0 b1 b2 b3 = w | _ => False end.
Proof.
  unfold word, le_bytes, of_le_bytes. intros H.
  pose proof (Z.div_mod w 256 ltac:(lia)). pose proof (Z.div_mod (w / 256) 256 ltac:(lia)).
  pose proof (Z.div_mod (w / 65536) 256 ltac:(lia)).
  replace (w / 65536) with (w / 256 / 256) in * by (rewrite Z.div_div by lia; f_equal).
  replace (w / 16777216) with (w / 256 / 256 / 256) in * by (rewrite !Z.div_div by lia; f_equal).
  assert (w / 256 / 256 / 256 < 256).
  { rewrite !Z.div_div by lia. apply Z.div_lt_upper_bound; lia. }
  assert (0 <= w / 256 / 256 / 256) by (repeat apply Z.div_pos; lia).
  rewrite (Z.mod_small (w / 256 / 256 / 256)) by lia. lia.
Qed.
Lemma frombuffer_words l : Forall word l -> frombuffer (flat_map le_bytes l) = Ok l.
Proof.
  induction 1 as [|w l H _ IH]; [reflexivity|]. cbn [flat_map]. pose proof (le_word w H) as E. unfold le_bytes in *.
  cbn [app frombuffer]. rewrite IH. cbn [bind]. rewrite E. reflexivity.
Qed.
Lemma frombuffer_length : forall n buf l, (length buf <= n)%nat -> frombuffer buf = Ok l -> length buf = (4 * length l)%nat.
Proof.
  induction n as [|n IH]; intros buf l N E.
  - destruct buf; [|simpl in N; lia]. inversion E. reflexivity.
  - destruct buf as [|b0 [|b1 [|b2 [|b3 buf]]]]; try discriminate E; [inversion E; reflexivity|].
    cbn [frombuffer] in E. destruct (frombuffer buf) as [m|e] eqn:Q; [|discriminate]. cbn [bind] in E. inversion E; subst.
    cbn [length] in *. rewrite (IH buf m) by (lia || assumption). lia.
Qed.
Lemma frombuffer_bad : forall n buf, (length buf <= n)%nat -> (exists l, frombuffer buf = Ok l) \/ frombuffer buf = Raise ValueError.
Proof.
  induction n as [|n IH]; intros buf N.
  - destruct buf; [|simpl in N; lia]. left; now exists [].
  - destruct buf as [|b0 [|b1 [|b2 [|b3 buf]]]]; try (now right); [left; now exists []|].
    cbn [length] in N. destruct (IH buf ltac:(lia)) as [[l E]|E]; cbn [frombuffer]; rewrite E; cbn [bind]; [left; eauto|now right].
Qed.
Lemma le_length l : length (flat_map le_bytes l) = (4 * length l)%nat.
Proof. induction l as [|w l IH]; [reflexivity|]. cbn [flat_map]. rewrite app_length, IH. simpl. lia. Qed.
Lemma nth_le l : forall k j, (j < 4)%nat -> (k < length l)%nat -> nth (4 * k + j) (flat_map le_bytes l) 0 = nth k l 0 / 256 ^ Z.of_nat j mod 256.
Proof.
  induction l as [|w l IH]; intros k j J K; [simpl in K; lia|]. cbn [flat_map].
  destruct k as [|k].
  - rewrite app_nth1 by (simpl; lia). destruct j as [|[|[|[|j]]]]; [| | | |lia]; cbn [Nat.mul Nat.add nth le_bytes].
    + change (256 ^ Z.of_nat 0) with 1. now rewrite Z.div_1_r.
    + reflexivity.
    + reflexivity.
    + reflexivity.
  - rewrite app_nth2 by (simpl; lia). change (length (le_bytes w)) with 4%nat.
    replace (4 * S k + j - 4)%nat with (4 * k + j)%nat by lia. cbn [nth]. apply IH; [exact J|simpl in K; lia].
Qed.

Lemma ravel_words a : words a -> Forall word (nd_ravel a).
Proof.
  intros W. unfold nd_ravel. apply Forall_forall. intros w H. apply in_map_iff in H. destruct H as [idx [<- I]].
  apply W. now apply in_indices.
Qed.

Lemma bytes_roundtrip a : words a -> exists b, bytes2np (np2bytes a) (map Z.of_nat (nd_shape a)) = Ok b /\ nd_eq b a.
Proof.
  intros W. unfold bytes2np, np2bytes. rewrite frombuffer_words by (now apply ravel_words). cbn [bind].
  rewrite reshape_shape by apply ravel_length. eexists. split; [reflexivity|]. split; [reflexivity|].
  intros idx H. now apply of_list_ravel.
Qed.
Lemma bytes_roundtrip_unknown a s n t : words a -> nd_shape a = s ++ n :: t -> nd_size (s ++ t) <> 0%nat ->
  exists b, bytes2np (np2bytes a) (map Z.of_nat s ++ -1 :: map Z.of_nat t) = Ok b /\ nd_eq b a.
Proof.
  intros W E N. unfold bytes2np, np2bytes. rewrite frombuffer_words by (now apply ravel_words). cbn [bind].
  rewrite (reshape_unknown _ _ _ _ n) by (try (rewrite ravel_length, E; reflexivity); exact N).
  eexists. split; [reflexivity|]. rewrite <- E. split; [reflexivity|]. intros idx H. now apply of_list_ravel.
Qed.
Lemma bytes_layout a : words a ->
  length (np2bytes a) = (4 * nd_size (nd_shape a))%nat /\ Forall byte (np2bytes a) /\
  forall idx j, in_range (nd_shape a) idx -> (j < 4)%nat ->
    nth (4 * flat_index (nd_shape a) idx + j) (np2bytes a) 0 = nd_get a idx / 256 ^ Z.of_nat j mod 256.
Proof.
  intros W. unfold np2bytes. split; [now rewrite le_length, ravel_length|]. split.
  - apply Forall_forall. intros b H. apply in_flat_map in H. destruct H as [w [_ H]]. unfold byte.
    unfold le_bytes in H. cbn [In] in H. destruct H as [<-|[<-|[<-|[<-|[]]]]]; apply Z.mod_pos_bound; lia.
  - intros idx j H J. rewrite nth_le; [|exact J|rewrite ravel_length; now apply flat_index_lt]. now rewrite nth_ravel.
Qed.
Lemma bytes_wrong_length buf s : length buf <> (4 * nd_size s)%nat -> bytes2np buf (map Z.of_nat s) = Raise ValueError.
Proof.
  intros N. unfold bytes2np. destruct (frombuffer_bad _ buf (le_n _)) as [[l E]|E]; rewrite E; cbn [bind]; [|reflexivity].
  apply reshape_wrong. pose proof (frombuffer_length _ _ _ (le_n _) E). lia.
Qed.

Lemma nd_shape_cons {A} (a : ndarray A) n t : nd_shape a = n :: t -> nd_ravel a = flat_map (fun i => map (fun r => nd_get a (i :: r)) (nd_indices t)) (seq 0 n).
Proof.
  intros E. unfold nd_ravel. rewrite E. cbn [nd_indices]. rewrite !flat_map_concat_map, concat_map, map_map. f_equal.
  apply map_ext. intros i. now rewrite map_map.
Qed.
Lemma ravel_vstack {A} (a b : ndarray A) n m t : nd_shape a = n :: t -> nd_shape b = m :: t -> nd_ravel (vstack a b) = nd_ravel a ++ nd_ravel b.
Proof.
  intros Ea Eb. rewrite (nd_shape_cons a n t Ea), (nd_shape_cons b m t Eb).
  assert (nd_shape (vstack a b) = (n + m)%nat :: t) as E by (unfold vstack; cbn [nd_shape]; now rewrite Ea, Eb).
  rewrite (nd_shape_cons _ _ _ E), seq_app, flat_map_app. f_equal.
  - rewrite !flat_map_concat_map. f_equal. apply map_ext_in. intros i I. apply in_seq in I. apply map_ext. intros r.
    unfold vstack; cbn [nd_get]. rewrite Ea. cbn [hd]. destruct (Nat.ltb_spec i n); [reflexivity|lia].
  - rewrite !flat_map_concat_map. f_equal.
    assert (forall k, map (fun i => map (fun r => nd_get (vstack a b) (i :: r)) (nd_indices t)) (seq (n + k) m) =
                      map (fun i => map (fun r => nd_get b (i :: r)) (nd_indices t)) (seq k m)) as G.
    { clear E Eb. induction m as [|m IH]; intros k; [reflexivity|]. cbn [seq map]. f_equal.
      - apply map_ext. intros r. unfold vstack; cbn [nd_get]. rewrite Ea. cbn [hd]. destruct (Nat.ltb_spec (n + k) n); [lia|].
        f_equal. f_equal. lia.
      - rewrite <- (IH (S k)). f_equal. f_equal. lia. }
    rewrite <- (G 0%nat). f_equal. f_equal. lia.
Qed.
Lemma file_write a f : np2bytefile a Wb f = np2bytes a.
Proof. reflexivity. Qed.
Lemma file_append a b n m t : words a -> words b -> nd_shape a = n :: t -> nd_shape b = m :: t -> nd_size t <> 0%nat ->
  forall old, exists c, bytefile2np (np2bytefile b Ab (np2bytefile a Wb old)) (-1 :: map Z.of_nat t) = Ok c /\ nd_eq c (vstack a b).
Proof.
  intros Wa Wb_ Ea Eb N old.
  assert (nd_shape (vstack a b) = (n + m)%nat :: t) as E by (unfold vstack; cbn [nd_shape]; now rewrite Ea, Eb).
  assert (words (vstack a b)) as W.
  { intros idx H. rewrite E in H. destruct idx as [|i r]; [destruct H|]. destruct H as [I H].
    unfold vstack; cbn [nd_get]. rewrite Ea. cbn [hd]. destruct (Nat.ltb_spec i n).
    - apply Wa. rewrite Ea. split; assumption.
    - apply Wb_. rewrite Eb. split; [lia|assumption]. }
  unfold bytefile2np, np2bytefile. assert (np2bytes a ++ np2bytes b = np2bytes (vstack a b)) as ->.
  { unfold np2bytes. rewrite (ravel_vstack a b n m t Ea Eb). now rewrite flat_map_app. }
  exact (bytes_roundtrip_unknown (vstack a b) [] (n + m) t W E N).
Qed.

(** * hdr images *)
Lemma ravel_map {A B} (f : A -> B) a : nd_ravel (nd_map f a) = map f (nd_ravel a).
Proof. unfold nd_ravel, nd_map. cbn [nd_shape nd_get]. now rewrite map_map. Qed.
Lemma bytes2np_ravel (b : ndarray Z) s : words b -> nd_shape b = s ->
  bytes2np (flat_map le_bytes (nd_ravel b)) (map Z.of_nat s) = Ok (nd_of_list 0 s (nd_ravel b)).
Proof.
  intros W E. unfold bytes2np. rewrite frombuffer_words by (now apply ravel_words). cbn [bind].
  apply reshape_shape. rewrite ravel_length. now rewrite E.
Qed.

Lemma gray_written {P} (pv : pvalue_ops P) a nx ny : words a -> nd_shape a = [nx; ny] ->
  array2hdr pv a = Ok (Pic ny nx (map (pv_gray pv) (nd_ravel (nd_flip0 (nd_T a))))).
Proof.
  intros W E. unfold array2hdr. rewrite E. cbn [rev app length Nat.ltb Nat.leb nth]. unfold pvalue_r, np2bytes.
  rewrite frombuffer_words; [reflexivity|]. apply ravel_words. intros idx H. unfold nd_flip0, nd_T in *. cbn [nd_shape nd_get] in *.
  rewrite E in *. cbn [rev app] in *. destruct idx as [|i [|j [|k idx]]]; cbn [in_range] in H; try tauto. cbn [rev app hd]. apply W. rewrite E. cbn [in_range]. lia.
Qed.
Lemma hdr_roundtrip {P} (pv : pvalue_ops P) a nx ny : words a -> nd_shape a = [nx; ny] -> (forall p, word (pv_bright pv p)) ->
  exists p b, array2hdr pv a = Ok p /\ hdr2array pv p = Ok b /\ nd_eq b (nd_map (fun w => pv_bright pv (pv_gray pv w)) a).
Proof.
  intros W E H. rewrite (gray_written pv a nx ny W E). do 2 eexists. split; [reflexivity|].
  unfold hdr2array, pvalue_b. cbn [pic_px pic_ny pic_nx]. rewrite map_map. rewrite <- ravel_map.
  set (b := nd_map (fun x => pv_bright pv (pv_gray pv x)) (nd_flip0 (nd_T a))).
  assert (nd_shape b = [ny; nx]) as Sb by (unfold b, nd_map, nd_flip0, nd_T; cbn [nd_shape]; rewrite E; reflexivity).
  change [Z.of_nat ny; Z.of_nat nx] with (map Z.of_nat [ny; nx]).
  rewrite (bytes2np_ravel b [ny; nx]); [|intros idx _; apply H|exact Sb]. cbn [bind]. split; [reflexivity|].
  split; [unfold nd_flip1, nd_T, nd_of_list, nd_map; cbn [nd_shape]; rewrite E; reflexivity|].
  intros idx R. unfold nd_flip1, nd_T in *. cbn [nd_shape nd_of_list rev app] in R.
  destruct idx as [|x [|y [|k idx]]]; cbn [in_range] in R; try tauto. destruct R as (X & Y & _).
  cbn [nd_get nd_shape nd_of_list rev app nth].
  change (nd_get (nd_map (fun w => pv_bright pv (pv_gray pv w)) a) [x; y]) with (pv_bright pv (pv_gray pv (nd_get a [x; y]))).
  replace (nth _ (nd_ravel b) 0) with (nd_get b [(ny - 1 - y)%nat; x])
    by (symmetry; rewrite <- Sb; apply nth_ravel; rewrite Sb; cbn [in_range]; lia).
  unfold b, nd_map, nd_flip0, nd_T. cbn [nd_get nd_shape]. rewrite E. cbn [rev app hd].
  replace (ny - 1 - (ny - 1 - y))%nat with y by lia. reflexivity.
Qed.
Lemma hdr_orientation {P} (pv : pvalue_ops P) a nx ny p r c : words a -> nd_shape a = [nx; ny] -> array2hdr pv a = Ok p ->
  (r < ny)%nat -> (c < nx)%nat -> pic_at p r c = Some (pv_gray pv (nd_get a [c; (ny - 1 - r)%nat])).
Proof.
  intros W E A R C. rewrite (gray_written pv a nx ny W E) in A. inversion A; subst p. unfold pic_at. cbn [pic_px pic_nx].
  set (b := nd_flip0 (nd_T a)).
  assert (nd_shape b = [ny; nx]) as Sb by (unfold b, nd_flip0, nd_T; cbn [nd_shape]; rewrite E; reflexivity).
  assert (in_range (nd_shape b) [r; c]) as IR by (rewrite Sb; cbn [in_range]; lia).
  assert (flat_index (nd_shape b) [r; c] = (r * nx + c)%nat) as F.
  { rewrite Sb. cbn [flat_index nd_size fold_right]. lia. }
  rewrite <- F. rewrite nth_error_map.
  rewrite (nth_error_nth' _ 0) by (rewrite ravel_length; now apply flat_index_lt). cbn [option_map].
  rewrite nth_ravel by exact IR. unfold b, nd_flip0, nd_T. cbn [nd_get nd_shape]. rewrite E. reflexivity.
Qed.

Lemma triples_flat {X Y P} (f : X -> X -> X -> P) (g0 g1 g2 : Y -> X) l :
  triples f (flat_map (fun y => [g0 y; g1 y; g2 y]) l) = map (fun y => f (g0 y) (g1 y) (g2 y)) l.
Proof. induction l as [|y l IH]; [reflexivity|]. cbn [flat_map app triples map]. now rewrite IH. Qed.
Lemma indices_last s n : nd_indices (s ++ [n]) = flat_map (fun idx => map (fun i => idx ++ [i]) (seq 0 n)) (nd_indices s).
Proof.
  induction s as [|m s IH].
  - cbn [app nd_indices flat_map]. rewrite app_nil_r. generalize 0%nat as k. induction n as [|n IHn]; intros k; [reflexivity|].
    cbn [seq flat_map map app]. now rewrite IHn.
  - cbn [app nd_indices]. rewrite IH. rewrite !flat_map_concat_map.
    rewrite concat_map, map_map.
    assert (forall l, concat (map (fun i => map (cons i) (concat (map (fun idx => map (fun k => idx ++ [k]) (seq 0 n)) (nd_indices s)))) l) =
      concat (concat (map (fun i => map (fun idx => map (fun k => (i :: idx) ++ [k]) (seq 0 n)) (nd_indices s)) l))) as G.
    { induction l as [|i l IHl]; [reflexivity|]. cbn [map concat]. rewrite concat_app, IHl. f_equal.
      rewrite concat_map, map_map. f_equal. apply map_ext. intros idx. rewrite map_map. reflexivity. }
    rewrite G. f_equal. f_equal. apply map_ext. intros i. rewrite map_map. reflexivity.
Qed.
Lemma color_written {P} (pv : pvalue_ops P) a nx ny : words a -> nd_shape a = [3%nat; nx; ny] ->
  array2hdr pv a = carray2hdr pv a /\
  carray2hdr pv a = Ok (Pic ny nx (nd_ravel (Arr [ny; nx] (fun idx => match idx with
     | [i; j] => pv_color pv (nd_get a [0%nat; j; (ny - 1 - i)%nat]) (nd_get a [1%nat; j; (ny - 1 - i)%nat]) (nd_get a [2%nat; j; (ny - 1 - i)%nat])
     | _ => pv_color pv 0 0 0 end)))).
Proof.
  intros W E. unfold array2hdr. split; [rewrite E; reflexivity|]. unfold carray2hdr. rewrite E. cbn [rev app nth].
  unfold pvalue_r, np2bytes. rewrite frombuffer_words.
  - cbn [bind]. f_equal. f_equal.
    assert (nd_shape (nd_flip0 (nd_T a)) = [ny; nx] ++ [3%nat]) as S3 by (unfold nd_flip0, nd_T; cbn [nd_shape]; rewrite E; reflexivity).
    unfold nd_ravel at 1. rewrite S3, indices_last. cbn [seq map].
    set (g := nd_get (nd_flip0 (nd_T a))).
    assert (forall l, map g (flat_map (fun idx => [idx ++ [0%nat]; idx ++ [1%nat]; idx ++ [2%nat]]) l) =
      flat_map (fun idx => [g (idx ++ [0%nat]); g (idx ++ [1%nat]); g (idx ++ [2%nat])]) l) as G.
    { induction l as [|x l IH]; [reflexivity|]. cbn [flat_map map app]. now rewrite IH. }
    rewrite G, (triples_flat (pv_color pv) (fun idx => g (idx ++ [0%nat])) (fun idx => g (idx ++ [1%nat])) (fun idx => g (idx ++ [2%nat]))). unfold nd_ravel. cbn [nd_shape nd_get]. apply map_ext_in. intros idx I. apply in_indices in I.
    destruct idx as [|i [|j [|k idx]]]; cbn [in_range] in I; try tauto. unfold g, nd_flip0, nd_T. cbn [nd_get nd_shape]. rewrite E. reflexivity.
  - apply ravel_words. intros idx H. unfold nd_flip0, nd_T in *. cbn [nd_shape nd_get] in *.
    rewrite E in *. cbn [rev app] in *. destruct idx as [|i [|j [|k [|l idx]]]]; cbn [in_range] in H; try tauto.
    cbn [rev app hd]. apply W. rewrite E. cbn [in_range]. lia.
Qed.
Lemma hdr_color_roundtrip {P} (pv : pvalue_ops P) a nx ny : words a -> nd_shape a = [3%nat; nx; ny] -> (forall c p, word (pv_chan pv c p)) ->
  exists p b, array2hdr pv a = Ok p /\ carray2hdr pv a = Ok p /\ hdr2carray pv p = Ok b /\ nd_shape b = nd_shape a /\
  forall c x y, (c < 3)%nat -> (x < nx)%nat -> (y < ny)%nat ->
    nd_get b [c; x; y] = pv_chan pv c (pv_color pv (nd_get a [0%nat; x; y]) (nd_get a [1%nat; x; y]) (nd_get a [2%nat; x; y])).
Proof.
  intros W E H. destruct (color_written pv a nx ny W E) as [E1 E2]. rewrite E1, E2. do 2 eexists.
  split; [reflexivity|]. split; [reflexivity|]. unfold hdr2carray, pvalue_n. cbn [pic_px pic_ny pic_nx].
  set (q := Arr [ny; nx] _).
  set (b := Arr [3%nat; ny; nx] (fun idx => match idx with c :: r => pv_chan pv c (nd_get q r) | [] => 0 end)).
  assert (flat_map (fun c => map (pv_chan pv c) (nd_ravel q)) [0%nat; 1%nat; 2%nat] = nd_ravel b) as ->.
  { rewrite (nd_shape_cons b 3 [ny; nx] eq_refl). cbn [seq flat_map]. unfold nd_ravel. rewrite !map_map. reflexivity. }
  change [3; Z.of_nat ny; Z.of_nat nx] with (map Z.of_nat [3%nat; ny; nx]).
  rewrite (bytes2np_ravel b [3%nat; ny; nx]); [|intros idx I; destruct idx; [destruct I|apply H]|reflexivity].
  cbn [bind]. split; [reflexivity|]. split; [unfold nd_T021, nd_flip1, nd_of_list; cbn [nd_shape swap12]; now rewrite E|].
  intros c x y C X Y. unfold nd_T021, nd_flip1. cbn [nd_get nd_shape swap12 nd_of_list nth].
  change [3%nat; ny; nx] with (nd_shape b). rewrite nth_ravel by (cbn [nd_shape b in_range]; lia).
  cbn [nd_get b q]. replace (ny - 1 - (ny - 1 - y))%nat with y by lia. reflexivity.
Qed.

(** * hdr2vol *)
Lemma zgrid_length nx ny : 0 <= nx -> 0 <= ny -> Z.of_nat (length (zgrid nx ny)) = nx * ny.
Proof.
  intros X Y. unfold zgrid, zrange. rewrite flat_map_concat_map, map_map.
  assert (forall l, length (concat (map (fun x => map (fun j => (Z.of_nat x, j)) (map Z.of_nat (seq 0 (Z.to_nat ny)))) l)) = (length l * Z.to_nat ny)%nat) as G.
  { induction l as [|x l IH]; [reflexivity|]. cbn [map concat]. rewrite app_length, IH, !map_length, seq_length. reflexivity. }
  rewrite G, seq_length. lia.
Qed.
Local Open Scope R_scope.
Lemma vol_aligned A d va (f : R * R -> R) (im : image A) : va <> 360 -> im_nx im = im_ny im ->
  exists pixels : list (Z * Z), pixels = zgrid (im_nx im) (im_ny im) /\
  hdr2vol (mk_view d va) f im =
   (map (fun p => pixel2ray (mk_view d va) (im_ny im) (IZR (fst p) + 1 / 2, IZR (snd p) + 1 / 2)) pixels,
    map (fun p => f (IZR (fst p) + 1 / 2, IZR (snd p) + 1 / 2)) pixels,
    map (fun p => im_px im (fst p) (snd p)) pixels).
Proof.
  intros V E. exists (zgrid (im_nx im) (im_ny im)). split; [reflexivity|]. unfold hdr2vol. rewrite E. f_equal. f_equal.
  unfold pixelrays, pixelrays1. unfold mk_view at 1. cbn [vm_aspect]. destruct (Reqb va 360) eqn:Q; [|reflexivity].
  apply Reqb_true in Q. contradiction.
Qed.
Lemma vol_counts_360 A d (f : R * R -> R) (im : image A) : (0 <= im_ny im)%Z -> im_nx im = (2 * im_ny im)%Z ->
  let '(vecs, oga, lum) := hdr2vol (mk_view d 360) f im in
  Z.of_nat (length vecs) = (im_nx im * im_ny im)%Z /\ Z.of_nat (length lum) = (im_nx im * im_ny im)%Z /\ Z.of_nat (length oga) = (im_ny im * im_ny im)%Z.
Proof.
  intros Y X. unfold hdr2vol. unfold pixelrays, pixelrays1. destruct (mk_view_360 d) as [_ ->]. change (2 =? 2)%Z with true. cbv iota.
  rewrite app_length, !map_length, Nat2Z.inj_add, !zgrid_length by lia. lia.
Qed.

(** * pixel2omega *)
Lemma cross_sqr a b : dot (cross a b) (cross a b) = dot a a * dot b b - dot a b * dot a b.
Proof. destruct a as [a1 a2 a3], b as [b1 b2 b3]; unfold cross, dot; cbn [vx vy vz]. ring. Qed.
Lemma dot_vsub a b c d : dot (vsub a b) (vsub c d) = dot a c - dot a d - dot b c + dot b d.
Proof. destruct a as [a1 a2 a3], b as [b1 b2 b3], c as [c1 c2 c3], d as [d1 d2 d3]; unfold vsub, dot; cbn [vx vy vz]. ring. Qed.
Lemma omega_dir d e va res p : pixel2omega (mk_view d va) res p = pixel2omega (mk_view e va) res p.
Proof.
  unfold pixel2omega. unfold vnorm. f_equal. rewrite !cross_sqr, !dot_vsub.
  rewrite !vxy2xyz_eq, !v2w_dot. replace (vscl d va) with (vscl e va) by reflexivity. reflexivity.
Qed.
Lemma omega_nonneg vm res p : 0 <= pixel2omega vm res p.
Proof. apply sqrt_pos. Qed.
Lemma ang2dir_flip x y : ang2dir (- x, y) = V3 (- vx (ang2dir (x, y))) (vy (ang2dir (x, y))) (vz (ang2dir (x, y))).
Proof.
  unfold ang2dir. cbn [fst snd]. replace (square (- x)) with (square x) by (unfold square; ring). cbn [vx vy vz]. f_equal. ring.
Qed.
Lemma ang2dir_swap x y : ang2dir (- y, - x) = V3 (- vy (ang2dir (x, y))) (- vx (ang2dir (x, y))) (vz (ang2dir (x, y))).
Proof.
  unfold ang2dir. cbn [fst snd]. replace (square (- y) + square (- x)) with (square x + square y) by (unfold square; ring).
  cbn [vx vy vz]. f_equal; ring.
Qed.
Definition om (xa xb ya yb : vec3) : R := vnorm (cross (vsub xb xa) (vsub yb ya)).
Lemma om_flip (f : vec3 -> vec3) xa xb ya yb : (forall a b, dot (f a) (f b) = dot a b) ->
  om (f xa) (f xb) (f ya) (f yb) = om xa xb ya yb.
Proof. intros H. unfold om, vnorm. f_equal. rewrite !cross_sqr, !dot_vsub, !H. reflexivity. Qed.
Lemma om_rev xa xb ya yb : om xb xa ya yb = om xa xb ya yb.
Proof. unfold om, vnorm. f_equal. rewrite !cross_sqr, !dot_vsub. ring. Qed.
Lemma om_swap xa xb ya yb : om xa xb ya yb = om ya yb xa xb.
Proof. unfold om, vnorm. f_equal. rewrite !cross_sqr, !dot_vsub. rewrite (dot_sym xb yb), (dot_sym xb ya), (dot_sym xa yb), (dot_sym xa ya). ring. Qed.
Definition view_at (s : R) (res : Z) (x y : R) : vec3 :=
  ang2dir ((x / IZR res - 1 / 2) * (-1 * s), (y / IZR res - 1 / 2) * (1 * s)).
Lemma omega_eq d va res p : pixel2omega (mk_view d va) res p =
  om (view_at (vscl d va) res (fst p - 1 / 2) (snd p)) (view_at (vscl d va) res (fst p + 1 / 2) (snd p))
     (view_at (vscl d va) res (fst p) (snd p - 1 / 2)) (view_at (vscl d va) res (fst p) (snd p + 1 / 2)).
Proof.
  unfold pixel2omega. cbv zeta. rewrite !vxy2xyz_eq. cbn [fst snd].
  exact (om_flip (view2world (mk_view d va)) _ _ _ _ (v2w_dot d va)).
Qed.
Lemma view_at_flip s res x y : (res <> 0)%Z -> view_at s res (IZR res - x) y =
  V3 (- vx (view_at s res x y)) (vy (view_at s res x y)) (vz (view_at s res x y)).
Proof.
  intros N. apply not_0_IZR in N. unfold view_at. rewrite <- ang2dir_flip. f_equal. f_equal. field. exact N.
Qed.
Lemma view_at_swap s res x y : view_at s res y x =
  V3 (- vy (view_at s res x y)) (- vx (view_at s res x y)) (vz (view_at s res x y)).
Proof. unfold view_at. rewrite <- ang2dir_swap. f_equal. f_equal; ring. Qed.
Lemma omega_mirror d va res x y : (res <> 0)%Z -> pixel2omega (mk_view d va) res (IZR res - x, y) = pixel2omega (mk_view d va) res (x, y).
Proof.
  intros N. rewrite !omega_eq. cbn [fst snd].
  replace (IZR res - x - 1 / 2) with (IZR res - (x + 1 / 2)) by ring. replace (IZR res - x + 1 / 2) with (IZR res - (x - 1 / 2)) by ring.
  rewrite !view_at_flip by exact N.
  rewrite <- om_rev. rewrite (om_rev (V3 _ _ _)). rewrite <- om_rev.
  exact (om_flip (fun v => V3 (- vx v) (vy v) (vz v)) _ _ _ _ ltac:(intros [a1 a2 a3] [b1 b2 b3]; unfold dot; cbn [vx vy vz]; ring)).
Qed.
Lemma omega_swap d va res x y : pixel2omega (mk_view d va) res (y, x) = pixel2omega (mk_view d va) res (x, y).
Proof.
  rewrite !omega_eq. cbn [fst snd]. rewrite om_swap. rewrite (view_at_swap _ _ (x - 1 / 2) y), (view_at_swap _ _ (x + 1 / 2) y), (view_at_swap _ _ x (y - 1 / 2)), (view_at_swap _ _ x (y + 1 / 2)).
  exact (om_flip (fun v => V3 (- vy v) (- vx v) (vz v)) _ _ _ _ ltac:(intros [a1 a2 a3] [b1 b2 b3]; unfold dot; cbn [vx vy vz]; ring)).
Qed.

(** * colours *)
Lemma rad_scale w c k : rgb2rad w (map (fun x => k * x) c) = k * rgb2rad w c.
Proof.
  unfold rgb2rad. revert w. induction c as [|x c IH]; intros [|y w]; cbn [map combine Rsum fold_right]; try (unfold Rsum; cbn; ring).
  cbn [Rsum fold_right map combine fst snd] in *. unfold Rsum in *. cbn [fold_right]. rewrite IH. ring.
Qed.
Lemma lum_rad w c : rgb2lum w c = 179 * rgb2rad w c.
Proof.
  unfold rgb2lum, rgb2rad. revert c. induction w as [|y w IH]; intros [|x c]; unfold Rsum in *; cbn [map combine fold_right fst snd]; try ring.
  rewrite IH. ring.
Qed.
Lemma rad_add w a b : length a = length b -> rgb2rad w (map (fun p => fst p + snd p) (combine a b)) = rgb2rad w a + rgb2rad w b.
Proof.
  unfold rgb2rad. revert a b. induction w as [|y w IH]; intros [|x a] [|z b] E; try discriminate E; unfold Rsum in *; cbn [map combine fold_right fst snd]; try ring.
  rewrite IH by (now inversion E). ring.
Qed.
Lemma rad_default r g b lo hi : lo <= r <= hi -> lo <= g <= hi -> lo <= b <= hi -> lo <= rgb2rad radiance_weights [r; g; b] <= hi.
Proof. intros. unfold rgb2rad, radiance_weights, Rsum. cbn [map combine fold_right fst snd]. lra. Qed.

Lemma pow2_pos k : 0 < pow2 k. Proof. unfold pow2. apply powerRZ_lt. lra. Qed.
Lemma pow2_succ k : pow2 (k + 1) = 2 * pow2 k.
Proof. unfold pow2. rewrite powerRZ_add by lra. rewrite powerRZ_1. ring. Qed.
Lemma chan_nonneg t c e : (0 <= c)%Z -> 0 <= rgbe2rgb t c e /\ (rgbe2rgb t c e = 0 <-> c = 0%Z).
Proof.
  intros C. unfold rgbe2rgb. destruct (Z.eqb_spec c 0) as [->|N]; [split; [lra|tauto]|].
  assert (1 <= IZR c) by (apply IZR_le; lia). pose proof (pow2_pos (sub128 t e)).
  assert (0 < (IZR c + 1 / 2) * (pow2 (sub128 t e) / 256)) by (apply Rmult_lt_0_compat; lra). split; [lra|]. split; intros; [lra|contradiction].
Qed.
Lemma chan_mono t a b e : (0 <= a)%Z -> (a < b)%Z -> rgbe2rgb t a e < rgbe2rgb t b e.
Proof.
  intros A B. unfold rgbe2rgb. pose proof (pow2_pos (sub128 t e)). destruct (Z.eqb_spec b 0); [lia|].
  assert (IZR a < IZR b) by (apply IZR_lt; lia). assert (0 <= IZR a) by (apply IZR_le; lia).
  destruct (Z.eqb_spec a 0); [apply Rmult_lt_0_compat; lra|]. apply Rmult_lt_compat_r; lra.
Qed.
Lemma lum_eq t r g b e : rgbe2lum t r g b e =
  179 * (265 / 1000 * rgbe2rgb t r e + 670 / 1000 * rgbe2rgb t g e + 65 / 1000 * rgbe2rgb t b e).
Proof. unfold rgbe2lum. rewrite lum_rad. unfold rgb2rad, radiance_weights, Rsum. cbn [map combine fold_right fst snd]. lra. Qed.
Lemma lum_nonneg t r g b e : (0 <= r)%Z -> (0 <= g)%Z -> (0 <= b)%Z ->
  0 <= rgbe2lum t r g b e /\ (rgbe2lum t r g b e = 0 <-> r = 0%Z /\ g = 0%Z /\ b = 0%Z).
Proof.
  intros A B C. rewrite lum_eq. pose proof (chan_nonneg t r e A) as [Hr Er]. pose proof (chan_nonneg t g e B) as [Hg Eg].
  pose proof (chan_nonneg t b e C) as [Hb Eb]. split; [lra|]. rewrite <- Er, <- Eg, <- Eb. split; [intros; lra|intros (-> & -> & ->); lra].
Qed.
Lemma lum_mono t r g b r' g' b' e : (0 <= r <= r')%Z -> (0 <= g <= g')%Z -> (0 <= b <= b')%Z -> (r + g + b < r' + g' + b')%Z ->
  rgbe2lum t r g b e < rgbe2lum t r' g' b' e.
Proof.
  intros A B C D. rewrite !lum_eq.
  assert (forall x y, (0 <= x <= y)%Z -> rgbe2rgb t x e <= rgbe2rgb t y e) as M.
  { intros x y H. destruct (Z.eq_dec x y) as [->|N]; [lra|]. apply Rlt_le, chan_mono; lia. }
  pose proof (M _ _ A). pose proof (M _ _ B). pose proof (M _ _ C).
  assert (r < r' \/ g < g' \/ b < b')%Z as [L|[L|L]] by lia; [pose proof (chan_mono t r r' e (proj1 A) L)|pose proof (chan_mono t g g' e (proj1 B) L)|pose proof (chan_mono t b b' e (proj1 C) L)]; lra.
Qed.
Lemma lum_double_int r g b e : rgbe2lum IntDtype r g b (e + 1) = 2 * rgbe2lum IntDtype r g b e.
Proof.
  rewrite !lum_eq. assert (forall c, rgbe2rgb IntDtype c (e + 1) = 2 * rgbe2rgb IntDtype c e) as E.
  { intros c. unfold rgbe2rgb. destruct (c =? 0)%Z; [lra|]. cbn [sub128]. replace (e + 1 - 128)%Z with (e - 128 + 1)%Z by lia.
    rewrite pow2_succ. field. }
  rewrite !E. ring.
Qed.
Lemma lum_double_uint8_hi r g b e : (128 <= e)%Z -> (e + 1 < 256)%Z -> rgbe2lum Uint8 r g b (e + 1) = 2 * rgbe2lum Uint8 r g b e.
Proof.
  intros L H.
  assert (forall k, (128 <= k < 256)%Z -> rgbe2lum Uint8 r g b k = rgbe2lum IntDtype r g b k) as E.
  { intros k K. rewrite !lum_eq. unfold rgbe2rgb, sub128. rewrite !Z.mod_small by lia. reflexivity. }
  rewrite !E by lia. apply lum_double_int.
Qed.
Lemma lum_uint8_drop r g b : (0 <= r)%Z -> (0 <= g)%Z -> (0 <= b)%Z -> (0 < r + g + b)%Z -> rgbe2lum Uint8 r g b 128 < rgbe2lum Uint8 r g b 127.
Proof.
  intros A B C D.
  assert (forall c, (0 <= c)%Z -> rgbe2rgb Uint8 c 128 = rgbe2rgb Uint8 c 127 / pow2 255) as E.
  { intros c _. unfold rgbe2rgb. change (sub128 Uint8 128) with 0%Z. change (sub128 Uint8 127) with 255%Z.
    pose proof (pow2_pos 255). change (pow2 0) with 1. destruct (c =? 0)%Z; field; lra. }
  assert (rgbe2lum Uint8 r g b 128 = rgbe2lum Uint8 r g b 127 / pow2 255) as ->.
  { rewrite !lum_eq, !E by lia. pose proof (pow2_pos 255). field. lra. }
  assert (0 < rgbe2lum Uint8 r g b 127).
  { pose proof (lum_nonneg Uint8 r g b 127 A B C) as [P Z0]. destruct P as [P|P]; [exact P|]. symmetry in P. apply Z0 in P. lia. }
  assert (1 < pow2 255).
  { unfold pow2. change 255%Z with (Z.of_nat 255). rewrite <- pow_powerRZ. apply Rlt_pow_R1; [lra|apply Nat.lt_0_succ]. }
  apply Rmult_lt_reg_r with (pow2 255); [lra|]. unfold Rdiv. rewrite Rmult_assoc, Rinv_l by lra. nra.
Qed.

(** * is_hdr, load_txt *)
Lemma is_hdr_never decode content : is_hdr decode content <> Ok true.
Proof. unfold is_hdr. destruct (decode content); cbn [bind py_eq]; discriminate. Qed.
Lemma is_hdr_result decode content : is_hdr decode content = match decode content with Ok _ => Ok false | Raise e => Raise e end.
Proof. unfold is_hdr. now destruct (decode content). Qed.
Lemma load_txt_table A fs (loadtxt : list Z -> res A) a :
  match a with
  | TxtOther => load_txt fs loadtxt a = Raise TypeError
  | TxtPath n => match fs n with
     | None => load_txt fs loadtxt a = Raise FileNotFoundError
     | Some c => (forall v, loadtxt c = Ok v -> load_txt fs loadtxt a = Ok v) /\
                 (loadtxt c = Raise ValueError \/ loadtxt c = Raise AttributeError -> load_txt fs loadtxt a = Raise ValueError)
     end
  end.
Proof.
  destruct a as [n|]; [|reflexivity]. unfold load_txt. destruct (fs n) as [c|]; [|reflexivity]. split.
  - intros v ->. reflexivity.
  - intros [-> | ->]; reflexivity.
Qed.
