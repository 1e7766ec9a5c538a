(** Lemmas for Prop_Tools.v: headers *)
From Coq Require Import Ascii String Lia.
From Verif Require Import Base L_Base M_Translate M_Mapper M_Utility M_Header S_Header L_Header L_Header2 L_Header5 L_Header6 M_Io S_Io L_Array L_Io M_Tools S_Tools L_Tools.
Import ListNotations.
Local Open Scope list_scope.

Lemma contains_spec p l : contains p l = true <-> mentions p l.
Proof.
  induction l as [|c l IH]; cbn [contains]; rewrite orb_true_iff, prefixb_spec.
  - split; [intros [[b E]|E]; [exists [], b; exact E|discriminate]|]. intros (a & b & E). left. exists []. destruct a; [|discriminate]. cbn in E. destruct p; [reflexivity|discriminate].
  - rewrite IH. split.
    + intros [[b E]|(a & b & E)]; [exists [], b; exact E|exists (c :: a), b; cbn; now rewrite E].
    + intros ([|d a] & b & E); [left; exists b; exact E|right]. cbn in E. injection E as -> ->. exists a, b. reflexivity.
Qed.
Lemma contains_false p l : contains p l = false <-> ~ mentions p l.
Proof. rewrite <- contains_spec. destruct (contains p l); split; congruence. Qed.

Definition tab1 : str := ["009"%char].
Lemma flat_join (ls : list str) : ls <> [] -> flat_map (fun l => tab1 ++ l ++ newline) ls = join newline (map (app tab1) ls) ++ newline.
Proof.
  induction ls as [|a [|b ls] IH]; intros N; [congruence| |].
  - cbn [flat_map map join]. now rewrite app_nil_r, <- app_assoc.
  - change (flat_map (fun l => tab1 ++ l ++ newline) (a :: b :: ls)) with ((tab1 ++ a ++ newline) ++ flat_map (fun l => tab1 ++ l ++ newline) (b :: ls)).
    rewrite IH by discriminate. cbn [map]. change (join newline ((tab1 ++ a) :: (tab1 ++ b) :: map (app tab1) ls)) with ((tab1 ++ a) ++ newline ++ join newline ((tab1 ++ b) :: map (app tab1) ls)).
    now rewrite <- !app_assoc.
Qed.
Definition shown (n : str) (ls : list str) : list str := (n ++ s ":") :: map (app tab1) (s "#?RADIANCE" :: ls).
Lemma printed_eq n ls : printed n ls = join newline (shown n ls) ++ newline ++ newline.
Proof.
  unfold printed. fold tab1. rewrite flat_join by discriminate. unfold shown. cbn [map].
  change (join newline ((n ++ s ":") :: (tab1 ++ s "#?RADIANCE") :: map (app tab1) ls)) with ((n ++ s ":") ++ newline ++ join newline ((tab1 ++ s "#?RADIANCE") :: map (app tab1) ls)).
  now rewrite <- !app_assoc.
Qed.
Lemma join_last ls l : exists a, join newline (ls ++ [l]) = a ++ l.
Proof.
  induction ls as [|b ls IH]; [exists []; reflexivity|]. destruct IH as [a E]. destruct ls as [|d ls].
  - exists (b ++ newline). cbn [app join]. now rewrite <- app_assoc.
  - exists (b ++ newline ++ a). cbn [app] in *. change (join newline (b :: d :: ls ++ [l])) with (b ++ newline ++ join newline (d :: ls ++ [l])).
    rewrite E. now rewrite <- !app_assoc.
Qed.
Lemma radiance_line : header_line (s "#?RADIANCE").
Proof. split; [repeat constructor|]. exists (s "#?RADIANC"), "E"%char. split; reflexivity. Qed.
Lemma break_space c : is_space c = false -> is_break c = false.
Proof.
  unfold is_space, is_break. generalize (Z.of_N (N_of_ascii c)) as z. intros z.
  destruct (Z.eqb_spec z 32), (Z.leb_spec 9 z), (Z.leb_spec z 13), (Z.leb_spec 28 z), (Z.leb_spec z 31); cbn [orb andb]; try discriminate; intros _;
    destruct (Z.leb_spec 10 z), (Z.leb_spec z 30); cbn [andb orb]; try reflexivity; lia.
Qed.
Lemma shown_lines n ls : n <> [] -> Forall (fun c => is_space c = false) n -> Forall header_line ls ->
  splitlines (strip (printed n ls)) = shown n ls.
Proof.
  intros N B H. assert (Forall one_line (shown n ls)) as O.
  { unfold shown. constructor.
    - apply Forall_app. split; [|repeat constructor]. eapply Forall_impl; [|exact B]. intros c. apply break_space.
    - apply Forall_map. constructor; [repeat constructor|]. eapply Forall_impl; [|exact H]. intros l [L _]. constructor; [reflexivity|exact L]. }
  assert (Forall (fun l => l <> []) (shown n ls)) as NE.
  { unfold shown. constructor; [destruct n; discriminate|]. apply Forall_map, Forall_forall. intros l _. discriminate. }
  transitivity (splitlines (join newline (shown n ls))); [f_equal|now apply splitlines_join]. rewrite printed_eq.
  assert (exists a c, join newline (shown n ls) = a ++ [c] /\ is_space c = false) as (a & c & E & C).
  { assert (exists ls' l, shown n ls = ls' ++ [l] /\ exists a c, l = a ++ [c] /\ is_space c = false) as (ls' & l & Es & x & c & El & C).
    { destruct (exists_last (l := s "#?RADIANCE" :: ls) ltac:(discriminate)) as (p & q & Ep). exists ((n ++ s ":") :: map (app tab1) p), (tab1 ++ q).
      split; [unfold shown; rewrite Ep, map_app; reflexivity|]. assert (In q (s "#?RADIANCE" :: ls)) as Q by (rewrite Ep; apply in_or_app; right; now left).
      assert (header_line q) as [_ (x & c & -> & C)]. { destruct Q as [<-|Q]; [apply radiance_line|]. rewrite Forall_forall in H. auto. }
      exists (tab1 ++ x), c. split; [now rewrite app_assoc|exact C]. }
    destruct (join_last ls' l) as [b Eb]. exists (b ++ x), c. rewrite Es, Eb, El, app_assoc. auto. }
  unfold strip. assert (exists c0 r, join newline (shown n ls) = c0 :: r /\ is_space c0 = false) as (c0 & r & E0 & C0).
  { destruct n as [|c0 n]; [congruence|]. inversion B; subst. eexists c0, _. split; [reflexivity|assumption]. }
  replace (lstrip (join newline (shown n ls) ++ newline ++ newline)) with (join newline (shown n ls) ++ newline ++ newline)
    by (rewrite E0; cbn [app]; symmetry; now apply lstrip_nonblank).
  rewrite E. rewrite !rev_app_distr. cbn [rev app newline]. cbn [lstrip]. change (is_space "010") with true. cbv iota. rewrite C.
  cbn [rev]. now rewrite rev_involutive.
Qed.
Lemma mentions_app p a b : mentions p a -> mentions p (a ++ b).
Proof. intros (x & y & ->). exists x, (y ++ b). now rewrite <- !app_assoc. Qed.
Lemma mentions_app_r p a b : mentions p b -> mentions p (a ++ b).
Proof. intros (x & y & ->). exists (a ++ x), y. now rewrite <- !app_assoc. Qed.
Definition keeps (l : str) : bool := negb (contains (s "RADIANCE") l).
(** a phrase without line break or tab that occurs in the output occurs in the name line or in a line *)
Lemma cut_list {A} (a b c d : list A) : a ++ b = c ++ d -> (exists m, a = c ++ m /\ d = m ++ b) \/ (exists m, c = a ++ m /\ b = m ++ d).
Proof. intros E. apply app_eq_app in E. destruct E as (m & [H|H]); [left|right]; now exists m. Qed.
Lemma mentions_join p ls : p <> [] -> ~ In "010"%char p -> mentions p (join newline ls) -> Exists (mentions p) ls.
Proof.
  intros N B. induction ls as [|l [|l' ls] IH]; intros H.
  - destruct H as (a & b & E). symmetry in E. apply app_eq_nil in E. destruct E as [_ E]. apply app_eq_nil in E. destruct E; contradiction.
  - now left.
  - change (join newline (l :: l' :: ls)) with (l ++ newline ++ join newline (l' :: ls)) in H. set (r := join newline (l' :: ls)) in *.
    destruct H as (a & b & E). destruct (cut_list l (newline ++ r) a (p ++ b) E) as [(m & E1 & E2)|(m & E1 & E2)].
    + destruct (cut_list p b m (newline ++ r) E2) as [(k & F1 & F2)|(k & F1 & F2)].
      * destruct k as [|c k]; [left; exists a, []; rewrite app_nil_r in *; congruence|]. cbn in F2. injection F2 as <- _. exfalso. apply B. rewrite F1. apply in_or_app. right. now left.
      * left. exists a, k. congruence.
    + right. apply IH. destruct m as [|c m]; cbn in E2.
      * destruct p as [|c p]; [congruence|]. cbn in E2. injection E2 as <- _. exfalso. apply B. now left.
      * injection E2 as _ E2. exists m, b. exact E2.
Qed.
Lemma mentions_tail p a c : ~ In c p -> mentions p (a ++ [c]) -> mentions p a.
Proof.
  intros B (x & y & E). destruct y as [|d y] using rev_ind.
  - rewrite app_nil_r in E. destruct p as [|d p] using rev_ind; [exists [], a; reflexivity|]. rewrite app_assoc in E. apply app_inj_tail in E. destruct E as [_ <-].
    exfalso. apply B, in_or_app. right. now left.
  - rewrite !app_assoc in E. apply app_inj_tail in E. destruct E as [-> _]. exists x, y. now rewrite <- app_assoc.
Qed.
Lemma mentions_head p a c : p <> [] -> ~ In c p -> mentions p (c :: a) -> mentions p a.
Proof.
  intros N B ([|d x] & y & E); cbn in E.
  - destruct p as [|d p]; [congruence|]. cbn in E. injection E as <- _. exfalso. apply B. now left.
  - injection E as _ ->. exists x, y. reflexivity.
Qed.
Lemma mentions_printed p n ls : p <> [] -> ~ In "010"%char p -> ~ In "009"%char p -> ~ In ":"%char p -> ~ mentions p (s "#?RADIANCE") ->
  mentions p (printed n ls) -> mentions p n \/ Exists (mentions p) ls.
Proof.
  intros N B T C Q H. rewrite printed_eq in H. rewrite app_assoc in H. apply mentions_tail in H; [|exact B]. apply mentions_tail in H; [|exact B].
  apply mentions_join in H; [|exact N|exact B]. unfold shown in H. cbn [map] in H. rewrite !Exists_cons in H. destruct H as [H|[H|H]].
  - left. now apply mentions_tail in H.
  - apply mentions_head in H; [contradiction|exact N|exact T].
  - right. apply Exists_exists in H. destruct H as (l & I & M). apply in_map_iff in I. destruct I as (l' & <- & I). apply Exists_exists. exists l'. split; [exact I|].
    now apply mentions_head in M.
Qed.
Lemma header_read {P} (t : tools P) files fill n f mode : tools_read t files -> plain_name n -> Forall (fun c => is_space c = false) n -> files n = Some f ->
  Forall header_line (f_header f) -> ~ mentions (s "cannot open") n -> Forall (fun l => ~ mentions (s "cannot open") l) (f_header f) ->
  hdr_header t fill n mode =
  let header := filter keeps ((n ++ s ":") :: map (app tab1) (f_header f)) in
  match mode with AsIs => Ok header | Cleaned => clean_header fill header | Items items => header_items fill header items end.
Proof.
  intros T Pn B E H C1 C2. unfold hdr_header. rewrite (proj2 (args_plain n Pn)). cbn [bind]. specialize (T n). rewrite E in T. destruct T as [_ ->].
  change (contains (s "bad header!") []) with false. cbv iota.
  assert (contains (s "cannot open") (printed n (f_header f)) = false) as ->.
  { apply contains_false. intros M. apply mentions_printed in M; try discriminate; try (cbn; intuition discriminate).
    - destruct M as [M|M]; [contradiction|]. apply Exists_exists in M. destruct M as (l & I & M). rewrite Forall_forall in C2. now apply (C2 l).
    - intros M'. apply contains_spec in M'. discriminate. }
  rewrite shown_lines by (try assumption; apply Pn). fold keeps. unfold shown. cbn [map filter].
  change (keeps (tab1 ++ s "#?RADIANCE")) with false. cbv iota. cbv zeta. reflexivity.
Qed.
Lemma keeps_app a l : keeps (a ++ l) = true -> keeps l = true.
Proof. unfold keeps. rewrite !negb_true_iff, !contains_false. intros H M. apply H. now apply mentions_app_r. Qed.
Lemma keeps_true l : ~ mentions (s "RADIANCE") l -> keeps l = true.
Proof. intros H. apply negb_true_iff, contains_false, H. Qed.
Lemma keeps_tab l : keeps (tab1 ++ l) = keeps l.
Proof.
  destruct (keeps l) eqn:E.
  - apply keeps_true. unfold keeps in E. apply negb_true_iff, contains_false in E. intros M. apply E. apply (mentions_head _ l "009") in M; [exact M|discriminate|cbn; intuition discriminate].
  - destruct (keeps (tab1 ++ l)) eqn:F; [|reflexivity]. apply keeps_app in F. congruence.
Qed.
Lemma keeps_colon n : keeps (n ++ s ":") = keeps n.
Proof.
  unfold keeps. f_equal. apply eq_true_iff_eq. rewrite !contains_spec. split; [|apply mentions_app].
  apply mentions_tail. cbn; intuition discriminate.
Qed.
Lemma header_lines {P} (t : tools P) files fill n f : tools_read t files -> plain_name n -> Forall (fun c => is_space c = false) n -> files n = Some f ->
  Forall header_line (f_header f) -> ~ mentions (s "cannot open") n -> Forall (fun l => ~ mentions (s "cannot open") l) (f_header f) ->
  exists kept, hdr_header t fill n AsIs = Ok kept /\
    forall l, In l kept <-> ~ mentions (s "RADIANCE") l /\ (l = n ++ s ":" \/ exists h, In h (f_header f) /\ l = tab1 ++ h).
Proof.
  intros T Pn B E H C1 C2. rewrite (header_read t files fill n f AsIs T Pn B E H C1 C2). cbv zeta. eexists. split; [reflexivity|].
  intros l. rewrite filter_In. unfold keeps. rewrite negb_true_iff, contains_false. cbn [In]. rewrite in_map_iff. split.
  - intros [[<-|(h & <- & I)] M]; (split; [exact M|]); [now left|right; exists h; auto].
  - intros [M [->|(h & I & ->)]]; (split; [|exact M]); [now left|right; exists h; auto].
Qed.
Lemma header_all {P} (t : tools P) files fill n f : tools_read t files -> plain_name n -> Forall (fun c => is_space c = false) n -> files n = Some f ->
  Forall header_line (f_header f) -> ~ mentions (s "cannot open") n -> Forall (fun l => ~ mentions (s "cannot open") l) (f_header f) ->
  ~ mentions (s "RADIANCE") n -> Forall (fun l => ~ mentions (s "RADIANCE") l) (f_header f) ->
  hdr_header t fill n AsIs = Ok ((n ++ s ":") :: map (app tab1) (f_header f)).
Proof.
  intros T Pn B E H C1 C2 R1 R2. rewrite (header_read t files fill n f AsIs T Pn B E H C1 C2). cbv zeta. f_equal. cbn [filter]. rewrite keeps_colon, (keeps_true n R1). f_equal.
  clear -R2. induction R2 as [|l ls R _ IH]; [reflexivity|]. cbn [map filter]. now rewrite keeps_tab, (keeps_true l R), IH.
Qed.
Lemma header_missing {P} (t : tools P) files fill n mode : tools_read t files -> plain_name n -> files n = None -> hdr_header t fill n mode = Raise FileNotFoundError.
Proof.
  intros T Pn E. unfold hdr_header. rewrite (proj2 (args_plain n Pn)). cbn [bind]. specialize (T n). rewrite E in T. destruct T as [_ ->].
  change (contains (s "bad header!") []) with false. cbv iota.
  assert (contains (s "cannot open") (n ++ s ": cannot open" ++ newline) = true) as ->; [|reflexivity].
  apply contains_spec. exists (n ++ s ": "), newline. rewrite <- app_assoc. reflexivity.
Qed.
Lemma mentions_flat p l (ls : list str) g h : In l ls -> mentions p l -> mentions p (flat_map (fun l => g ++ l ++ h) ls).
Proof.
  intros I M. apply in_split in I. destruct I as (a & b & ->). rewrite flat_map_app. apply mentions_app_r. cbn [flat_map]. apply mentions_app, mentions_app_r, mentions_app. exact M.
Qed.
Lemma header_phrase {P} (t : tools P) files fill n f mode : tools_read t files -> plain_name n -> files n = Some f -> Exists (mentions (s "cannot open")) (f_header f) ->
  hdr_header t fill n mode = Raise FileNotFoundError.
Proof.
  intros T Pn E X. unfold hdr_header. rewrite (proj2 (args_plain n Pn)). cbn [bind]. specialize (T n). rewrite E in T. destruct T as [_ ->].
  change (contains (s "bad header!") []) with false. cbv iota.
  assert (contains (s "cannot open") (printed n (f_header f)) = true) as ->; [|reflexivity].
  apply contains_spec. apply Exists_exists in X. destruct X as (l & I & M). unfold printed. do 3 apply mentions_app_r. apply mentions_app.
  apply (mentions_flat _ l); [now right|exact M].
Qed.

(** * reading and writing back the pixels *)
Lemma flat_channels {P} (g : nat -> P -> Z) (px : list P) : flat_map (fun c => map (g c) px) [0; 1; 2]%nat = map (g 0%nat) px ++ map (g 1%nat) px ++ map (g 2%nat) px.
Proof. cbn [flat_map]. now rewrite app_nil_r. Qed.
Lemma picture_back {P} (pv : pvalue_ops P) p : faithful pv -> full p -> exists a, hdr2carray pv p = Ok a /\ carray2hdr pv a = Ok p.
Proof.
  intros [W F] L. destruct p as [ny nx px]. unfold full in L. cbn [pic_px pic_ny pic_nx] in L. unfold hdr2carray, pvalue_n. cbn [pic_px pic_ny pic_nx].
  destruct px as [|d0 px0] eqn:Epx.
  - (* no pixels *)
    set (b := Arr [3%nat; ny; nx] (fun _ => 0%Z)).
    assert (ny * nx = 0)%nat as Z0 by (cbn in L; lia).
    assert (nd_ravel b = []) as B. { apply length_zero_iff_nil. rewrite ravel_length. cbn [nd_shape b nd_size fold_right]. lia. }
    change [3%Z; Z.of_nat ny; Z.of_nat nx] with (map Z.of_nat [3%nat; ny; nx]).
    change (flat_map le_bytes (flat_map (fun c => map (pv_chan pv c) []) [0%nat; 1%nat; 2%nat])) with (@nil Z).
    assert (@nil Z = flat_map le_bytes (nd_ravel b)) as -> by now rewrite B.
    rewrite (bytes2np_ravel b [3%nat; ny; nx]); [|intros idx I; cbn; unfold word; lia|reflexivity]. cbn [bind].
    eexists. split; [reflexivity|]. set (a := nd_T021 _).
    assert (nd_shape a = [3%nat; nx; ny]) as Sa by reflexivity.
    assert (words a) as Wa. { intros idx I. rewrite Sa in I. destruct idx as [|c [|x [|y [|]]]]; cbn [in_range] in I; try tauto. nia. }
    rewrite (proj2 (color_written pv a nx ny Wa Sa)). f_equal. f_equal. apply length_zero_iff_nil. rewrite ravel_length. cbn [nd_shape nd_size fold_right]. lia.
  - rewrite <- Epx in *. clear Epx px0.
    assert (exists q, nd_shape q = [ny; nx] /\ nd_ravel q = px) as (q & Sq & Eq).
    { set (q := Arr [ny; nx] (fun idx => nth (flat_index [ny; nx] idx) px d0)). exists q. split; [reflexivity|].
      apply nth_ext with (d := d0) (d' := d0); [rewrite ravel_length; cbn [nd_shape q nd_size fold_right]; lia|].
      intros k K. rewrite ravel_length in K. change (nd_shape q) with [ny; nx] in K. destruct (index_of_nth _ k K) as [I K0]. cbv zeta in I, K0.
      pose proof (nth_ravel q d0 _ I) as H. change (nd_shape q) with [ny; nx] in H. rewrite K0 in H. rewrite H. cbn [nd_get q]. now rewrite K0. }
    subst px.
    set (b := Arr [3%nat; ny; nx] (fun idx => match idx with c :: r => pv_chan pv c (nd_get q r) | [] => 0%Z end)).
    assert (flat_map (fun c => map (pv_chan pv c) (nd_ravel q)) [0%nat; 1%nat; 2%nat] = nd_ravel b) as ->.
    { rewrite (nd_shape_cons b 3 [ny; nx] eq_refl). cbn [seq flat_map]. unfold nd_ravel. rewrite Sq, !map_map. reflexivity. }
    change [3%Z; Z.of_nat ny; Z.of_nat nx] with (map Z.of_nat [3%nat; ny; nx]).
    rewrite (bytes2np_ravel b [3%nat; ny; nx]); [|intros idx I; destruct idx; [destruct I|apply W]|reflexivity]. cbn [bind].
    eexists. split; [reflexivity|]. set (a := nd_T021 _).
    assert (nd_shape a = [3%nat; nx; ny]) as Sa by reflexivity.
    assert (forall c x y, (c < 3)%nat -> (x < nx)%nat -> (y < ny)%nat -> nd_get a [c; x; y] = pv_chan pv c (nd_get q [(ny - 1 - y)%nat; x])) as G.
    { intros c x y C X Y. unfold a, nd_T021, nd_flip1. cbn [nd_get nd_shape swap12 nd_of_list nth].
      change [3%nat; ny; nx] with (nd_shape b). rewrite nth_ravel by (cbn [nd_shape b in_range]; lia). reflexivity. }
    assert (words a) as Wa. { intros idx I. rewrite Sa in I. destruct idx as [|c [|x [|y [|]]]]; cbn [in_range] in I; try tauto. rewrite G by lia. apply W. }
    rewrite (proj2 (color_written pv a nx ny Wa Sa)). f_equal. f_equal. unfold nd_ravel. cbn [nd_shape]. rewrite Sq.
    apply map_ext_in. intros idx I. apply in_indices in I. destruct idx as [|i [|j [|k idx]]]; cbn [in_range] in I; try tauto. cbn [nd_get].
    rewrite !G by lia. rewrite F. f_equal. f_equal. lia.
Qed.
Lemma read_file {P} (pv : pvalue_ops P) t files n : tools_read t files -> plain_name n ->
  match files n with
  | Some f => hdr2array_file pv t n = hdr2array pv (f_picture f) /\ hdr2carray_file pv t n = hdr2carray pv (f_picture f)
  | None => hdr2array_file pv t n = Raise ValueError /\ hdr2carray_file pv t n = Raise ValueError
  end.
Proof.
  intros T Pn. specialize (T n). unfold hdr2array_file, hdr2carray_file. rewrite !(proj1 (args_plain n Pn)). cbn [bind].
  destruct (files n) as [f|]; destruct T as [T _]; rewrite !T; auto.
Qed.
Lemma cleanheader_pixels {P} (pv : pvalue_ops P) t files fill n f p args : tools_read t files -> plain_name n -> files n = Some f -> faithful pv -> full (f_picture f) ->
  cleanheader pv t fill n = Ok (p, args) -> p = f_picture f.
Proof.
  intros T Pn E F L C. pose proof (read_file pv t files n T Pn) as R. rewrite E in R. unfold cleanheader in C. rewrite (proj2 R) in C.
  destruct (picture_back pv (f_picture f) F L) as (a & A1 & A2). rewrite A1 in C. cbn [bind] in C.
  destruct (hdr_header t fill n AsIs) as [h|]; [|discriminate]. cbn [bind] in C. destruct (clean_header fill h) as [o|]; [|discriminate]. cbn [bind] in C.
  destruct (getinfo_args o) as [g|]; [|discriminate]. cbn [bind] in C. rewrite A2 in C. cbn [bind] in C. now injection C as -> _.
Qed.
Lemma cleanheader_steps {P} (pv : pvalue_ops P) t files fill n f : tools_read t files -> plain_name n -> files n = Some f -> faithful pv -> full (f_picture f) ->
  Forall (fun c => is_space c = false) n -> Forall header_line (f_header f) ->
  Forall (fun l => ~ mentions (s "cannot open") l /\ ~ mentions (s "RADIANCE") l) (n :: f_header f) ->
  cleanheader pv t fill n = bind (clean_header fill ((n ++ s ":") :: map (app tab1) (f_header f))) (fun h => bind (getinfo_args h) (fun args => Ok (f_picture f, args))).
Proof.
  intros T Pn E F L B H M. apply Forall_cons_iff in M. destruct M as [[M1 M2] M]. apply Forall_and_inv in M. destruct M as [M3 M4].
  pose proof (read_file pv t files n T Pn) as R. rewrite E in R. unfold cleanheader. rewrite (proj2 R).
  destruct (picture_back pv (f_picture f) F L) as (a & A1 & A2). rewrite A1. cbn [bind].
  rewrite (header_all t files fill n f) by assumption. cbn [bind]. destruct (clean_header fill _) as [o|]; [|reflexivity]. cbn [bind].
  destruct (getinfo_args o) as [g|]; [|reflexivity]. cbn [bind]. now rewrite A2.
Qed.

(** * the whole command *)
Lemma wf_header_line h : wf_hline h -> header_line (print_hline h).
Proof.
  intros (O & [_ T] & _). split; [exact O|]. destruct (rev (print_hline h)) as [|c r] eqn:E; [destruct T|]. exists (rev r), c. split; [|apply T].
  rewrite <- (rev_involutive (print_hline h)), E. reflexivity.
Qed.
Definition kept_header (n : str) (hs : list hline) : list str :=
  kept_section (Block n hs) ++ map (fun v => s "VIEW=" ++ v) (last_of (views hs)).
Lemma clean_block fill n hs : fills fill -> wf_name n -> Forall wf_hline hs -> adjacent_distinct (map fst (plains hs)) -> NoDup (map pair_line (plains hs)) ->
  Forall (fun l => (length l <= 150)%nat) (kept_section (Block n hs)) ->
  clean_header fill ((n ++ s ":") :: map (app tab1) (map print_hline hs)) = Ok (kept_header n hs).
Proof.
  intros F N H A D L. unfold kept_header.
  pose proof (clean_sections fill [Block n hs] F) as C. cbn [flat_map print_section lines_of fresh_keys] in C. rewrite !app_nil_r in C.
  rewrite map_map. change tab1 with tab. apply C.
  - constructor; [split; assumption|constructor].
  - split; [exact A|exact Logic.I].
  - exact D.
  - exact L.
Qed.
Lemma last_of_in {A} (l : list A) x : In x (last_of l) -> In x l.
Proof. unfold last_of. destruct (rev l) as [|y r] eqn:E; intros []. subst. apply in_rev. rewrite E. now left. destruct H. Qed.
Lemma in_plains hs k v : In (k, v) (plains hs) -> In (HPlain k v) hs.
Proof.
  unfold plains. rewrite in_flat_map. intros (h & I & J). destruct h; cbn in J; try (now destruct J). destruct J as [J|[]]. injection J as <- <-. exact I.
Qed.
Lemma in_views hs v : In v (views hs) -> In (HView v) hs.
Proof.
  unfold views. rewrite in_flat_map. intros (h & I & J). destruct h; cbn in J; try (now destruct J). destruct J as [J|[]]. subst. exact I.
Qed.
Lemma kept_quotes n hs : ~ In "'"%char n -> Forall (fun h => ~ In "'"%char (print_hline h)) hs -> Forall (fun l => ~ In "'"%char l) (kept_header n hs).
Proof.
  intros N H. rewrite Forall_forall in H. apply Forall_forall. intros l I. unfold kept_header in I. apply in_app_or in I. destruct I as [I|I].
  - cbn [kept_section] in I. destruct (plains hs) as [|p ps] eqn:E; [destruct I|]. destruct I as [<-|I].
    + intros J. apply in_app_or in J. destruct J as [J|J]; [now apply N|]. cbn in J. intuition discriminate.
    + rewrite <- E in I. apply in_map_iff in I. destruct I as ([k v] & <- & I). apply in_plains in I. apply H in I. cbn [print_hline] in I. unfold pair_line. cbn [fst snd].
      intros [J|J]; [discriminate|]. now apply I.
  - apply in_map_iff in I. destruct I as (v & <- & I). apply last_of_in, in_views, H in I. exact I.
Qed.
Lemma cleanheader_simple {P} (pv : pvalue_ops P) t files fill n hs pic : tools_read t files -> files n = Some (Img (map print_hline hs) pic) -> faithful pv -> full pic -> fills fill ->
  plain_name n -> Forall (fun c => is_space c = false) n -> wf_name n -> Forall wf_hline hs ->
  Forall (fun l => ~ mentions (s "cannot open") l /\ ~ mentions (s "RADIANCE") l) (n :: map print_hline hs) ->
  adjacent_distinct (map fst (plains hs)) -> NoDup (map pair_line (plains hs)) -> Forall (fun l => (length l <= 150)%nat) (kept_section (Block n hs)) ->
  cleanheader pv t fill n = bind (getinfo_args (kept_header n hs)) (fun args => Ok (pic, args)).
Proof.
  intros T E F L Fi Pn B N H M A D W. rewrite (cleanheader_steps pv t files fill n _ T Pn E F L B) by
    (cbn [f_header]; first [assumption|apply Forall_map; eapply Forall_impl; [exact wf_header_line|exact H]]).
  cbn [f_header f_picture]. rewrite clean_block by assumption. reflexivity.
Qed.
Lemma cleanheader_good {P} (pv : pvalue_ops P) t files fill n hs pic : tools_read t files -> files n = Some (Img (map print_hline hs) pic) -> faithful pv -> full pic -> fills fill ->
  plain_name n -> Forall (fun c => is_space c = false) n -> wf_name n -> Forall wf_hline hs ->
  Forall (fun l => ~ mentions (s "cannot open") l /\ ~ mentions (s "RADIANCE") l) (n :: map print_hline hs) ->
  adjacent_distinct (map fst (plains hs)) -> NoDup (map pair_line (plains hs)) -> Forall (fun l => (length l <= 150)%nat) (kept_section (Block n hs)) ->
  Forall (fun h => ~ In "'"%char (print_hline h)) hs -> plains hs <> [] \/ views hs <> [] ->
  cleanheader pv t fill n = Ok (pic, s "getinfo" :: s "-a" :: kept_section (Block n hs) ++ map (fun v => s "VIEW=" ++ v) (last_of (views hs))).
Proof.
  intros T E F L Fi Pn B N H M A D W Q X. rewrite (cleanheader_simple pv t files fill n hs pic) by assumption. rewrite getinfo_args_ok; [reflexivity| |].
  - unfold kept_header. cbn [kept_section]. destruct (plains hs) as [|p ps]; [|discriminate]. destruct X as [X|X]; [congruence|]. unfold last_of.
    destruct (rev (views hs)) eqn:R; [|discriminate]. exfalso. apply X. rewrite <- (rev_involutive (views hs)), R. reflexivity.
  - apply kept_quotes; [|exact Q]. destruct Pn as [_ Pn]. rewrite Forall_forall in Pn. intros J. apply Pn in J. apply J. cbn. tauto.
Qed.
Lemma cleanheader_nothing {P} (pv : pvalue_ops P) t files fill n hs pic : tools_read t files -> files n = Some (Img (map print_hline hs) pic) -> faithful pv -> full pic -> fills fill ->
  plain_name n -> Forall (fun c => is_space c = false) n -> wf_name n -> Forall wf_hline hs ->
  Forall (fun l => ~ mentions (s "cannot open") l /\ ~ mentions (s "RADIANCE") l) (n :: map print_hline hs) ->
  plains hs = [] -> views hs = [] ->
  cleanheader pv t fill n = Ok (pic, [s "getinfo"; s "-a"; []]).
Proof.
  intros T E F L Fi Pn B N H M A D. rewrite (cleanheader_simple pv t files fill n hs pic); try assumption.
  - unfold kept_header. cbn [kept_section]. rewrite A, D. reflexivity.
  - rewrite A. exact Logic.I.
  - rewrite A. constructor.
  - cbn [kept_section]. rewrite A. constructor.
Qed.
Lemma not_contains p l : contains p l = false -> ~ mentions p l.
Proof. apply contains_false. Qed.
Lemma plain_check n : n <> [] -> forallb plain_char n = true -> plain_name n.
Proof. intros N H. split; [exact N|]. apply Forall_forall. intros c C. apply plain_special. rewrite forallb_forall in H. auto. Qed.
Lemma occurs_check p l : contains p l = false -> ~ occurs p l.
Proof. intros H M. apply contains_false in H. now apply H. Qed.
Lemma cleanheader_quote {P} (pv : pvalue_ops P) t files fill pic : tools_read t files -> files (s "a.hdr") = Some (Img [s "OWNER=it's me"] pic) -> faithful pv -> full pic -> fills fill ->
  cleanheader pv t fill (s "a.hdr") = Raise ValueError.
Proof.
  intros T E F L Fi. rewrite (cleanheader_simple pv t files fill (s "a.hdr") [HPlain (s "OWNER") (s "it's me")] pic T E F L Fi); [reflexivity| | | | | | | |].
  - apply plain_check; [discriminate|reflexivity].
  - repeat constructor.
  - split; [repeat constructor|]. split; [split; [reflexivity|split; [reflexivity|discriminate]]|]. split; [apply occurs_check; reflexivity|]. cbn; intuition discriminate.
  - constructor; [|constructor]. split; [repeat constructor|]. split; [split; [reflexivity|split; [reflexivity|discriminate]]|]. split; [apply occurs_check; reflexivity|]. split; cbn; intuition discriminate.
  - constructor; [split; apply not_contains; reflexivity|]. constructor; [split; apply not_contains; reflexivity|constructor].
  - exact Logic.I.
  - constructor; [intros []|constructor].
  - cbn; repeat constructor; lia.
Qed.
Lemma cleanheader_quotes {P} (pv : pvalue_ops P) t files fill pic : tools_read t files -> files (s "a.hdr") = Some (Img [s "cmd=gen -e 'a b' c"] pic) -> faithful pv -> full pic -> fills fill ->
  cleanheader pv t fill (s "a.hdr") = Ok (pic, [s "getinfo"; s "-a"; s "a.hdr:"; tab ++ s "cmd=gen -e a"; s "b c"]).
Proof.
  intros T E F L Fi. rewrite (cleanheader_simple pv t files fill (s "a.hdr") [HPlain (s "cmd") (s "gen -e 'a b' c")] pic T E F L Fi); [reflexivity| | | | | | | |].
  - apply plain_check; [discriminate|reflexivity].
  - repeat constructor.
  - split; [repeat constructor|]. split; [split; [reflexivity|split; [reflexivity|discriminate]]|]. split; [apply occurs_check; reflexivity|]. cbn; intuition discriminate.
  - constructor; [|constructor]. split; [repeat constructor|]. split; [split; [reflexivity|split; [reflexivity|discriminate]]|]. split; [apply occurs_check; reflexivity|]. split; cbn; intuition discriminate.
  - constructor; [split; apply not_contains; reflexivity|]. constructor; [split; apply not_contains; reflexivity|constructor].
  - exact Logic.I.
  - constructor; [intros []|constructor].
  - cbn; repeat constructor; lia.
Qed.
(** a world: one picture file *)
Definition one_file {P} (n : str) (f : imgfile P) (m : str) : option (imgfile P) := if str_eqb m n then Some f else None.
Definition reader {P} (files : str -> option (imgfile P)) : tools P :=
  Tools (fun args => match args with [_; _; _; _; _; m] => match files m with Some f => Some (f_picture f) | None => None end | _ => None end)
        (fun args => match args with [_; m] => (Some match files m with Some f => printed m (f_header f) | None => m ++ s ": cannot open" ++ newline end, []) | _ => (None, []) end).
Lemma reader_reads {P} (files : str -> option (imgfile P)) : tools_read (reader files) files.
Proof. intros n. unfold reader, header_command, pixels_command. cbn [t_pvalue t_getinfo]. destruct (files n); auto. Qed.
Lemma header_radiance {P} (t : tools P) files fill n f l kept : tools_read t files -> plain_name n -> Forall (fun c => is_space c = false) n -> files n = Some f ->
  Forall header_line (f_header f) -> ~ mentions (s "cannot open") n -> Forall (fun l => ~ mentions (s "cannot open") l) (f_header f) ->
  mentions (s "RADIANCE") l -> hdr_header t fill n AsIs = Ok kept -> ~ In (tab ++ l) kept.
Proof.
  intros T Pn B E H C1 C2 M K I. destruct (header_lines t files fill n f T Pn B E H C1 C2) as (kept' & K' & X). rewrite K' in K. injection K as ->.
  apply X in I. destruct I as [I _]. apply I. now apply mentions_app_r.
Qed.
Lemma read_commands {P} (pv : pvalue_ops P) (t : tools P) n : plain_name n ->
  hdr2array_file pv t n = match t_pvalue t (pixels_command true n) with Some p => hdr2array pv p | None => Raise ValueError end /\
  hdr2carray_file pv t n = match t_pvalue t (pixels_command false n) with Some p => hdr2carray pv p | None => Raise ValueError end.
Proof. intros H. destruct (args_plain n H) as [A _]. unfold hdr2array_file, hdr2carray_file. now rewrite !A. Qed.
Lemma header_bad {P} (t : tools P) fill n mode : plain_name n ->
  mentions (s "bad header!") (snd (t_getinfo t (header_command n))) \/ fst (t_getinfo t (header_command n)) = None ->
  hdr_header t fill n mode = Raise (OtherError 2).
Proof.
  intros H B. unfold hdr_header. rewrite (proj2 (args_plain n H)). cbn [bind]. destruct (t_getinfo t (header_command n)) as [out err]. cbn [fst snd] in B.
  destruct B as [B| ->].
  - apply contains_spec in B. now rewrite B.
  - now destruct (contains (s "bad header!") err).
Qed.
