(** The texts of the labels of rotated images *)
From Coq Require Import Ascii String Lra Lia Decimal DecimalString DecimalFacts DecimalZ.
From Verif Require Import Base L_Base M_Header M_Paths S_Utility S_Paths L_Paths.
Import ListNotations.
Local Open Scope R_scope.

Fixpoint dlist (d : uint) : list nat :=
  match d with
  | Nil => []
  | D0 d => 0 :: dlist d | D1 d => 1 :: dlist d | D2 d => 2 :: dlist d | D3 d => 3 :: dlist d | D4 d => 4 :: dlist d
  | D5 d => 5 :: dlist d | D6 d => 6 :: dlist d | D7 d => 7 :: dlist d | D8 d => 8 :: dlist d | D9 d => 9 :: dlist d
  end%nat.
Lemma dlist_small d : Forall (fun x => (x < 10)%nat) (dlist d).
Proof. induction d; cbn [dlist]; constructor; try lia; auto. Qed.
Lemma dlist_text d : s (NilEmpty.string_of_uint d) = map digit_sign (dlist d).
Proof. induction d; cbn [NilEmpty.string_of_uint list_ascii_of_string dlist map]; [reflexivity|..]; now rewrite IHd. Qed.
Definition dec_step (v : Z) (d : nat) : Z := (10 * v + Z.of_nat d)%Z.
Lemma dlist_acc d : forall a, Zpos (Pos.of_uint_acc d a) = fold_left dec_step (dlist d) (Zpos a).
Proof.
  induction d; intros a; cbn [Pos.of_uint_acc dlist fold_left]; [reflexivity|..]; rewrite IHd; f_equal; unfold dec_step; lia.
Qed.
Lemma dlist_value d : Z.of_uint d = decimal (dlist d).
Proof.
  unfold Z.of_uint, decimal. fold dec_step. change (fun (v : Z) (d0 : nat) => (10 * v + Z.of_nat d0)%Z) with dec_step.
  induction d; cbn [Pos.of_uint dlist fold_left]; try reflexivity; [exact IHd|..]; cbn [Z.of_N];
    rewrite dlist_acc; reflexivity.
Qed.

(** canonical digits of a number *)
Lemma unorm_shape d : dlist (unorm d) = [0%nat] \/ exists x l, dlist (unorm d) = x :: l /\ x <> 0%nat.
Proof. induction d; cbn; try (right; eexists _, _; split; [reflexivity|discriminate]); [now left|exact IHd]. Qed.
Lemma to_uint_shape z : (0 <= z)%Z -> exists d, Z.to_int z = Pos d /\ decimal (dlist d) = z /\
  (dlist d = [0%nat] /\ z = 0%Z \/ exists x l, dlist d = x :: l /\ x <> 0%nat).
Proof.
  intros H. destruct (Z.to_int z) as [d|d] eqn:E.
  - exists d. split; [reflexivity|]. pose proof (of_to z) as O. rewrite E in O. cbn [Z.of_int] in O.
    pose proof (to_of (Z.to_int z)) as T. rewrite of_to, E in T. cbn [norm] in T. injection T as T.
    split; [now rewrite <- dlist_value|]. destruct (unorm_shape d) as [S|S]; rewrite <- T in S; [left|right; exact S].
    split; [exact S|]. rewrite <- O, dlist_value, S. reflexivity.
  - exfalso. pose proof (of_to z) as O. rewrite E in O. cbn [Z.of_int] in O. 
    destruct z; cbn in E; discriminate || lia.
Qed.
Lemma to_neg_shape z : (z < 0)%Z -> exists d, Z.to_int z = Neg d /\ decimal (dlist d) = (- z)%Z /\
  exists x l, dlist d = x :: l /\ x <> 0%nat.
Proof.
  intros H. destruct z as [|p|p]; try lia.
  destruct (to_uint_shape (Zpos p)) as (d & E & V & S); [lia|]. cbn [Z.to_int] in E. injection E as E.
  exists d. cbn [Z.to_int]. rewrite E. split; [reflexivity|]. split; [exact V|]. destruct S as [[_ S]|S]; [discriminate|exact S].
Qed.
(** the text of show_int *)
Lemma show_shape z : exists ds, show_int z = (if (z <? 0)%Z then ["-"%char] else []) ++ map digit_sign ds /\
  Forall (fun d => (d < 10)%nat) ds /\ decimal ds = Z.abs z /\ (ds = [0%nat] \/ exists x l, ds = x :: l /\ x <> 0%nat).
Proof.
  unfold show_int. destruct (Z.ltb_spec z 0) as [H|H].
  - destruct (to_neg_shape z H) as (d & E & V & S). exists (dlist d). rewrite E. split; [|split; [apply dlist_small|split; [lia|now right]]].
    unfold NilZero.string_of_int, NilZero.string_of_uint. destruct d; try (rewrite <- dlist_text; reflexivity).
    destruct S as (x & l & S & _). discriminate.
  - destruct (to_uint_shape z H) as (d & E & V & S). exists (dlist d). rewrite E. split; [|split; [apply dlist_small|split; [lia|tauto]]].
    unfold NilZero.string_of_int, NilZero.string_of_uint. destruct d; try (rewrite <- dlist_text; reflexivity).
    destruct S as [(S & _)|(x & l & S & _)]; discriminate.
Qed.

(** * length *)
Lemma fold_dec ds : forall v, Forall (fun d => (d < 10)%nat) ds -> (0 <= v)%Z ->
  (v * 10 ^ Z.of_nat (length ds) <= fold_left dec_step ds v < (v + 1) * 10 ^ Z.of_nat (length ds))%Z.
Proof.
  induction ds as [|d ds IH]; intros v F H; cbn [fold_left length].
  - rewrite Z.pow_0_r. lia.
  - inversion F; subst. assert (0 <= dec_step v d)%Z by (unfold dec_step; lia). specialize (IH (dec_step v d) H3 H0).
    rewrite Nat2Z.inj_succ, Z.pow_succ_r by lia. unfold dec_step in *. pose proof (Z.pow_pos_nonneg 10 (Z.of_nat (length ds))). nia.
Qed.
Lemma decimal_low x l : Forall (fun d => (d < 10)%nat) (x :: l) -> x <> 0%nat -> (10 ^ Z.of_nat (length l) <= decimal (x :: l))%Z.
Proof.
  intros F H. inversion F; subst. unfold decimal. cbn [fold_left]. change (fun (v : Z) (d0 : nat) => (10 * v + Z.of_nat d0)%Z) with dec_step.
  pose proof (fold_dec l (10 * 0 + Z.of_nat x)%Z H3 ltac:(lia)). pose proof (Z.pow_pos_nonneg 10 (Z.of_nat (length l))). nia.
Qed.
Lemma decimal_high l : Forall (fun d => (d < 10)%nat) l -> (decimal l < 10 ^ Z.of_nat (length l))%Z.
Proof. intros F. pose proof (fold_dec l 0 F ltac:(lia)). unfold decimal. fold dec_step. change (fun (v : Z) (d0 : nat) => (10 * v + Z.of_nat d0)%Z) with dec_step. lia. Qed.
Lemma shortest_digits ds us : Forall (fun d => (d < 10)%nat) ds -> Forall (fun d => (d < 10)%nat) us -> us <> [] ->
  decimal ds = decimal us -> (ds = [0%nat] \/ exists x l, ds = x :: l /\ x <> 0%nat) -> (length ds <= length us)%nat.
Proof.
  intros F G N E [->|(x & l & -> & X)]; [destruct us; [easy|cbn; lia]|].
  pose proof (decimal_low x l F X) as A. pose proof (decimal_high us G) as B.
  assert (10 ^ Z.of_nat (length l) < 10 ^ Z.of_nat (length us))%Z as C by lia.
  apply Z.pow_lt_mono_r_iff in C; [|lia|lia]. cbn [length]. lia.
Qed.
Lemma show_text z : shortest_text z (show_int z).
Proof.
  destruct (show_shape z) as (ds & E & F & V & S). split.
  - exists ds. repeat split; auto. destruct S as [->|(x & l & -> & _)]; discriminate.
  - intros u (us & N & G & W & ->). rewrite E, !app_length, !map_length. apply Nat.add_le_mono_l. apply (shortest_digits ds us); auto. lia.
Qed.
Lemma show2_text z : two_text z (show_int2 z).
Proof.
  unfold show_int2. destruct (show_text z) as [T M]. destruct (show_shape z) as (ds & E & F & V & S).
  destruct ((0 <=? z) && (z <? 10))%Z eqn:B.
  - apply andb_prop in B. destruct B as [B1 B2]. apply Z.leb_le in B1. apply Z.ltb_lt in B2.
    assert (z <? 0 = false)%Z as Z0 by (apply Z.ltb_ge; lia). rewrite Z0 in E.
    assert (length ds = 1)%nat as L.
    { destruct S as [->|(x & l & -> & X)]; [reflexivity|]. pose proof (decimal_low x l F X) as A.
      destruct l as [|y l]; [reflexivity|]. exfalso. cbn [length] in A. rewrite Nat2Z.inj_succ, Z.pow_succ_r in A by lia.
      pose proof (Z.pow_pos_nonneg 10 (Z.of_nat (length l))). lia. }
    assert (length ("0"%char :: show_int z) = 2)%nat as L2 by (rewrite E; cbn [app length]; rewrite map_length; lia).
    split; [|split; [lia|now left]]. exists (0%nat :: ds). split; [discriminate|]. split; [constructor; [lia|exact F]|]. split; [rewrite <- V; reflexivity|].
    rewrite Z0, E. reflexivity.
  - split; [exact T|]. split; [|intros u H; right; now apply M].
    rewrite E, app_length, map_length. destruct (Z.ltb_spec z 0) as [H|H].
    + destruct S as [->|(x & l & -> & X)]; cbn; lia.
    + assert (10 <= z)%Z by (apply andb_false_iff in B; destruct B as [B|B]; [apply Z.leb_gt in B|apply Z.ltb_ge in B]; lia).
      pose proof (decimal_high ds F) as A. destruct ds as [|a [|b ds]]; cbn [length]; [destruct S as [|(x & l & ? & _)]; discriminate| |lia].
      cbn [length Z.of_nat Pos.of_succ_nat] in A. change (10 ^ 1)%Z with 10%Z in A. lia.
Qed.
Lemma truncate_whole r : whole_part r (truncate r).
Proof.
  unfold truncate. destruct (Rltb r 0) eqn:E.
  - apply Rltb_true in E. pose proof (Rfloor_spec (- r)). unfold whole_part. rewrite opp_IZR. split; intros; lra.
  - apply Rltb_false in E. pose proof (Rfloor_spec r). split; intros H1; [lra|]. assert (r = 0) by lra. subst.
    assert (Rfloor 0 = 0%Z) as -> by (apply (Rfloor_unique 0 0); lra). lra.
Qed.
Lemma align_label_text r ct first : align_text r ct first (rotate_label r (pair_arg ct) first).
Proof.
  unfold rotate_label. eexists _, _. split; [reflexivity|]. split.
  - destruct (Reqb r 0) eqn:E.
    + apply Reqb_true in E. left. now split.
    + right. split; [intros ->; unfold Reqb in E; destruct (Req_EM_T 0 0); easy|]. exists (truncate r), (show_int2 (truncate r)).
      split; [apply truncate_whole|]. split; [apply show2_text|reflexivity].
  - destruct ct as [[x y]|]; cbn; [|reflexivity]. exists (show_int x), (show_int y). split; [apply show_text|]. split; [apply show_text|]. reflexivity.
Qed.
Lemma align_path_text r ct first : exists t, align_text r ct first t /\
  forall a, out_path (Align r (pair_arg ct) first) (a ++ s ".hdr") = a ++ t ++ s ".hdr".
Proof.
  exists (rotate_label r (pair_arg ct) first). split; [apply align_label_text|]. intros a. cbn [out_path]. now rewrite stem_hdr.
Qed.

(** * reading labels back *)
Definition is_dig (c : ascii) : bool := existsb (fun d => char_eqb c (digit_sign d)) (seq 0 10).
Lemma is_dig_sign d : (d < 10)%nat -> is_dig (digit_sign d) = true.
Proof. intros H. do 10 (destruct d as [|d]; [reflexivity|]). lia. Qed.
Lemma digit_sign_inj d e : (d < 10)%nat -> (e < 10)%nat -> digit_sign d = digit_sign e -> d = e.
Proof.
  intros H G. do 10 (destruct d as [|d]; [do 10 (destruct e as [|e]; [reflexivity || (cbn; discriminate)|]); lia|]). lia.
Qed.
Definition ends (r : str) : Prop := match r with [] => True | c :: _ => is_dig c = false end.
Lemma digits_inj ds : forall es r q, Forall (fun d => (d < 10)%nat) ds -> Forall (fun d => (d < 10)%nat) es -> ends r -> ends q ->
  map digit_sign ds ++ r = map digit_sign es ++ q -> ds = es /\ r = q.
Proof.
  induction ds as [|d ds IH]; intros es r q F G R Q E.
  - destruct es as [|e es]; [now split|]. cbn in E. subst r. inversion G; subst. change (is_dig (digit_sign e) = false) in R. rewrite is_dig_sign in R; [discriminate|auto].
  - inversion F; subst. destruct es as [|e es].
    + cbn in E. subst q. change (is_dig (digit_sign d) = false) in Q. rewrite is_dig_sign in Q; [discriminate|auto].
    + inversion G; subst. cbn in E. injection E as E1 E2. apply digit_sign_inj in E1; auto. destruct (IH es r q) as [-> ->]; auto. now subst.
Qed.
Lemma int_text_inj x y t u r q : int_text x t -> int_text y u -> ends r -> ends q -> t ++ r = u ++ q -> x = y /\ r = q.
Proof.
  intros (ds & N & F & V & ->) (es & M & G & W & ->) R Q E.
  destruct (Z.ltb_spec x 0), (Z.ltb_spec y 0); cbn [app] in E.
  - injection E as E. destruct (digits_inj ds es r q) as [-> ->]; auto. split; [lia|reflexivity].
  - exfalso. destruct es as [|e es]; [easy|]. inversion G; subst. cbn in E. injection E as E _.
    assert (is_dig "-" = true) as K by (rewrite E; now apply is_dig_sign). discriminate.
  - exfalso. destruct ds as [|e ds]; [easy|]. inversion F; subst. cbn in E. injection E as E _.
    assert (is_dig "-" = true) as K by (rewrite <- E; now apply is_dig_sign). discriminate.
  - destruct (digits_inj ds es r q) as [-> ->]; auto. split; [lia|reflexivity].
Qed.
(** the two parts *)
Definition rpart (k : Z) : str := if (k =? 0)%Z then [] else s "_r" ++ show_int2 k.
Definition cpart (c : option (Z * Z)) : str :=
  match c with Some (x, y) => s "_" ++ show_int x ++ s "-" ++ show_int y | None => [] end.
Lemma truncate_int k : truncate (IZR k) = k.
Proof.
  unfold truncate. destruct (Rltb (IZR k) 0) eqn:E.
  - rewrite <- opp_IZR. rewrite (Rfloor_unique (IZR (- k)) (- k)); [lia|lra].
  - apply Rfloor_unique; lra.
Qed.
Lemma label_parts k c first : rotate_label (IZR k) (pair_arg c) first = if first then rpart k ++ cpart c else cpart c ++ rpart k.
Proof.
  unfold rotate_label, rpart, cpart. rewrite truncate_int.
  replace (Reqb (IZR k) 0) with (k =? 0)%Z; [destruct c as [[x y]|]; reflexivity|].
  unfold Reqb. destruct (Req_EM_T (IZR k) 0) as [E|E].
  - apply eq_IZR in E. subst. reflexivity.
  - apply Z.eqb_neq. intros ->. now apply E.
Qed.
(** a text in front of which no r stands: what can follow a label "_r.." *)
Definition no_r (t : str) : Prop := match t with "_"%char :: "r"%char :: _ => False | _ => True end.
Lemma rpart_inj k l r q : ends r -> ends q -> no_r r -> no_r q -> rpart k ++ r = rpart l ++ q -> k = l /\ r = q.
Proof.
  unfold rpart. intros R Q NR NQ E. destruct (Z.eqb_spec k 0), (Z.eqb_spec l 0).
  - subst. now split.
  - exfalso. cbn in E. subst r. exact NR.
  - exfalso. cbn in E. subst q. exact NQ.
  - cbn in E. injection E as E. destruct (show2_text k) as [T _]. destruct (show2_text l) as [U _]. exact (int_text_inj _ _ _ _ _ _ T U R Q E).
Qed.
(** a text that does not begin like a center *)
Definition no_c (t : str) : Prop := match t with "_"%char :: c :: _ => c = "r"%char | _ => True end.
Lemma show_head x r : exists c t, show_int x ++ r = c :: t /\ c <> "r"%char /\ c <> "_"%char /\ c <> "."%char.
Proof.
  destruct (show_text x) as [(ds & N & F & V & E) _]. rewrite E. destruct (x <? 0)%Z.
  - eexists _, _. split; [reflexivity|]. repeat split; discriminate.
  - destruct ds as [|d ds]; [easy|]. cbn [map app]. eexists _, _. split; [reflexivity|]. inversion F; subst.
    do 10 (destruct d as [|d]; [repeat split; discriminate|]). lia.
Qed.
Lemma cpart_inj c d r q : ends r -> ends q -> no_c r -> no_c q -> cpart c ++ r = cpart d ++ q -> c = d /\ r = q.
Proof.
  intros R Q NR NQ E. destruct c as [[x y]|], d as [[x' y']|]; cbn [cpart] in E.
  - rewrite <- !app_assoc in E. cbn [app] in E. change (s "_") with ["_"%char] in E. cbn [app] in E. injection E as E.
    destruct (show_text x) as [T _]. destruct (show_text x') as [U _]. destruct (show_text y) as [T2 _]. destruct (show_text y') as [U2 _].
    apply (int_text_inj _ _ _ _ _ _ T U) in E; [|reflexivity|reflexivity]. destruct E as [-> E2].
    change (s "-") with ["-"%char] in E2. cbn [app] in E2. injection E2 as E2.
    destruct (int_text_inj _ _ _ _ _ _ T2 U2 R Q E2) as [-> ->]. now split.
  - exfalso. rewrite <- !app_assoc in E. destruct (show_head x (s "-" ++ show_int y ++ r)) as (c & t & H & H1 & _).
    rewrite H in E. cbn in E. subst q. cbn in NQ. easy.
  - exfalso. rewrite <- !app_assoc in E. destruct (show_head x' (s "-" ++ show_int y' ++ q)) as (c & t & H & H1 & _).
    rewrite H in E. cbn in E. subst r. cbn in NR. easy.
  - now split.
Qed.
Lemma rpart_ends k r : ends r -> ends (rpart k ++ r).
Proof. unfold rpart. destruct (k =? 0)%Z; intros H; [exact H|reflexivity]. Qed.
Lemma cpart_ends c r : ends r -> ends (cpart c ++ r).
Proof. destruct c as [[x y]|]; intros H; [reflexivity|exact H]. Qed.
Lemma rpart_no_c k r : no_c r -> no_c (rpart k ++ r).
Proof. unfold rpart. destruct (k =? 0)%Z; intros H; [exact H|reflexivity]. Qed.
Lemma cpart_no_r c r : no_r r -> no_r (cpart c ++ r).
Proof.
  destruct c as [[x y]|]; intros H; [|exact H]. cbn [cpart]. rewrite <- !app_assoc. destruct (show_head x (s "-" ++ show_int y ++ r)) as (c & t & E & H1 & _).
  rewrite E. cbn. destruct c as [[] [] [] [] [] [] [] []]; try exact I. now apply H1.
Qed.
Lemma mixed_parts k c l d r : ends r -> no_c r -> no_r r -> rpart k ++ cpart c ++ r = cpart d ++ rpart l ++ r -> k = l /\ c = d /\ (k = 0%Z \/ c = None).
Proof.
  intros R C NR E. destruct (Z.eq_dec k 0) as [->|K].
  - cbn [rpart Z.eqb app] in E. destruct (cpart_inj c d r (rpart l ++ r)) as [-> E2]; auto using rpart_ends, rpart_no_c.
    split; [|split; [reflexivity|now left]]. destruct (rpart_inj 0 l r r) as [-> _]; auto.
  - destruct d as [[x y]|].
    + exfalso. unfold rpart at 1 in E. destruct (Z.eqb_spec k 0); [easy|]. cbn [cpart] in E. rewrite <- !app_assoc in E.
      destruct (show_head x (s "-" ++ show_int y ++ rpart l ++ r)) as (ch & t & H & H1 & _). rewrite H in E. cbn in E. injection E as E _. now apply H1.
    + cbn [cpart app] in E. destruct (rpart_inj k l (cpart c ++ r) r) as [-> E2]; auto using cpart_ends, cpart_no_r.
      destruct (cpart_inj c None r r) as [-> _]; auto. 
Qed.
Lemma align_distinct k c first l d second f :
  out_path (Align (IZR k) (pair_arg c) first) f = out_path (Align (IZR l) (pair_arg d) second) f ->
  k = l /\ c = d /\ (first = second \/ k = 0%Z \/ c = None).
Proof.
  cbn [out_path]. intros E. apply app_inv_head in E. rewrite !label_parts in E.
  assert (ends (s ".hdr")) as R by reflexivity. assert (no_c (s ".hdr")) as C by exact I. assert (no_r (s ".hdr")) as NR by exact I.
  destruct first, second; rewrite <- !app_assoc in E.
  - destruct (rpart_inj _ _ _ _ (cpart_ends c _ R) (cpart_ends d _ R) (cpart_no_r c _ NR) (cpart_no_r d _ NR) E) as [-> E2].
    destruct (cpart_inj _ _ _ _ R R C C E2) as [-> _]. auto.
  - destruct (mixed_parts k c l d _ R C NR E) as (A & B & D). auto.
  - symmetry in E. destruct (mixed_parts l d k c _ R C NR E) as (A & B & D). subst. auto.
  - destruct (cpart_inj _ _ _ _ (rpart_ends k _ R) (rpart_ends l _ R) (rpart_no_c k _ C) (rpart_no_c l _ C) E) as [-> E2].
    destruct (rpart_inj _ _ _ _ R R NR NR E2) as [-> _]. auto.
Qed.
