(** Lemmas about the whole computation of the score. *)
From Coq Require Import Lra Lia Psatz.
From Verif Require Import Base L_Base L_Trig M_Translate S_Translate L_Angles M_Mapper S_Mapper L_Mapper L_Draw M_Io L_Io M_Gss S_Gss L_Gss L_Gss2 L_Gss3 L_Gss4.
Local Open Scope R_scope.

(** * lists *)
Lemma between_const c l : all_between c c l -> l = map (fun _ => c) l.
Proof. intros H. induction H as [|x l Hx Hl IH]; cbn [map]; [reflexivity|]. f_equal; [lra|exact IH]. Qed.
Lemma const_between {A} c (l : list A) : all_between c c (map (fun _ => c) l).
Proof. induction l; constructor; auto; lra. Qed.
Lemma map_const_length {A B C} (c : C) (l : list A) (l' : list B) : length l = length l' -> map (fun _ => c) l = map (fun _ => c) l'.
Proof. revert l'. induction l as [|a l IH]; intros [|b l'] H; try discriminate; cbn [map]; f_equal; auto. Qed.
Lemma nonneg_between l : Forall (fun x => 0 <= x) l -> exists hi, all_between 0 hi l.
Proof.
  intros H. induction H as [|x l Hx Hl [hi IH]]; [exists 0; constructor|]. exists (Rmax x hi). constructor.
  - split; [exact Hx|apply Rmax_l].
  - eapply Forall_impl; [|exact IH]. cbv beta. intros a Ha. pose proof (Rmax_r x hi). lra.
Qed.
Lemma between_nonneg lo hi l : 0 <= lo -> all_between lo hi l -> Forall (fun x => 0 <= x) l.
Proof. intros H. apply Forall_impl. intros; lra. Qed.
Lemma smooth_nonneg g l : smoothing g -> Forall (fun x => 0 <= x) l -> Forall (fun x => 0 <= x) (g l) /\ length (g l) = length l.
Proof.
  intros G H. destruct (nonneg_between l H) as [hi B]. destruct (G l) as [L K]. split; [|exact L]. apply (between_nonneg 0 hi); [lra|]. now apply K.
Qed.
Lemma smooth_const g c l : smoothing g -> all_between c c l -> g l = map (fun _ => c) l.
Proof.
  intros G H. destruct (G l) as [L K]. rewrite (between_const c (g l)) by now apply K. now apply map_const_length.
Qed.
Lemma all_ok_map {A B} (f : A -> res B) (P : B -> Prop) l : Forall (fun a => exists b, f a = Ok b /\ P b) l ->
  exists bs, all_ok (map f l) = Ok bs /\ length bs = length l /\ Forall P bs.
Proof.
  intros H. induction H as [|a l (b & E & Pb) Hl (bs & IH & L & F)]; [exists []; repeat split; constructor|].
  exists (b :: bs). cbn [map all_ok]. rewrite E. cbn [bind]. rewrite IH. cbn [bind]. repeat split; cbn; auto.
Qed.
Lemma all_ok_const {A B C} (f : A -> res B) (b : B) (l : list A) (l' : list C) : Forall (fun a => f a = Ok b) l -> length l = length l' ->
  all_ok (map f l) = Ok (map (fun _ => b) l').
Proof.
  intros H. revert l'. induction H as [|a l E Hl IH]; intros [|c l'] L; try discriminate; [reflexivity|].
  cbn [map all_ok]. rewrite E. cbn [bind]. rewrite (IH l') by (cbn in L; lia). reflexivity.
Qed.
Lemma combine_map2 {A B C D} (f : A -> C) (g : B -> D) l : forall k, combine (map f l) (map g k) = map (fun p => (f (fst p), g (snd p))) (combine l k).
Proof. induction l as [|a l IH]; intros [|b k]; cbn [map combine fst snd]; auto. now rewrite IH. Qed.
Lemma Rsum_nonneg l : Forall (fun x => 0 <= x) l -> 0 <= Rsum l.
Proof. intros H. induction H; cbn [Rsum fold_right]; [lra|]. fold (Rsum l). lra. Qed.

Lemma Rdiv_le_0_compat a b : 0 <= a -> 0 < b -> 0 <= a / b.
Proof. intros H1 H2. unfold Rdiv. apply Rmult_le_pos; [exact H1|]. left. now apply Rinv_0_lt_compat. Qed.

(** * the point spread kernel *)
Lemma set_nth_length n x l : length (set_nth n x l) = length l.
Proof. revert n; induction l as [|y l IH]; intros [|n]; cbn; auto. Qed.
Lemma Rsum_set_nth n x l : (n < length l)%nat -> Rsum (set_nth n x l) = Rsum l - nth n l 0 + x.
Proof.
  revert n. induction l as [|y l IH]; intros [|n] H; cbn in H; try lia.
  - cbn [set_nth nth Rsum fold_right]. lra.
  - cbn [set_nth nth Rsum fold_right]. fold (Rsum (set_nth n x l)) (Rsum l). rewrite IH by lia. lra.
Qed.
Lemma nth_set_nth n x l d : (n < length l)%nat -> nth n (set_nth n x l) d = x.
Proof. revert n. induction l as [|y l IH]; intros [|n] H; cbn in H |- *; try lia; auto. apply IH. lia. Qed.
Lemma argmax_from_bound l : forall best bi i, (bi < i)%nat -> (argmax_from best bi i l < i + length l)%nat.
Proof.
  induction l as [|x l IH]; intros best bi i H; cbn [argmax_from length]; [lia|].
  destruct (Rgtb x best).
  - specialize (IH x i (S i) ltac:(lia)). lia.
  - specialize (IH best bi (S i) ltac:(lia)). lia.
Qed.
Lemma kernel_fix_spec cap k : k <> [] -> exists k', kernel_fix cap k = Ok k' /\ length k' = length k /\ Rsum k' = cap.
Proof.
  intros H. unfold kernel_fix, np_argmax. destruct k as [|x k]; [contradiction|]. cbn [bind]. eexists. split; [reflexivity|].
  pose proof (argmax_from_bound k x 0 1 ltac:(lia)) as B. cbn [length] in *. split; [now rewrite !set_nth_length|].
  rewrite Rsum_set_nth by (rewrite set_nth_length; cbn [length]; lia).
  rewrite nth_set_nth by (cbn [length]; lia). lra.
Qed.
Lemma window_pos fwidth ppa : 0 < fwidth -> 0 < ppa -> (0 < Rceil (fwidth * 60 * ppa))%Z.
Proof.
  intros Hf Hp. unfold Rceil. assert (0 < fwidth * 60 * ppa) by (apply Rmult_lt_0_compat; lra).
  pose proof (Rfloor_lt (- (fwidth * 60 * ppa)) 0 ltac:(lra)). lia.
Qed.
Lemma kernel_nonempty fwidth ppa coef : hemi_angle fwidth -> 0 < ppa -> kernel_raw fwidth ppa coef <> [].
Proof.
  intros Hf Hp. pose proof (window_pos fwidth ppa (proj1 Hf) Hp) as W. unfold kernel_raw. cbv zeta. intros E.
  apply (f_equal (@length R)) in E. rewrite map_length, combine_length, rays_length, omegas_length in E by now apply mk_view_hemi_aspect.
  cbn [length] in E. nia.
Qed.
Lemma capture_ok fwidth coef : 0.004 <= fwidth -> exists cap, capture fwidth coef = Ok cap.
Proof.
  intros H. unfold capture. cbv zeta. pose proof (Rfloor_ge (fwidth / 0.002 / 2) 1 ltac:(lra)) as K.
  replace (Rfloor (fwidth / 0.002 / 2) =? 0)%Z with false by (symmetry; apply Z.eqb_neq; lia). eexists. reflexivity.
Qed.

(** a uniform image stays uniform through the optics of the eye *)
Lemma select_const {A} (c : A) mask : forall (l : list A), select mask (map (fun _ => c) l) = map (fun _ => c) (select mask l).
Proof. induction mask as [|[|] m IH]; intros [|x l]; cbn [select map]; auto. now rewrite IH. Qed.
Lemma select_length_eq {A B} mask : forall (l : list A) (k : list B), length l = length k -> length (select mask l) = length (select mask k).
Proof.
  induction mask as [|[|] m IH]; intros [|x l] [|y k] H; cbn in *; try lia; auto.
Qed.
Lemma Rsumf_const_combine c : forall (l : list R) (w : list R), length l = length w -> Rsumf (fun p => fst p * snd p) (combine (map (fun _ => c) l) w) = c * Rsum w.
Proof.
  induction l as [|x l IH]; intros [|y w] H; try discriminate; unfold Rsumf in *; cbn [map combine Rsum fold_right fst snd].
  - ring.
  - fold (Rsum (map (fun p : R * R => fst p * snd p) (combine (map (fun _ : R => c) l) w))) (Rsum w). rewrite IH by (cbn in H; lia). ring.
Qed.
Lemma psf_uniform fl par ppa mask omega c l pupd : filters_ok fl -> hemi_angle (g_fwidth par) -> 0.004 <= g_fwidth par -> 0 < ppa ->
  length omega = length l -> Rsum (select mask omega) <> 0 ->
  apply_psf (flt_conv fl) par ppa mask omega (map (fun _ => c) l) pupd = Ok (map (fun _ : R => c) l).
Proof.
  intros (_ & _ & Lc & _ & Cc) Hf Hw Hp L S. unfold apply_psf. cbv zeta.
  destruct (capture_ok (g_fwidth par) (psf_coef (g_age par) (g_pigment par) pupd) Hw) as [cap ->]. cbn [bind].
  destruct (kernel_fix_spec cap (kernel_raw (g_fwidth par) ppa (psf_coef (g_age par) (g_pigment par) pupd)) (kernel_nonempty _ _ _ Hf Hp)) as (k & -> & _ & Sk).
  cbn [bind]. f_equal.
  rewrite (between_const (c * cap) (flt_conv fl (map (fun _ => c) l) k)).
  2:{ rewrite <- Sk. apply Cc, const_between. }
  rewrite map_map. unfold mean_base. rewrite select_const, Rsumf_const_combine by now apply select_length_eq.
  transitivity (map (fun _ : R => c) (flt_conv fl (map (fun _ : R => c) l) k)).
  - apply map_ext. intros _. field. exact S.
  - apply map_const_length. now rewrite Lc, map_length.
Qed.
Lemma move1_uniform fl ppa c (l : list R) : filters_ok fl ->
  apply_eye_movement_1 (flt_gauss fl) (flt_gauss_trunc fl) ppa (map (fun _ => c) l) = map (fun _ => c) l.
Proof.
  intros (G & T & _). unfold apply_eye_movement_1. cbv zeta.
  rewrite (smooth_const _ c _ (G _) (const_between c l)), (smooth_const _ c _ (T _ _) (const_between c l)), !map_map.
  rewrite combine_map2, map_map. cbn [fst snd].
  transitivity (map (fun _ : R * R => c) (combine l l)).
  - apply map_ext. intros _. lra.
  - apply map_const_length. rewrite combine_length. lia.
Qed.
Lemma move2_uniform fl f ppa c (l : list R) e_g : filters_ok fl -> 0 < e_g * square f ->
  apply_eye_movement_2 (flt_gauss fl) f ppa (map (fun _ => c) l) e_g = Ok (map (fun _ => c) l).
Proof.
  intros (G & _) H. unfold apply_eye_movement_2, Rleb. destruct (Rle_dec _ 0); [lra|]. cbv zeta.
  rewrite (smooth_const _ c _ (G _) (const_between c l)), map_map, (smooth_const _ c _ (G _) (const_between c l)), map_map. reflexivity.
Qed.
Lemma field_uniform fl ppa sigma c (l : list R) : filters_ok fl -> length sigma = length l -> Forall (fun s => 0 <= s < 1) sigma ->
  field_response (flt_gauss fl) ppa sigma (map (fun _ => c) l) = map (fun _ => c * (1 - fr_k)) l.
Proof.
  intros (G & _) L S.
  pose proof (field_response_spec (flt_gauss fl) ppa sigma (map (fun _ => c) l)) as [A B].
  { intros w. apply (G w). } { now rewrite map_length. }
  rewrite map_length in A, B. apply (nth_ext _ _ 0 0); [now rewrite map_length|].
  intros k Hk. rewrite A in Hk. rewrite Forall_forall in S. destruct (B k Hk) as (w & _ & ->).
  { apply S, nth_In. lia. }
  rewrite !(smooth_const _ c _ (G _) (const_between c l)), !map_map.
  assert (forall z, nth k (map (fun _ : R => z) l) 0 = z) as N.
  { intros z. rewrite (nth_indep _ 0 z) by now rewrite map_length. apply (map_nth (fun _ : R => z) l 0). }
  rewrite !N. ring.
Qed.

(** * the response is defined and bounded *)
Definition bounded_response (p : R * R) : Prop := 0 <= fst p /\ 0 <= snd p /\ fst p + snd p <= 1.
Lemma response_bounded m r : bounded_response (normalized_field_response m r).
Proof.
  unfold bounded_response. destruct m; [pose proof (response_in r) as (A & B & C); lra|rewrite response_out; cbn [fst snd]; lra].
Qed.
Lemma glare_ok fl par ppa mask omega sigma img e_g pupa pupd :
  filters_ok fl -> length mask = length img -> length omega = length img -> length sigma = length img ->
  Forall (fun x => 0 <= x) img -> Forall (fun x => 0 <= x) omega -> g_f par <> 0 -> 0 <= pupa ->
  (g_psf par = true -> psf_ok par ppa pupd) -> (g_directmove par = true -> 0 < e_g) ->
  exists r_g, glare_response fl par ppa mask omega sigma img e_g pupa pupd = Ok r_g /\ length r_g = length img /\ Forall bounded_response r_g.
Proof.
  intros F Lm Lo Ls Hi Ho Hf Hp Hpsf Hd. pose proof F as (G & T & Lc & Cc & _). unfold glare_response. cbv zeta.
  set (e_r := map (fun l => retinal_irradiance (g_f par) l pupa) img).
  assert (length e_r = length img) as Le by apply map_length.
  assert (Forall (fun x => 0 <= x) e_r) as He.
  { apply Forall_map. eapply Forall_impl; [|exact Hi]. cbv beta. intros x Hx. unfold retinal_irradiance.
    assert (0 < square (g_f par)) by (unfold square; nra). apply Rmult_le_pos; [|exact Hx]. apply Rdiv_le_0_compat; assumption. }
  clearbody e_r.
  assert (exists e1, (if g_psf par then apply_psf (flt_conv fl) par ppa mask omega e_r pupd else Ok e_r) = Ok e1 /\ length e1 = length img /\ Forall (fun x => 0 <= x) e1) as (e1 & E1 & L1 & H1).
  { destruct (g_psf par); [|exists e_r; auto]. destruct (Hpsf eq_refl) as (cap & k & Ec & Ek & Hc & Hk).
    unfold apply_psf. cbv zeta. rewrite Ec. cbn [bind]. rewrite Ek. cbn [bind]. eexists. split; [reflexivity|].
    split; [now rewrite map_length, Lc|]. apply Forall_map. destruct (nonneg_between e_r He) as [hi Bh].
    pose proof (Cc e_r k 0 hi Hk Bh) as B2. eapply Forall_impl; [|exact B2]. cbv beta. intros x Hx.
    assert (0 <= mean_base cap mask e_r omega) as M.
    { unfold mean_base. 
      assert (forall A (m : list bool) (l : list A) P, Forall P l -> Forall P (select m l)) as FS.
      { clear. intros A m. induction m as [|[|] m IH]; intros [|x l] P H; cbn [select]; auto; inversion H; subst; auto. }
      pose proof (FS _ mask omega _ Ho) as Fo. pose proof (FS _ mask e_r _ He) as Fe.
      assert (0 <= Rsumf (fun p : R * R => fst p * snd p) (combine (select mask e_r) (select mask omega))) as S1.
      { revert Fo Fe. generalize (select mask e_r) (select mask omega). clear. intros l w Hw Hl. revert w Hw.
        induction Hl as [|x l Hx Hl IH]; intros w Hw; unfold Rsumf in *; [cbn; lra|]. destruct Hw as [|y w Hy Hw]; cbn [combine map Rsum fold_right fst snd]; [lra|].
        specialize (IH w Hw). unfold Rsum in IH. assert (0 <= x * y) by (apply Rmult_le_pos; auto). lra. }
      pose proof (Rsum_nonneg _ Fo) as S2. destruct S2 as [S2|S2].
      - apply Rdiv_le_0_compat; [apply Rmult_le_pos; lra|exact S2].
      - rewrite <- S2. unfold Rdiv. rewrite Rinv_0. lra. }
    lra. }
  rewrite E1. cbn [bind].
  assert (exists e3, (if g_directmove par then apply_eye_movement_2 (flt_gauss fl) (g_f par) ppa e1 e_g else Ok e1) = Ok e3 /\ length e3 = length img /\ Forall (fun x => 0 <= x) e3) as (e3 & E3 & L3 & H3).
  { destruct (g_directmove par); [|exists e1; auto]. unfold apply_eye_movement_2.
    assert (0 < e_g * square (g_f par)) by (apply Rmult_lt_0_compat; [auto|unfold square; nra]).
    unfold Rleb. destruct (Rle_dec _ 0); [lra|]. cbv zeta. eexists. split; [reflexivity|].
    match goal with |- context [flt_gauss fl ?w2 (flt_gauss fl ?w1 e1)] => destruct (smooth_nonneg _ e1 (G w1) H1) as [A1 A2]; destruct (smooth_nonneg _ _ (G w2) A1) as [B1 B2] end.
    split; [congruence|exact B1]. }
  rewrite E3. cbn [bind].
  set (e2 := if g_adaptmove par then _ else e1).
  assert (length e2 = length img) as L2.
  { unfold e2. destruct (g_adaptmove par); [|exact L1]. unfold apply_eye_movement_1. cbv zeta. rewrite map_length, combine_length.
    destruct (G (4.2341723424 * ppa) e1) as [-> _]. destruct (T (30 * ppa / (14.1421356237 * ppa)) (14.1421356237 * ppa) e1) as [-> _]. lia. }
  clearbody e2.
  destruct (all_ok_map (fun p => cone_response (fst p) (snd p)) (fun v => 0 <= v < 1) (combine e3 (map (fun e => local_eye_adaptation e e_g) e2))) as (vvm & Ev & Lv & _).
  { apply Forall_forall. intros [a b] Hin. pose proof (in_combine_l _ _ _ _ Hin) as Ia. pose proof (in_combine_r _ _ _ _ Hin) as Ib.
    rewrite Forall_forall in H3. apply H3 in Ia. apply in_map_iff in Ib. destruct Ib as (e & <- & _).
    destruct (cone_ok a (local_eye_adaptation e e_g) Ia (adapt_nonneg e e_g)) as (v & E & B & _). exists v. auto. }
  rewrite Ev. cbn [bind]. eexists. split; [reflexivity|].
  rewrite combine_length, map_length in Lv.
  pose proof (field_response_spec (flt_gauss fl) ppa sigma vvm ltac:(intros; apply (G w)) ltac:(lia)) as [Lr _].
  split; [rewrite map_length, combine_length; lia|]. apply Forall_forall. intros p Hp'. apply in_map_iff in Hp'. destruct Hp' as (q & <- & _). apply response_bounded.
Qed.

(** * the average eccentricity *)
Lemma average_range lo hi : forall (s w : list R), length s = length w -> all_between lo hi s -> Forall (fun x => 0 <= x) w -> 0 < Rsum w ->
  lo <= Rsumf (fun p => fst p * snd p) (combine s w) / Rsum w <= hi.
Proof.
  intros s w L Hs Hw P.
  assert (lo * Rsum w <= Rsumf (fun p => fst p * snd p) (combine s w) <= hi * Rsum w) as B.
  { clear P. revert w L Hw. induction Hs as [|x s Hx Hs IH]; intros [|y w] L Hw; try discriminate; unfold Rsumf in *; cbn [combine map Rsum fold_right fst snd]; [lra|].
    inversion Hw; subst. specialize (IH w ltac:(cbn in L; lia) H2). unfold Rsum in *. assert (lo * y <= x * y <= hi * y) by (split; apply Rmult_le_compat_r; lra). lra. }
  split.
  - apply (Rmult_le_reg_r (Rsum w)); [exact P|]. replace (_ / Rsum w * Rsum w) with (Rsumf (fun p => fst p * snd p) (combine s w)) by (field; lra). apply B.
  - apply (Rmult_le_reg_r (Rsum w)); [exact P|]. replace (_ / Rsum w * Rsum w) with (Rsumf (fun p => fst p * snd p) (combine s w)) by (field; lra). apply B.
Qed.
