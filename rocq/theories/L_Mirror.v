(** Mirror images through the steps of the glare sensation score. *)
From Coq Require Import Lra Lia Psatz.
From Verif Require Import Base L_Base M_Translate M_Mapper M_Data S_Data L_Data3 M_Gss S_Gss M_Ndimage S_Ndimage L_Ndimage L_Ndimage2 L_Ndimage3 L_Ndimage4 S_Mirror.
Local Open Scope R_scope.

Lemma pos_split r k : (k < r * r)%nat -> exists i j, (i < r)%nat /\ (j < r)%nat /\ k = (i * r + j)%nat.
Proof.
  intros H. assert (r <> 0%nat) by lia. exists (k / r)%nat, (k mod r)%nat. split; [apply Nat.div_lt_upper_bound; lia|]. split; [now apply Nat.mod_upper_bound|].
  rewrite Nat.mul_comm. now apply Nat.div_mod.
Qed.
Lemma nth_error_combine {A B} (a : list A) : forall (b : list B) n, nth_error (combine a b) n = match nth_error a n, nth_error b n with Some x, Some y => Some (x, y) | _, _ => None end.
Proof.
  induction a as [|x a IH]; intros [|y b] [|n]; cbn [combine nth_error]; try reflexivity; [now destruct (nth_error a n)|apply IH].
Qed.
Lemma mirror_map {A B} (f : A -> B) r a b : mirror_of r a b -> mirror_of r (map f a) (map f b).
Proof. intros (H1 & H2 & H3). repeat split; [now rewrite map_length|now rewrite map_length|]. intros i j Hi Hj. now rewrite !nth_error_map, H3. Qed.
Lemma mirror_combine {A B} r (a a' : list A) (b b' : list B) : mirror_of r a a' -> mirror_of r b b' -> mirror_of r (combine a b) (combine a' b').
Proof.
  intros (H1 & H2 & H3) (K1 & K2 & K3). repeat split; [rewrite combine_length; lia|rewrite combine_length; lia|]. intros i j Hi Hj. now rewrite !nth_error_combine, H3, K3.
Qed.
Lemma mirror_sym {A} r (a b : list A) : mirror_of r a b -> mirror_of r b a.
Proof.
  intros (H1 & H2 & H3). repeat split; auto. intros i j Hi Hj. rewrite H3 by lia. f_equal. f_equal. f_equal. lia.
Qed.
Lemma mirror_in {A} r (a b : list A) x : mirror_of r a b -> In x b -> In x a.
Proof.
  intros (H1 & H2 & H3) I. apply In_nth_error in I as (k & K). assert (k < r * r)%nat as L by (rewrite <- H2; apply nth_error_Some; congruence).
  destruct (pos_split r k L) as (i & j & Hi & Hj & ->). rewrite H3 in K by assumption. now apply nth_error_In in K.
Qed.
Lemma Rsum_nsum l : Rsum l = nsum (length l) (fun k => nth (Z.to_nat k) l 0).
Proof.
  unfold Rsum. induction l as [|x l IH]; [reflexivity|]. cbn [fold_right length]. rewrite nsum_first. change (nth (Z.to_nat 0) (x :: l) 0) with x. f_equal. rewrite IH.
  apply nsum_ext. intros k Hk. replace (Z.to_nat (1 + k)) with (S (Z.to_nat k)) by lia. reflexivity.
Qed.
Lemma nth_of_error {A} (l : list A) n d : nth n l d = match nth_error l n with Some x => x | None => d end.
Proof. revert n. induction l as [|x l IH]; intros [|n]; cbn; auto. Qed.
Lemma mirror_nth {A} r (a b : list A) i j d : mirror_of r a b -> (i < r)%nat -> (j < r)%nat -> nth (i * r + j) b d = nth ((r - 1 - i) * r + j) a d.
Proof. intros (_ & _ & H) Hi Hj. now rewrite !nth_of_error, H. Qed.
Lemma mirror_sum r a b : mirror_of r a b -> Rsum b = Rsum a.
Proof.
  intros H. pose proof H as (H1 & H2 & _). rewrite !Rsum_nsum, H1, H2, !nsum_blocks. rewrite (nsum_rev r (fun i => nsum r (fun j => nth _ a 0))).
  apply nsum_ext. intros i Hi. apply nsum_ext. intros j Hj.
  replace (Z.to_nat (i * Z.of_nat r + j)) with (Z.to_nat i * r + Z.to_nat j)%nat by nia.
  replace (Z.to_nat ((Z.of_nat r - 1 - i) * Z.of_nat r + j)) with ((r - 1 - Z.to_nat i) * r + Z.to_nat j)%nat by nia.
  apply mirror_nth; [exact H|lia|lia].
Qed.
Lemma mirror_sumf {A} (f : A -> R) r a b : mirror_of r a b -> Rsumf f b = Rsumf f a.
Proof. intros H. unfold Rsumf. now apply (mirror_sum r), mirror_map. Qed.

(** sums over selected elements *)
Lemma select_sum {A} (f : A -> R) : forall m l, Rsumf f (select m l) = Rsumf (fun p => if fst p : bool then f (snd p) else 0) (combine m l).
Proof.
  unfold Rsumf, Rsum. induction m as [|[|] m IH]; intros [|x l]; cbn [select combine map fold_right fst snd]; try reflexivity; rewrite IH; [reflexivity|ring].
Qed.
Lemma select_combine {A B} : forall m (a : list A) (b : list B), combine (select m a) (select m b) = select m (combine a b).
Proof.
  induction m as [|[|] m IH]; intros [|x a] [|y b]; cbn [select combine]; try reflexivity; try (now rewrite IH); now destruct (select m a).
Qed.
Lemma mirror_select_sum {A} (f : A -> R) r m m' a b : mirror_of r m m' -> mirror_of r a b -> Rsumf f (select m' b) = Rsumf f (select m a).
Proof. intros M H. rewrite !select_sum. apply (mirror_sumf _ r). now apply mirror_combine. Qed.

(** responses *)
Lemma all_ok_char {A} (e0 : exn) : forall l : list (res A), (forall x, In x l -> (exists a, x = Ok a) \/ x = Raise e0) ->
  (exists a, all_ok l = Ok a /\ map Ok a = l) \/ (all_ok l = Raise e0 /\ In (Raise e0) l).
Proof.
  induction l as [|x l IH]; intros H; [left; now exists []|]. cbn [all_ok]. destruct (H x (or_introl eq_refl)) as [(a & ->) | ->]; cbn [bind].
  - destruct IH as [(b & E & M) | (E & I)]; [intros y Hy; apply H; now right| |]; rewrite E; cbn [bind].
    + left. exists (a :: b). split; [reflexivity|]. cbn [map]. now rewrite M.
    + right. split; [reflexivity|now right].
  - right. split; [reflexivity|now left].
Qed.
Lemma mirror_all_ok {A} (e0 : exn) r (l l' : list (res A)) : (forall x, In x l -> (exists a, x = Ok a) \/ x = Raise e0) -> mirror_of r l l' ->
  (all_ok l = Raise e0 /\ all_ok l' = Raise e0) \/ exists a a', all_ok l = Ok a /\ all_ok l' = Ok a' /\ mirror_of r a a'.
Proof.
  intros H M. assert (H' : forall x, In x l' -> (exists a, x = Ok a) \/ x = Raise e0) by (intros x I; apply H; eapply mirror_in; eauto).
  destruct (all_ok_char e0 l H) as [(a & E & Ma) | (E & I)].
  - destruct (all_ok_char e0 l' H') as [(a' & E' & Ma') | (E' & I')].
    + right. exists a, a'. split; [exact E|]. split; [exact E'|]. destruct M as (H1 & H2 & H3). subst l l'. rewrite map_length in H1, H2. repeat split; auto.
      intros i j Hi Hj. specialize (H3 i j Hi Hj). rewrite !nth_error_map in H3. destruct (nth_error a' _), (nth_error a _); cbn in H3; congruence.
    + exfalso. apply (mirror_in r l l' _ M) in I'. rewrite <- Ma in I'. apply in_map_iff in I' as (x & D & _). discriminate.
  - destruct (all_ok_char e0 l' H') as [(a' & E' & Ma') | (E' & I')]; [|now left].
    exfalso. apply (mirror_in r l' l _ (mirror_sym _ _ _ M)) in I. rewrite <- Ma' in I. apply in_map_iff in I as (x & D & _). discriminate.
Qed.

(** * filters *)
Lemma side_mirror {A} r (a b : list A) : mirror_of r a b -> Z.sqrt (Z.of_nat (length a)) = Z.of_nat r /\ Z.sqrt (Z.of_nat (length b)) = Z.of_nat r.
Proof.
  intros (H1 & H2 & _). rewrite H1, H2. rewrite Nat2Z.inj_mul. split; apply Z.sqrt_square; lia.
Qed.
Lemma is_square_len l r : length l = (r * r)%nat -> is_square l = true /\ side_of l = Z.of_nat r.
Proof.
  intros H. assert (side_of l = Z.of_nat r) as S by (unfold side_of; rewrite H, Nat2Z.inj_mul; apply Z.sqrt_square; lia). split; [|exact S].
  unfold is_square. rewrite S, H. apply Z.eqb_eq. lia.
Qed.
Lemma square_flip r a b : mirror_of r a b -> same_image (square_of b) (flip0 (square_of a)).
Proof.
  intros H. pose proof H as (H1 & H2 & _). destruct (is_square_len a r H1) as [_ Sa]. destruct (is_square_len b r H2) as [_ Sb]. unfold square_of, flip0. rewrite Sa, Sb. cbn [im_nx im_ny im_px].
  split; [reflexivity|]. split; [reflexivity|]. cbn [im_nx im_ny im_px]. intros i j Hi Hj.
  replace (Z.to_nat (i * Z.of_nat r + j)) with (Z.to_nat i * r + Z.to_nat j)%nat by nia.
  replace (Z.to_nat ((Z.of_nat r - 1 - i) * Z.of_nat r + j)) with ((r - 1 - Z.to_nat i) * r + Z.to_nat j)%nat by nia.
  apply mirror_nth; [exact H|lia|lia].
Qed.
Lemma elements_at a i j r : im_nx a = Z.of_nat r -> im_ny a = Z.of_nat r -> (i < r)%nat -> (j < r)%nat -> nth_error (elements a) (i * r + j) = Some (im_px a (Z.of_nat i) (Z.of_nat j)).
Proof.
  intros X Y Hi Hj. unfold elements. rewrite X, Y, Nat2Z.id.
  assert (G : forall n b i, (i < n)%nat -> nth_error (flat_map (fun i => map (fun j => im_px a (Z.of_nat i) (Z.of_nat j)) (seq 0 r)) (seq b n)) (i * r + j) = Some (im_px a (Z.of_nat (b + i)) (Z.of_nat j))).
  { induction n as [|n IH]; intros b k K; [lia|]. cbn [seq flat_map]. destruct k as [|k].
    - rewrite nth_error_app1 by (rewrite map_length, seq_length; lia). rewrite nth_error_map. rewrite (nth_error_nth' _ 0%nat) by (rewrite seq_length; lia).
      rewrite seq_nth by lia. cbn [option_map Nat.mul plus]. now rewrite Nat.add_0_r.
    - rewrite nth_error_app2 by (rewrite map_length, seq_length; lia). rewrite map_length, seq_length. replace (S k * r + j - r)%nat with (k * r + j)%nat by lia.
      rewrite IH by lia. now replace (S b + k)%nat with (b + S k)%nat by lia. }
  now rewrite G.
Qed.
Lemma elements_mirror r a b : im_nx a = Z.of_nat r -> im_ny a = Z.of_nat r -> same_image b (flip0 a) -> mirror_of r (elements a) (elements b).
Proof.
  intros X Y (Xb & Yb & P). cbn [flip0 im_nx im_ny im_px] in Xb, Yb, P. rewrite X in Xb. rewrite Y in Yb.
  repeat split; [rewrite elements_length; nia|rewrite elements_length; nia|]. intros i j Hi Hj. rewrite !(elements_at _ _ _ r) by (assumption || lia).
  rewrite P by lia. rewrite X. do 2 f_equal. lia.
Qed.
Lemma mirror_gauss t w r a b : mirror_of r a b ->
  mirror_of r (if is_square a then elements (gaussian_filter t w (square_of a)) else a) (if is_square b then elements (gaussian_filter t w (square_of b)) else b).
Proof.
  intros H. pose proof H as (H1 & H2 & _). destruct (is_square_len a r H1) as [Qa Sa]. destruct (is_square_len b r H2) as [Qb Sb]. rewrite Qa, Qb.
  destruct (gaussian_size t w (square_of a)) as [X Y]. apply elements_mirror; [rewrite X; exact Sa|rewrite Y; exact Sa|].
  eapply same_trans; [apply gaussian_ext, (square_flip r), H|]. apply gaussian_flip0.
Qed.
Lemma convolve_ext a b k : same_image a b -> same_image (convolve a k) (convolve b k).
Proof.
  intros (X & Y & P). split; [exact X|]. split; [exact Y|]. cbn [convolve im_nx im_ny im_px]. intros i j Hi Hj. rewrite !axis_nsum. apply nsum_ext. intros p _. rewrite !axis_nsum. apply nsum_ext. intros q _.
  f_equal. rewrite <- X, <- Y. apply P; apply reflect_range; lia.
Qed.
Lemma convolve_flip0 a k : Z.odd (im_nx k) = true -> (forall p q, (0 <= p < im_nx k)%Z -> (0 <= q < im_ny k)%Z -> im_px k (im_nx k - 1 - p)%Z q = im_px k p q) ->
  same_image (convolve (flip0 a) k) (flip0 (convolve a k)).
Proof.
  intros O S. split; [reflexivity|]. split; [reflexivity|]. cbn [convolve flip0 im_nx im_ny im_px]. intros i j Hi Hj.
  rewrite !axis_nsum. rewrite (nsum_rev _ (fun p => axis_sum _ (fun q => im_px k p q * im_px a (reflect_index (im_nx a) (im_nx a - 1 - i + _ - p)) _))).
  apply nsum_ext. intros p Hp. rewrite !axis_nsum. apply nsum_ext. intros q Hq. replace (Z.of_nat (Z.to_nat (im_nx k)) - 1 - p)%Z with (im_nx k - 1 - p)%Z by lia.
  rewrite S by lia. f_equal. rewrite <- reflect_far by lia. do 2 f_equal.
  pose proof (Z.div_mod (im_nx k) 2 ltac:(lia)) as D. rewrite Zmod_odd, O in D. lia.
Qed.
Lemma mirror_conv r w a b k : Nat.odd w = true -> mirror_of w k k -> mirror_of r a b -> mirror_of r (flt_conv scipy_filters a k) (flt_conv scipy_filters b k).
Proof.
  intros O K H. pose proof H as (H1 & H2 & _). pose proof K as (K1 & _ & _). destruct (is_square_len a r H1) as [Qa Sa]. destruct (is_square_len b r H2) as [Qb Sb]. destruct (is_square_len k w K1) as [Qk Sk].
  unfold scipy_filters. cbn [flt_conv]. rewrite Qa, Qb, Qk. cbn [andb]. apply elements_mirror; [exact Sa|exact Sa|].
  eapply same_trans; [apply convolve_ext, (square_flip r), H|]. apply convolve_flip0.
  - cbn [square_of im_nx]. rewrite Sk. rewrite <- Nat.negb_even in O. rewrite <- Z.negb_even. rewrite <- O. f_equal. destruct (Nat.even w) eqn:E.
    + apply Nat.even_spec in E as [m ->]. apply Z.even_spec. exists (Z.of_nat m). lia.
    + apply not_true_is_false. intros C. apply Z.even_spec in C as [m C]. assert (Nat.even w = true) as D; [|congruence]. apply Nat.even_spec. exists (Z.to_nat m). lia.
  - intros p q Hp Hq. destruct (square_flip w k k K) as (_ & _ & P). symmetry. rewrite P by assumption. reflexivity.
Qed.

(** the point spread kernel has an odd number of rows and is its own mirror image *)
Definition kernel_mirrors_at (par : gpar) (ppa pupd : R) : Prop :=
  forall cap k, let coef := psf_coef (g_age par) (g_pigment par) pupd in
    capture (g_fwidth par) coef = Ok cap -> kernel_fix cap (kernel_raw (g_fwidth par) ppa coef) = Ok k ->
    exists w, Nat.odd w = true /\ mirror_of w k k.
Definition kernel_mirrors (par : gpar) (ppa : R) : Prop := forall ev pupa pupd, pupil (g_age par) ev = Ok (pupa, pupd) -> kernel_mirrors_at par ppa pupd.
(** * the steps *)
Lemma mirror_const {A B} (c : B) r (a b : list A) : mirror_of r a b -> mirror_of r (map (fun _ => c) a) (map (fun _ => c) b).
Proof. apply mirror_map. Qed.
Lemma mirror_masked sel r s s' a a' d d' : mirror_of r s s' -> mirror_of r a a' -> mirror_of r d d' -> mirror_of r (masked_copy sel s a d) (masked_copy sel s' a' d').
Proof. intros. unfold masked_copy. apply mirror_map. now repeat apply mirror_combine. Qed.
Lemma mirror_field ppa r s s' v v' : mirror_of r s s' -> mirror_of r v v' ->
  mirror_of r (field_response (flt_gauss scipy_filters) ppa s v) (field_response (flt_gauss scipy_filters) ppa s' v').
Proof.
  intros S V. unfold field_response.
  assert (G : forall bins a b a' b', mirror_of r a a' -> mirror_of r b b' ->
    mirror_of r (fst (fold_left (field_step (flt_gauss scipy_filters) ppa s v) bins (a, b))) (fst (fold_left (field_step (flt_gauss scipy_filters) ppa s' v') bins (a', b'))) /\
    mirror_of r (snd (fold_left (field_step (flt_gauss scipy_filters) ppa s v) bins (a, b))) (snd (fold_left (field_step (flt_gauss scipy_filters) ppa s' v') bins (a', b')))).
  { induction bins as [|[w [lb ub]] bins IH]; intros a b a' b' Ha Hb; [now split|]. cbn [fold_left field_step fst snd]. cbv zeta. apply IH.
    - apply mirror_masked; [exact S| |exact Ha]. now apply mirror_gauss.
    - apply mirror_masked; [exact S| |exact Hb]. now apply mirror_gauss. }
  specialize (G (combine steps (combine lbounds ubounds)) _ _ _ _ (mirror_const 0 r v v' V) (mirror_const 0 r v v' V)). cbv zeta.
  destruct (fold_left _ _ _) as [c1 c2]. destruct (fold_left _ _ _) as [c1' c2']. cbn [fst snd] in G. apply mirror_map. now apply mirror_combine.
Qed.
Lemma mirror_move_1 ppa r a b : mirror_of r a b ->
  mirror_of r (apply_eye_movement_1 (flt_gauss scipy_filters) (flt_gauss_trunc scipy_filters) ppa a) (apply_eye_movement_1 (flt_gauss scipy_filters) (flt_gauss_trunc scipy_filters) ppa b).
Proof. intros H. unfold apply_eye_movement_1. cbv zeta. apply mirror_map. apply mirror_combine; now apply mirror_gauss. Qed.
(** two results agree: the same exception, or related values *)
Definition agree {A} (P : A -> A -> Prop) (x y : res A) : Prop :=
  match x, y with Ok a, Ok b => P a b | Raise e, Raise f => e = f | _, _ => False end.
Lemma agree_bind {A B} (P : A -> A -> Prop) (Q : B -> B -> Prop) x y f g : agree P x y -> (forall a b, P a b -> agree Q (f a) (g b)) -> agree Q (bind x f) (bind y g).
Proof. destruct x, y; cbn [agree bind]; try tauto. intros H K. now apply K. Qed.
Lemma mirror_move_2 f ppa eg r a b : mirror_of r a b ->
  agree (mirror_of r) (apply_eye_movement_2 (flt_gauss scipy_filters) f ppa a eg) (apply_eye_movement_2 (flt_gauss scipy_filters) f ppa b eg).
Proof. intros H. unfold apply_eye_movement_2. destruct (Rleb _ _); [reflexivity|]. cbv zeta. cbn [agree]. now apply mirror_gauss, mirror_gauss. Qed.
Lemma mirror_psf par ppa r m o a b pupd : kernel_mirrors_at par ppa pupd -> mirror_of r m m -> mirror_of r o o -> mirror_of r a b ->
  agree (mirror_of r) (apply_psf (flt_conv scipy_filters) par ppa m o a pupd) (apply_psf (flt_conv scipy_filters) par ppa m o b pupd).
Proof.
  intros K M O H. unfold apply_psf. cbv zeta. destruct (capture _ _) as [cap|] eqn:C; [|reflexivity]. cbn [bind]. destruct (kernel_fix _ _) as [k|] eqn:F; [|reflexivity]. cbn [bind agree].
  destruct (K cap k C F) as (w & W & S). replace (mean_base cap m b o) with (mean_base cap m a o).
  - apply mirror_map. now apply (mirror_conv r w).
  - unfold mean_base. f_equal. f_equal. rewrite !select_combine. symmetry. apply (mirror_select_sum _ r); [exact M|]. now apply mirror_combine.
Qed.
Lemma mirror_response par ppa r m o s a b eg pa pd : (g_psf par = true -> kernel_mirrors_at par ppa pd) -> mirror_of r m m -> mirror_of r o o -> mirror_of r s s -> mirror_of r a b ->
  agree (mirror_of r) (glare_response scipy_filters par ppa m o s a eg pa pd) (glare_response scipy_filters par ppa m o s b eg pa pd).
Proof.
  intros K M O S H. unfold glare_response. cbv zeta. apply (agree_bind (mirror_of r)).
  { destruct (g_psf par); [|cbn [agree]; now apply mirror_map]. apply mirror_psf; auto. now apply mirror_map. }
  intros e e' E. apply (agree_bind (mirror_of r)).
  { destruct (g_directmove par); [now apply mirror_move_2|exact E]. }
  intros c c' C. apply (agree_bind (mirror_of r)).
  { match goal with |- agree _ (all_ok ?l) (all_ok ?l') => assert (L : mirror_of r l l') end.
    { apply mirror_map, mirror_combine; [exact C|]. apply mirror_map. destruct (g_adaptmove par); [now apply mirror_move_1|exact E]. }
    eapply mirror_all_ok in L; [|].
    - destruct L as [[-> ->] | (x & y & -> & -> & XY)]; [reflexivity|exact XY].
    - intros x I. apply in_map_iff in I as ((u & v) & <- & _). cbn [fst snd]. unfold cone_response. destruct (Rltb u 0); [now right|left; eauto]. }
  intros v v' V. cbn [agree]. apply mirror_map, mirror_combine; [exact M|]. now apply mirror_field.
Qed.
Lemma mirror_gss raw ecc r a b o : mirror_of r o o -> mirror_of r a b -> gss raw ecc b o = gss raw ecc a o.
Proof.
  intros O H. unfold gss, gss_raw. pose proof (mirror_combine r a b o o H O) as C. now rewrite !(mirror_sumf _ r _ _ C).
Qed.
