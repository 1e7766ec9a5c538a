(** The order of rays and of equal keys. *)
From Coq Require Import Lra Lia Sorting.Permutation Sorting.Sorted.
From Verif Require Import Base L_Base BaseX M_Translate S_Translate M_Io M_Mapper M_Metric M_Peak S_Peak L_Peak L_Peak3 S_Exposure L_Exposure L_Again S_Ties.
Import ListNotations.
Local Open Scope R_scope.

Lemma sorted_unique {A} (key : A -> R) l l' : Permutation l l' -> StronglySorted (fun a b => key b <= key a) l -> StronglySorted (fun a b => key b <= key a) l' ->
  NoDup (map key l) -> l = l'.
Proof.
  revert l'. induction l as [|a l IH]; intros l' P S S' N; [symmetry; now apply Permutation_nil|].
  destruct l' as [|b l']; [apply Permutation_sym, Permutation_nil in P; discriminate|].
  apply StronglySorted_inv in S. apply StronglySorted_inv in S'. destruct S as [S Fa], S' as [S' Fb]. cbn [map] in N. apply NoDup_cons_iff in N. destruct N as [Na N].
  assert (E : a = b).
  { assert (Ia : In a (b :: l')) by (apply (Permutation_in _ P); now left). assert (Ib : In b (a :: l)) by (apply (Permutation_in _ (Permutation_sym P)); now left).
    destruct Ib as [|Ib]; [assumption|]. destruct Ia as [|Ia]; [now symmetry|]. exfalso. apply Na. rewrite Forall_forall in Fa, Fb.
    specialize (Fa b Ib). specialize (Fb a Ia). cbv beta in *. replace (key a) with (key b) by lra. now apply in_map. }
  subst b. f_equal. apply Permutation_cons_inv in P. now apply IH.
Qed.
Lemma ss_map {A B} (f : A -> B) (key : B -> R) l : StronglySorted (fun a b => key (f b) <= key (f a)) l -> StronglySorted (fun a b => key b <= key a) (map f l).
Proof.
  induction 1 as [|a l S IH F]; cbn [map]; constructor; auto. rewrite Forall_forall in *. intros y Y. apply in_map_iff in Y. destruct Y as (x & <- & X). now apply F.
Qed.
Lemma filter_map_get (f : pix -> bool) rays l : map (get rays) (filter (fun i => f (get rays i)) l) = filter f (map (get rays) l).
Proof. induction l as [|i l IH]; cbn [filter map]; [reflexivity|]. destruct (f (get rays i)); cbn [map]; now rewrite IH. Qed.
Lemma perm_filter {A} (f : A -> bool) l l' : Permutation l l' -> Permutation (filter f l) (filter f l').
Proof.
  induction 1; cbn [filter]; auto.
  - destruct (f x); auto.
  - destruct (f x), (f y); auto. apply perm_swap.
  - etransitivity; eassumption.
Qed.
Lemma nodup_map_filter {A B} (g : A -> B) f l : NoDup (map g l) -> NoDup (map g (filter f l)).
Proof.
  induction l as [|a l IH]; cbn [map filter]; intros N; [exact N|]. apply NoDup_cons_iff in N. destruct N as [Na N]. destruct (f a); auto. cbn [map]. constructor; auto.
  intros H. apply Na. apply in_map_iff in H. destruct H as (x & E & X). apply filter_In in X. rewrite <- E. apply in_map, X.
Qed.

Lemma nodup_firstn {A} n (l : list A) : NoDup l -> NoDup (firstn n l).
Proof.
  intros N. revert n. induction N as [|a l I N IH]; intros [|n]; cbn [firstn]; constructor; auto.
  intros H. apply I. rewrite <- (firstn_skipn n l). apply in_or_app. now left.
Qed.
Section Two.
Context (w : list R) (p : peak_args).
Definition bright_ray (r : pix) : bool := Rgtb (lum w r) (a_peakt p / a_scale p).
Lemma bright_get rays : map (get rays) (bright w p rays) = filter bright_ray rays.
Proof. unfold bright. change (fun i => Rgtb (lum w (get rays i)) (a_peakt p / a_scale p)) with (fun i => bright_ray (get rays i)). now rewrite filter_map_get, rays_as_seq. Qed.
Definition sorted_peaks (order : (nat -> R) -> list nat -> list nat) rays := order (fun i => lum w (get rays i)) (bright w p rays).
Lemma peaks_same order order' rays rays' : sorts_down order -> sorts_down order' -> Permutation rays rays' -> distinct_peaks w p rays ->
  map (get rays) (sorted_peaks order rays) = map (get rays') (sorted_peaks order' rays').
Proof.
  intros O O' P D. unfold sorted_peaks. destruct (O (fun i => lum w (get rays i)) (bright w p rays)) as [P1 S1]. destruct (O' (fun i => lum w (get rays' i)) (bright w p rays')) as [P2 S2].
  assert (Q1 : Permutation (map (get rays) (order (fun i => lum w (get rays i)) (bright w p rays))) (filter bright_ray rays)) by (rewrite <- bright_get; now apply Permutation_map).
  assert (Q2 : Permutation (map (get rays') (order' (fun i => lum w (get rays' i)) (bright w p rays'))) (filter bright_ray rays')) by (rewrite <- bright_get; now apply Permutation_map).
  apply (sorted_unique (lum w)).
  - rewrite Q1, Q2. now apply perm_filter.
  - now apply ss_map.
  - now apply ss_map.
  - apply (Permutation_NoDup (l := map (lum w) (filter bright_ray rays))); [apply Permutation_map; now symmetry|exact D].
Qed.
Lemma order_nil order key : sorts_down order -> order key [] = [].
Proof. intros O. apply Permutation_nil, Permutation_sym, O. Qed.
Lemma hd_get rays l : l <> [] -> get rays (hd 0%nat l) = hd dummy_pix (map (get rays) l).
Proof. destruct l; [contradiction|reflexivity]. Qed.
(** find_peak in terms of the sorted bright rays *)
Definition near_peaks order rays := filter (fun i => Rgtb (dot (p_v (hd dummy_pix (map (get rays) (sorted_peaks order rays)))) (p_v (get rays i))) (cosrad p)) (sorted_peaks order rays).
Lemma find_by_rays order blur rays : sorts_down order -> find_peak order blur w p rays =
  match map (get rays) (sorted_peaks order rays) with
  | [] => Ok (None, [])
  | _ => match map (get rays) (near_peaks order rays) with
         | [] => Raise IndexError
         | first :: _ => bind (merge_peak blur w p first (map (get rays) (near_peaks order rays))) (fun ps => Ok (Some (fst ps), firstn (snd ps) (near_peaks order rays)))
         end
  end.
Proof.
  intros O. unfold find_peak, near_peaks, sorted_peaks. destruct (bright w p rays) as [|i b] eqn:E; [now rewrite order_nil|].
  set (pc := order _ _). assert (N : pc <> []).
  { intros Z. destruct (O (fun i => lum w (get rays i)) (i :: b)) as [P _]. fold pc in P. rewrite Z in P. apply Permutation_nil in P. discriminate. }
  rewrite (hd_get rays pc N). destruct (map (get rays) pc) eqn:M; [destruct pc; [contradiction|discriminate]|]. reflexivity.
Qed.
Lemma near_same order order' rays rays' : sorts_down order -> sorts_down order' -> Permutation rays rays' -> distinct_peaks w p rays ->
  map (get rays) (near_peaks order rays) = map (get rays') (near_peaks order' rays').
Proof.
  intros O O' P D. unfold near_peaks. rewrite (peaks_same order order' rays rays' O O' P D). set (top := hd dummy_pix _).
  rewrite (filter_map_get (fun r => Rgtb (dot (p_v top) (p_v r)) (cosrad p)) rays), (filter_map_get (fun r => Rgtb (dot (p_v top) (p_v r)) (cosrad p)) rays').
  now rewrite (peaks_same order order' rays rays' O O' P D).
Qed.
Lemma near_nodup order rays n : sorts_down order -> NoDup (firstn n (near_peaks order rays)) /\ forall i, In i (firstn n (near_peaks order rays)) -> (i < length rays)%nat.
Proof.
  intros O. assert (N : NoDup (near_peaks order rays)).
  { unfold near_peaks, sorted_peaks. apply NoDup_filter. apply (Permutation_NoDup (l := bright w p rays)); [symmetry; apply O|]. unfold bright. apply NoDup_filter, seq_NoDup. }
  split.
  - apply nodup_firstn. exact N.
  - intros i I. assert (J : In i (near_peaks order rays)) by (rewrite <- (firstn_skipn n); apply in_or_app; now left). unfold near_peaks in J. apply filter_In in J. destruct J as [J _].
    unfold sorted_peaks in J. destruct (O (fun i => lum w (get rays i)) (bright w p rays)) as [P _]. apply (Permutation_in _ P) in J. apply filter_In in J. destruct J as [J _]. apply in_seq in J. lia.
Qed.
Lemma filter_split {A} (f : A -> bool) l : Permutation (filter f l ++ filter (fun x => negb (f x)) l) l.
Proof.
  induction l as [|a l IH]; cbn [filter]; [reflexivity|]. destruct (f a); cbn [negb app]; [now constructor|].
  etransitivity; [symmetry; apply Permutation_middle|]. now constructor.
Qed.
Lemma delete_split pc rays : NoDup pc -> (forall i, In i pc -> (i < length rays)%nat) -> Permutation (map (get rays) pc ++ delete_rows pc rays) rays.
Proof.
  intros N B. rewrite <- (rays_as_seq rays) at 3. unfold delete_rows. rewrite <- map_app. apply Permutation_map.
  rewrite <- (filter_pc_perm pc (length rays) N B) at 1. apply filter_split.
Qed.
Definition zeroed (r : pix) : pix := Pix (p_v r) 0 (map (fun _ => 0) (p_l r)).
Lemma zero_split pc rays : NoDup pc -> (forall i, In i pc -> (i < length rays)%nat) -> Permutation (map zeroed (map (get rays) pc) ++ delete_rows pc rays) (zero_rows pc rays).
Proof.
  intros N B. unfold zero_rows, delete_rows. rewrite map_map.
  assert (E : map (fun i => zeroed (get rays i)) (filter (in_pc pc) (seq 0 (length rays))) = map (fun i => if in_pc pc i then zeroed (get rays i) else get rays i) (filter (in_pc pc) (seq 0 (length rays)))).
  { apply map_ext_in. intros i I. apply filter_In in I. destruct I as [_ I]. now rewrite I. }
  assert (F : map (get rays) (filter (fun i => negb (in_pc pc i)) (seq 0 (length rays))) = map (fun i => if in_pc pc i then zeroed (get rays i) else get rays i) (filter (fun i => negb (in_pc pc i)) (seq 0 (length rays)))).
  { apply map_ext_in. intros i I. apply filter_In in I. destruct I as [_ I]. destruct (in_pc pc i); [discriminate|reflexivity]. }
  rewrite F. rewrite <- (Permutation_map (fun i => zeroed (get rays i)) (filter_pc_perm pc (length rays) N B)). rewrite E, <- map_app. apply Permutation_map, filter_split.
Qed.
Lemma normalize_same order order' blur kz rays rays' : sorts_down order -> sorts_down order' -> Permutation rays rays' -> distinct_peaks w p rays ->
  same_rays (normalize_peak order blur w p kz rays) (normalize_peak order' blur w p kz rays').
Proof.
  intros O O' P D. unfold normalize_peak. rewrite !find_by_rays by assumption. pose proof (near_same order order' rays rays' O O' P D) as E. rewrite <- E.
  rewrite <- (peaks_same order order' rays rays' O O' P D). destruct (map (get rays) (sorted_peaks order rays)) as [|x y]; [exact P|].
  destruct (map (get rays) (near_peaks order rays)) as [|f g] eqn:M; [reflexivity|]. destruct (merge_peak blur w p f (f :: g)) as [[q n]|e]; cbn [bind fst snd]; [|reflexivity].
  assert (En : map (get rays) (firstn n (near_peaks order rays)) = map (get rays') (firstn n (near_peaks order' rays'))) by (rewrite <- !firstn_map; congruence).
  destruct (near_nodup order rays n O) as [N B]. destruct (near_nodup order' rays' n O') as [N' B'].
  assert (DP : Permutation (delete_rows (firstn n (near_peaks order rays)) rays) (delete_rows (firstn n (near_peaks order' rays')) rays')).
  { apply (Permutation_app_inv_l (map (get rays) (firstn n (near_peaks order rays)))). rewrite delete_split by assumption. rewrite En, delete_split by assumption. exact P. }
  assert (ZP : Permutation (zero_rows (firstn n (near_peaks order rays)) rays) (zero_rows (firstn n (near_peaks order' rays')) rays')).
  { rewrite <- (zero_split _ _ N B), <- (zero_split _ _ N' B'), En. now apply Permutation_app_head. }
  destruct (firstn n (near_peaks order rays)) as [|i pc], (firstn n (near_peaks order' rays')) as [|i' pc']; cbn [map] in En; try discriminate; [exact P|].
  cbn [same_rays]. apply Permutation_app_tail. destruct kz; assumption.
Qed.
Lemma gather_same fuel s1 s2 pt cr l l' : sorts_rays_down w s1 -> sorts_rays_down w s2 -> Permutation l l' -> NoDup (map (lum w) l) ->
  gather_strays fuel s1 w pt cr l = gather_strays fuel s2 w pt cr l'.
Proof.
  intros S1 S2. revert l l'. induction fuel as [|fuel IH]; intros l l' P N; [reflexivity|]. cbn [gather_strays].
  pose proof (perm_filter (fun r => Rgtb (lum w r) pt) l l' P) as Q. set (pc := filter _ l) in *. set (pc' := filter _ l') in *. rewrite <- (Permutation_length Q).
  destruct (3 <? length pc)%nat; [|reflexivity].
  assert (Npc : NoDup (map (lum w) pc)) by now apply nodup_map_filter.
  assert (E : s1 pc = s2 pc').
  { destruct (S1 pc) as [A1 B1], (S2 pc') as [A2 B2]. apply (sorted_unique (lum w)); [rewrite A1, A2; exact Q|exact B1|exact B2|].
    apply (Permutation_NoDup (l := map (lum w) pc)); [apply Permutation_map; now symmetry|exact Npc]. }
  rewrite <- E. cbv zeta. destruct (group_of _ _); cbn [bind]; [|reflexivity]. erewrite IH; [reflexivity|reflexivity|].
  apply nodup_map_filter. apply (Permutation_NoDup (l := map (lum w) pc)); [apply Permutation_map; symmetry; apply S1|exact Npc].
Qed.
Lemma secondary_same fuel order order' s1 s2 rays rays' : sorts_down order -> sorts_down order' -> sorts_rays_down w s1 -> sorts_rays_down w s2 ->
  Permutation rays rays' -> distinct_peaks w p rays -> secondary fuel order s1 w p rays = secondary fuel order' s2 w p rays'.
Proof.
  intros O O' S1 S2 P D. pose proof (peaks_same order order' rays rays' O O' P D) as E. unfold sorted_peaks in E. unfold secondary.
  assert (Nd : NoDup (map (lum w) (map (get rays) (order (fun i => lum w (get rays i)) (bright w p rays))))).
  { apply (Permutation_NoDup (l := map (lum w) (filter bright_ray rays))); [|exact D]. rewrite <- bright_get. do 2 apply Permutation_map. symmetry. apply O. }
  destruct (bright w p rays) as [|i b] eqn:B1, (bright w p rays') as [|i' b'] eqn:B2; try reflexivity.
  - rewrite order_nil in E by assumption. destruct (O' (fun i => lum w (get rays' i)) (i' :: b')) as [Q _]. destruct (order' _ _); [apply Permutation_nil in Q; discriminate|discriminate].
  - rewrite (order_nil order') in E by assumption. destruct (O (fun i => lum w (get rays i)) (i :: b)) as [Q _]. destruct (order _ _); [apply Permutation_nil in Q; discriminate|discriminate].
  - rewrite <- E. cbv zeta. erewrite gather_same; [reflexivity|exact S1|exact S2|reflexivity|]. now apply nodup_map_filter.
Qed.
End Two.

(** two rays equally bright, a red one and a green one *)
Lemma lum_2 v o x y : lum [1; 1] (Pix v o [x; y]) = x + y.
Proof. unfold lum, rgb2rad, Rsum. cbn. lra. Qed.
Definition rg (x : R) : pix := Pix up 2 [x; 2 - x].
Lemma lum_rg x : lum [1; 1] (rg x) = 2. Proof. unfold rg. rewrite lum_2. ring. Qed.
Definition source (x : R) : pix := Pix up PI [2 * x / PI; 2 * (2 - x) / PI].
Lemma rg_bright x y : bright [1; 1] args1 [rg x; rg y] = [0;1]%nat.
Proof. unfold bright, get. cbn [length seq filter nth]. rewrite !lum_rg. unfold args1. cbn [a_peakt a_scale]. replace (Rgtb 2 (0 / 1)) with true by (symmetry; apply Rltb_true; lra). reflexivity. Qed.
Lemma merge_rg blur x y : merge_peak blur [1; 1] args1 (rg x) [rg x; rg y] = Ok (source x, 1%nat).
Proof.
  pose proof L_Trig.PI_hi as P4. pose proof L_Trig.PI_lo as P3. unfold merge_peak. cbv zeta. cbn [filter map]. rewrite !lum_rg.
  unfold args1. cbn [a_blurtol a_peaka a_peakc a_peakr a_blursun]. replace (Rleb (2 * 0.75) 2) with true by (symmetry; apply Rleb_true; lra). cbn [map]. rewrite !lum_rg.
  assert (M : match mean [2; 2] with Some m => Some (m * PI * 1) | None => None end = Some (2 * PI)) by (unfold mean; cbn [length]; f_equal; unfold Rsum; cbn; field).
  rewrite M. cbn [running last rg p_o length]. fold (rg x) (rg y). rewrite !lum_rg. unfold above at 1.
  replace (Rgtb (0 + 2 * 2 + 2 * 2) (2 * PI)) with true by (symmetry; apply Rltb_true; lra). unfold argmax. cbn [find_first]. unfold above.
  replace (Rgtb (0 + 2 * 2) (2 * PI)) with false by (symmetry; apply Rltb_false; lra). replace (Rgtb (0 + 2 * 2 + 2 * 2) (2 * PI)) with true by (symmetry; apply Rltb_true; lra).
  cbn [Nat.eqb firstn Nat.sub nth]. unfold weighted_dir. cbn [map]. rewrite !lum_rg. unfold Rsum. cbn [fold_right]. rewrite !lum_rg. cbn [rg p_o p_v p_l length seq map nth].
  assert (Reqb (2 * 2 + 0) 0 = false) as -> by (apply Reqb_false; lra).
  assert (norm (vscale (/ (2 * 2 + 0)) (vadd (vscale (2 * 2) up) vzero)) = up) as ->.
  { rewrite <- (L_Angles.norm_unit_id up dot_up) at 2. f_equal. unfold vscale, vadd, vzero, up. cbn [vx vy vz]. f_equal; field. }
  cbn [bind]. unfold source, chan. cbn [rg p_l p_o nth map running]. replace (PI * 1) with PI by ring. replace ((0 + 2 * x) / PI / 1) with (2 * x / PI) by (field; lra). replace ((0 + 2 * (2 - x)) / PI / 1) with (2 * (2 - x) / PI) by (field; lra). reflexivity.
Qed.
Lemma tie_result order blur : sorts_down order -> by_comparison order ->
  exists b : bool, forall x y, normalize_peak order blur [1; 1] args1 false [rg x; rg y] = Ok (if b then [rg y; source x] else [rg x; source y]).
Proof.
  intros O C. assert (H : order (fun _ => 0) [0;1]%nat = [0;1]%nat \/ order (fun _ => 0) [0;1]%nat = [1;0]%nat).
  { destruct (O (fun _ => 0) [0;1]%nat) as [P _]. apply Permutation_sym in P. now apply Permutation_length_2_inv in P. }
  assert (K : forall x y, order (fun i => lum [1;1] (get [rg x; rg y] i)) [0;1]%nat = order (fun i => lum [1;1] (get [rg 0; rg 0] i)) [0;1]%nat).
  { intros u v. apply C. intros i j. unfold get. destruct i as [|[|i]], j as [|[|j]]; cbn [nth]; rewrite ?lum_rg; try reflexivity; now destruct i || now destruct j || idtac. }
  assert (H' : order (fun i => lum [1;1] (get [rg 0; rg 0] i)) [0;1]%nat = [0;1]%nat \/ order (fun i => lum [1;1] (get [rg 0; rg 0] i)) [0;1]%nat = [1;0]%nat).
  { destruct (O (fun i => lum [1;1] (get [rg 0; rg 0] i)) [0;1]%nat) as [P _]. apply Permutation_sym in P. now apply Permutation_length_2_inv in P. }
  clear H. assert (T : Rgtb (dot up up) (cosrad args1) = true) by (rewrite dot_up; apply Rltb_true, cosrad1).
  destruct H' as [H|H]; [exists true|exists false]; intros u v; unfold normalize_peak, find_peak; rewrite rg_bright, K, H; cbn [hd filter]; unfold get; cbn [nth];
  change (p_v (rg u)) with up; change (p_v (rg v)) with up; rewrite T; cbn [map nth]; rewrite merge_rg; cbn [bind fst snd firstn]; reflexivity.
Qed.
Lemma ties_differ order blur : sorts_down order -> by_comparison order -> exists rays, args_ok args1 /\ rays_ok [1; 1] args1 rays /\
  ~ same_rays (normalize_peak order blur [1; 1] args1 false rays) (normalize_peak order blur [1; 1] args1 false (rev rays)).
Proof.
  intros O C. exists [rg 2; rg 0]. split; [apply args1_ok|]. split.
  { repeat apply Forall_cons; try apply Forall_nil; cbn [rg p_v p_o p_l]; repeat split; try apply dot_up; lra. }
  destruct (tie_result order blur O C) as (b & R). cbn [rev app]. rewrite !R. cbn [same_rays]. intros P.
  pose proof PI_RGT_0 as HP. pose proof L_Trig.PI_lo as P3.
  assert (D : forall x y, rg x = source y -> False) by (intros x y E; unfold rg, source in E; injection E as E _ _; lra).
  destruct b; apply Permutation_length_2_inv in P; destruct P as [P|P]; injection P; intros; try (eapply D; eassumption); try (eapply D; symmetry; eassumption);
  match goal with H : rg _ = rg _ |- _ => unfold rg in H; injection H; intros; lra | _ => idtac end; try lra.
Qed.
Lemma distinct_example : distinct_peaks [1] args1 [Pix up 1 [10]; Pix up 2.5 [8]].
Proof.
  unfold distinct_peaks. cbn [filter p_l]. change (rgb2rad [1] [10]) with (lum [1] (Pix up 1 [10])). change (rgb2rad [1] [8]) with (lum [1] (Pix up 1 [8])). rewrite !lum_1.
  unfold args1. cbn [a_peakt a_scale]. rewrite !(proj2 (Rltb_true _ _)) by lra. cbn [map p_l]. change (rgb2rad [1] [10]) with (lum [1] (Pix up 1 [10])). change (rgb2rad [1] [8]) with (lum [1] (Pix up 1 [8])). rewrite !lum_1.
  constructor; [cbn [In]; lra|]. constructor; [intros []|constructor].
Qed.
