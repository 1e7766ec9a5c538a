(** Rays below the threshold. *)
From Coq Require Import Lra Lia Sorting.Permutation Sorting.Sorted.
From Verif Require Import Base L_Base BaseX M_Translate S_Translate M_Io M_Mapper M_Metric M_Peak S_Peak L_Peak L_Peak3 L_Again S_Ties L_Ties S_Dark.
Import ListNotations.
Local Open Scope R_scope.

Lemma filter_map_gen {A B} (g : A -> B) f l : filter f (map g l) = map g (filter (fun x => f (g x)) l).
Proof. induction l as [|a l IH]; cbn [map filter]; [reflexivity|]. destruct (f (g a)); cbn [map]; now rewrite IH. Qed.
Lemma filter_swap {A} (f g : A -> bool) l : filter f (filter g l) = filter g (filter f l).
Proof.
  induction l as [|a l IH]; cbn [filter]; [reflexivity|]. destruct (f a) eqn:F, (g a) eqn:G; cbn [filter]; rewrite ?F, ?G, IH; reflexivity.
Qed.
Lemma filter_ext_on {A} (f g : A -> bool) l : (forall x, In x l -> f x = g x) -> filter f l = filter g l.
Proof. intros H. induction l as [|a l IH]; cbn [filter]; [reflexivity|]. rewrite (H a) by now left. rewrite IH by (intros x X; apply H; now right). reflexivity. Qed.
Lemma as_positions {A} (l : list A) d : map (fun k => nth k l d) (seq 0 (length l)) = l.
Proof. induction l as [|a l IH]; [reflexivity|]. cbn [length seq map nth]. f_equal. rewrite <- seq_shift, map_map. exact IH. Qed.

Lemma filter_true {A} (l : list A) : filter (fun _ => true) l = l.
Proof. induction l as [|a l IH]; cbn [filter]; [reflexivity|now rewrite IH]. Qed.
Section Dark.
Context (w : list R) (p : peak_args) (order : (nat -> R) -> list nat -> list nat) (O : sorts_down order).
Context (argsort : list R -> list nat) (AP : forall xs, Permutation (argsort xs) (seq 0 (length xs)))
  (AO : forall key l, order key l = map (fun k => nth k l 0%nat) (argsort (map key l))).
Notation F rays := (filter (bright_ray w p) rays).
Definition places (f : list pix) : list nat := argsort (map (lum w) f).
Lemma places_in f k : In k (places f) -> (k < length f)%nat.
Proof. intros I. apply (Permutation_in _ (AP _)) in I. apply in_seq in I. rewrite map_length in I. lia. Qed.
Lemma bright_len rays : length (bright w p rays) = length (F rays).
Proof. now rewrite <- bright_get, map_length. Qed.
Lemma get_bright rays k : (k < length (F rays))%nat -> get rays (nth k (bright w p rays) 0%nat) = nth k (F rays) dummy_pix.
Proof.
  intros K. rewrite <- bright_get. rewrite (nth_indep _ dummy_pix (get rays 0%nat)) by (rewrite map_length, bright_len; exact K). now rewrite map_nth.
Qed.
Lemma sorted_places rays : sorted_peaks w p order rays = map (fun k => nth k (bright w p rays) 0%nat) (places (F rays)).
Proof. unfold sorted_peaks. rewrite AO. unfold places. rewrite <- bright_get, map_map. reflexivity. Qed.
Lemma rays_places rays ks : (forall k, In k ks -> (k < length (F rays))%nat) ->
  map (get rays) (map (fun k => nth k (bright w p rays) 0%nat) ks) = map (fun k => nth k (F rays) dummy_pix) ks.
Proof. intros H. rewrite map_map. apply map_ext_in. intros k K. apply get_bright. now apply H. Qed.
Definition near_places (f : list pix) : list nat :=
  filter (fun k => Rgtb (dot (p_v (hd dummy_pix (map (fun k => nth k f dummy_pix) (places f)))) (p_v (nth k f dummy_pix))) (cosrad p)) (places f).
Lemma near_in f k : In k (near_places f) -> (k < length f)%nat.
Proof. intros I. apply filter_In in I. now apply places_in. Qed.
Lemma near_by_places rays : near_peaks w p order rays = map (fun k => nth k (bright w p rays) 0%nat) (near_places (F rays)).
Proof.
  unfold near_peaks. rewrite sorted_places, rays_places by apply places_in. rewrite filter_map_gen. f_equal. apply filter_ext_on. intros k K. rewrite get_bright by now apply places_in. reflexivity.
Qed.
Lemma bright_nodup rays : NoDup (bright w p rays).
Proof. apply NoDup_filter, seq_NoDup. Qed.
Lemma in_places rays zs k : (forall z, In z zs -> (z < length (F rays))%nat) -> (k < length (F rays))%nat ->
  in_pc (map (fun k => nth k (bright w p rays) 0%nat) zs) (nth k (bright w p rays) 0%nat) = in_pc zs k.
Proof.
  intros Z K. apply Bool.eq_iff_eq_true. rewrite !in_pc_true, in_map_iff. split.
  - intros (z & E & I). replace k with z; [exact I|]. apply (proj1 (NoDup_nth (bright w p rays) 0%nat) (bright_nodup rays)); rewrite ?bright_len; auto.
  - intros I. now exists k.
Qed.
Lemma bright_left rays zs : (forall z, In z zs -> (z < length (F rays))%nat) ->
  F (delete_rows (map (fun k => nth k (bright w p rays) 0%nat) zs) rays) = map (fun k => nth k (F rays) dummy_pix) (filter (fun k => negb (in_pc zs k)) (seq 0 (length (F rays)))).
Proof.
  intros Z. unfold delete_rows. rewrite filter_map_gen, filter_swap. change (filter (fun i => bright_ray w p (get rays i)) (seq 0 (length rays))) with (bright w p rays).
  set (f := fun i : nat => negb (in_pc _ i)). rewrite <- (as_positions (bright w p rays) 0%nat). rewrite filter_map_gen, bright_len. unfold f.
  rewrite (filter_ext_on _ (fun k => negb (in_pc zs k))) by (intros k K; apply in_seq in K; rewrite in_places; [reflexivity|exact Z|lia]).
  apply rays_places. intros k K. apply filter_In in K. destruct K as [K _]. apply in_seq in K. lia.
Qed.
Lemma dim_left rays pc : (forall i, In i pc -> In i (bright w p rays)) ->
  filter (fun r => negb (bright_ray w p r)) (delete_rows pc rays) = filter (fun r => negb (bright_ray w p r)) rays.
Proof.
  intros H. unfold delete_rows. rewrite filter_map_gen. transitivity (filter (fun r => negb (bright_ray w p r)) (map (get rays) (seq 0 (length rays)))); [|now rewrite rays_as_seq]. rewrite filter_map_gen. f_equal. rewrite filter_swap.
  transitivity (filter (fun _ => true) (filter (fun x => negb (bright_ray w p (get rays x))) (seq 0 (length rays)))); [|apply filter_true].
  apply filter_ext_on. intros i I. apply filter_In in I. destruct I as [_ I]. destruct (in_pc pc i) eqn:E; [|reflexivity]. exfalso.
  apply in_pc_true, H in E. apply filter_In in E. destruct E as [_ E]. unfold bright_ray in I. rewrite E in I. discriminate.
Qed.
Lemma dark_peak blur rays rays' : F rays = F rays' -> alike w p rays rays' (normalize_peak order blur w p false rays) (normalize_peak order blur w p false rays').
Proof.
  intros E. unfold normalize_peak. rewrite !(find_by_rays w p order blur) by exact O. rewrite !near_by_places, !sorted_places.
  rewrite !rays_places by (apply places_in || apply near_in). rewrite <- E.
  destruct (map (fun k => nth k (F rays) dummy_pix) (places (F rays))) as [|x y]; [left; now split|].
  destruct (map (fun k => nth k (F rays) dummy_pix) (near_places (F rays))) as [|f g]; [reflexivity|].
  destruct (merge_peak blur w p f (f :: g)) as [[q n]|e]; cbn [bind fst snd]; [|reflexivity]. rewrite !firstn_map. set (zs := firstn n (near_places (F rays))).
  assert (Z : forall z, In z zs -> (z < length (F rays))%nat) by (intros z I; apply near_in; rewrite <- (firstn_skipn n); apply in_or_app; now left).
  assert (Z' : forall z, In z zs -> (z < length (F rays'))%nat) by (rewrite <- E; exact Z).
  pose proof (bright_left rays zs Z) as B1. pose proof (bright_left rays' zs Z') as B2. rewrite <- E, <- B1 in B2.
  assert (I : forall rays, (forall z, In z zs -> (z < length (F rays))%nat) -> forall i, In i (map (fun k => nth k (bright w p rays) 0%nat) zs) -> In i (bright w p rays)).
  { intros ra Y i I. apply in_map_iff in I. destruct I as (k & <- & K). apply nth_In. rewrite bright_len. now apply Y. }
  pose proof (dim_left rays _ (I rays Z)) as D1. pose proof (dim_left rays' _ (I rays' Z')) as D2.
  destruct zs as [|z zs]; [left; now split|]. right. cbn [map].
  exists (delete_rows (map (fun k => nth k (bright w p rays) 0%nat) (z :: zs)) rays), (delete_rows (map (fun k => nth k (bright w p rays') 0%nat) (z :: zs)) rays'), q.
  split; [reflexivity|]. split; [reflexivity|]. split; [symmetry; exact B2|]. split; [exact D1|exact D2].
Qed.
Lemma dark_secondary fuel sortdesc rays rays' : F rays = F rays' -> secondary fuel order sortdesc w p rays = secondary fuel order sortdesc w p rays'.
Proof.
  intros E. assert (P : map (get rays) (sorted_peaks w p order rays) = map (get rays') (sorted_peaks w p order rays')) by (rewrite !sorted_places, !rays_places by apply places_in; now rewrite E).
  unfold sorted_peaks in P. unfold secondary. assert (L : length (bright w p rays) = length (bright w p rays')) by (rewrite !bright_len; now rewrite E).
  destruct (bright w p rays) as [|i b], (bright w p rays') as [|i' b']; cbn [length] in L; try discriminate; [reflexivity|]. now rewrite P.
Qed.
End Dark.

Lemma ss_in {A} (P Q : A -> A -> Prop) l : StronglySorted P l -> (forall a b, In a l -> In b l -> P a b -> Q a b) -> StronglySorted Q l.
Proof.
  induction 1 as [|a l S IH F]; intros H; constructor.
  - apply IH. intros x y X Y. apply H; now right.
  - rewrite Forall_forall in *. intros y Y. apply H; [now left|now right|now apply F].
Qed.
Definition argsort_down (xs : list R) : list nat := sort_down (fun k => nth k xs 0) (seq 0 (length xs)).
Lemma argsort_exists : exists order, sorts_down order /\ by_argsort order.
Proof.
  exists (fun key l => map (fun k => nth k l 0%nat) (argsort_down (map key l))).
  assert (P : forall xs, Permutation (argsort_down xs) (seq 0 (length xs))) by (intros xs; unfold argsort_down; apply (sort_down_spec (fun k => nth k xs 0))).
  split; [|exists argsort_down; split; [exact P|reflexivity]].
  intros key l. split.
  - rewrite (P (map key l)), map_length, as_positions. reflexivity.
  - apply ss_map. eapply ss_in; [apply (sort_down_spec (fun k => nth k (map key l) 0) (seq 0 (length (map key l))))|]. intros a b A B. cbv beta.
    assert (In_lt : forall k, In k (sort_down (fun k => nth k (map key l) 0) (seq 0 (length (map key l)))) -> (k < length l)%nat).
    { intros k K. apply (Permutation_in _ (P (map key l))) in K. apply in_seq in K. rewrite map_length in K. lia. }
    assert (N : forall k, (k < length l)%nat -> nth k (map key l) 0 = key (nth k l 0%nat)).
    { intros k K. rewrite (nth_indep _ 0 (key 0%nat)) by (rewrite map_length; exact K). apply map_nth. }
    rewrite !N by (now apply In_lt). tauto.
Qed.
Lemma dark_peak' order blur w p rays rays' : sorts_down order -> by_argsort order -> bright_part w p rays = bright_part w p rays' ->
  alike w p rays rays' (normalize_peak order blur w p false rays) (normalize_peak order blur w p false rays').
Proof. intros O (a & P & A) E. exact (dark_peak w p order O a P A blur rays rays' E). Qed.
Lemma dark_secondary' fuel order sortdesc w p rays rays' : sorts_down order -> by_argsort order -> bright_part w p rays = bright_part w p rays' ->
  secondary fuel order sortdesc w p rays = secondary fuel order sortdesc w p rays'.
Proof. intros O (a & P & A) E. exact (dark_secondary w p order a P A fuel sortdesc rays rays' E). Qed.
Lemma dark_example : bright_part [1] args1 [Pix up 1 [10]; Pix up 2.5 [8]] = bright_part [1] args1 [Pix up 3 [0]; Pix up 1 [10]; Pix vzero 7 [-5]; Pix up 2.5 [8]] /\
  length (bright_part [1] args1 [Pix up 1 [10]; Pix up 2.5 [8]]) = 2%nat.
Proof.
  unfold bright_part. cbn [filter p_l]. assert (L : forall x, rgb2rad [1] [x] = x) by (intros x; apply (lum_1 up 1)). rewrite !L. unfold args1. cbn [a_peakt a_scale].
  rewrite (proj2 (Rltb_true (0 / 1) 10)), (proj2 (Rltb_true (0 / 1) 8)), (proj2 (Rltb_false (0 / 1) 0)), (proj2 (Rltb_false (0 / 1) (-5))) by lra. split; reflexivity.
Qed.
