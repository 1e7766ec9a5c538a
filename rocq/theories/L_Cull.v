(** Culling again, after motions, and with other tolerances. *)
From Coq Require Import Lra Lia Sorting.Sorted.
From Verif Require Import Base L_Base M_Translate M_Data S_Data L_Data L_Data2 L_Data3 S_Cull S_Isometry.
Import ListNotations.
Local Open Scope R_scope.

Lemma vnorm_sub_sym a b : vnorm (vsub a b) = vnorm (vsub b a).
Proof. unfold vnorm. f_equal. unfold dot, vsub. cbn [vx vy vz]. ring. Qed.
Lemma vnorm_sub_self a : vnorm (vsub a a) = 0.
Proof. unfold vnorm. replace (dot (vsub a a) (vsub a a)) with 0; [apply sqrt_0|]. unfold dot, vsub. cbn [vx vy vz]. ring. Qed.
Lemma lt_sorted_nodup l : StronglySorted lt l -> NoDup l.
Proof. induction 1 as [|a l S IH F]; constructor; auto. intros I. rewrite Forall_forall in F. specialize (F a I). lia. Qed.
Lemma lt_sorted_unique l : forall l', StronglySorted lt l -> StronglySorted lt l' -> (forall i, In i l <-> In i l') -> l = l'.
Proof.
  induction l as [|a l IH]; intros [|b l'] S S' H; [reflexivity|exfalso; apply (proj2 (H b)); now left|exfalso; apply (proj1 (H a)); now left|].
  apply StronglySorted_inv in S. apply StronglySorted_inv in S'. destruct S as [S F], S' as [S' F']. rewrite Forall_forall in F, F'.
  assert (a = b).
  { destruct (proj1 (H a)) as [E|E]; [now left|now symmetry|]. destruct (proj2 (H b)) as [E'|E']; [now left|assumption|]. specialize (F b E'). specialize (F' a E). lia. }
  subst b. f_equal. apply IH; auto. intros i. split; intros I.
  - destruct (proj1 (H i)) as [E|E]; [now right| |exact E]. subst i. specialize (F a I). lia.
  - destruct (proj2 (H i)) as [E|E]; [now right| |exact E]. subst i. specialize (F' a I). lia.
Qed.
Lemma run_ext p p' l st : (forall j, In j l -> p j = p' j) -> fold_left (cull_step p) l st = fold_left (cull_step p') l st.
Proof.
  revert st. induction l as [|j l IH]; intros st H; cbn [fold_left]; [reflexivity|]. replace (cull_step p st j) with (cull_step p' st j); [apply IH; intros k K; apply H; now right|].
  unfold cull_step. rewrite (H j) by now left. reflexivity.
Qed.
Lemma cull_ext p p' n : (forall j, (j < n)%nat -> p j = p' j) -> cull_vectors p n = cull_vectors p' n.
Proof. intros H. unfold cull_vectors, cull_run. rewrite (run_ext p p'); [reflexivity|]. intros j J. apply in_seq in J. apply H. lia. Qed.
Definition close vecs tol i k := vnorm (vsub (nth i vecs vzero) (nth k vecs vzero)) <= tol.
Lemma near_greedy vecs tol p : 0 <= tol -> near_lists vecs tol p ->
  let mask := cull_vectors p (length vecs) in length mask = length vecs /\
  (forall i k, (i < k)%nat -> (k < length vecs)%nat -> nth i mask false = true -> nth k mask false = true -> ~ close vecs tol i k) /\
  (forall k, (k < length vecs)%nat -> nth k mask false = false -> exists i, (i < k)%nat /\ nth i mask false = true /\ close vecs tol i k).
Proof.
  intros T N. destruct (cull_greedy (length vecs) (close vecs tol) p) as (A & B & C & _).
  - intros j J. destruct (N j J) as [S I]. split; [now apply lt_sorted_nodup|exact I].
  - intros i _. unfold close. rewrite vnorm_sub_self. exact T.
  - intros i j. unfold close. now rewrite vnorm_sub_sym.
  - intros j J. apply (N j J).
  - now repeat split.
Qed.
Lemma kept_pairs (R : vec3 -> vec3 -> Prop) mask : forall vecs, length mask = length vecs ->
  (forall i k, (i < k)%nat -> (k < length vecs)%nat -> nth i mask false = true -> nth k mask false = true -> R (nth i vecs vzero) (nth k vecs vzero)) ->
  forall a b, (a < b)%nat -> (b < length (kept mask vecs))%nat -> R (nth a (kept mask vecs) vzero) (nth b (kept mask vecs) vzero).
Proof.
  induction mask as [|m mask IH]; intros [|v vecs] L H a b AB BL; cbn [length] in L; try discriminate; [cbn in BL; lia|].
  assert (H' : forall i k, (i < k)%nat -> (k < length vecs)%nat -> nth i mask false = true -> nth k mask false = true -> R (nth i vecs vzero) (nth k vecs vzero)).
  { intros i k I K M M'. apply (H (S i) (S k)); cbn [length nth]; auto; lia. }
  assert (IN : forall x, In x (kept mask vecs) -> exists k, (k < length vecs)%nat /\ nth k mask false = true /\ nth k vecs vzero = x).
  { clear - L. revert vecs L. induction mask as [|m' mask IH]; intros [|v' vecs] L x X; cbn [length] in *; try discriminate; [destruct X|]. unfold kept in X. cbn [combine filter fst] in X.
    destruct m'; cbn [map snd] in X.
    - destruct X as [<-|X]; [exists 0%nat; cbn; repeat split; lia|]. destruct (IH vecs ltac:(lia) x X) as (k & K1 & K2 & K3). exists (S k). cbn [nth]. repeat split; auto; lia.
    - destruct (IH vecs ltac:(lia) x X) as (k & K1 & K2 & K3). exists (S k). cbn [nth]. repeat split; auto; lia. }
  unfold kept in *. cbn [combine filter fst] in *. destruct m; cbn [map snd length] in *.
  - destruct b as [|b]; [lia|]. destruct a as [|a]; cbn [nth].
    + destruct (IN (nth b (map snd (filter fst (combine mask vecs))) vzero)) as (k & K1 & K2 & K3); [apply nth_In; lia|]. rewrite <- K3. apply (H 0%nat (S k)); cbn [length nth]; auto; lia.
    + apply IH; auto; lia.
  - apply IH; auto.
Qed.
Lemma cull_again vecs tol p p' : 0 <= tol -> near_lists vecs tol p ->
  near_lists (kept (cull_vectors p (length vecs)) vecs) tol p' ->
  cull_vectors p' (length (kept (cull_vectors p (length vecs)) vecs)) = repeat true (length (kept (cull_vectors p (length vecs)) vecs)).
Proof.
  intros T N N'. destruct (near_greedy vecs tol p T N) as (L & A & _). set (ks := kept _ vecs) in *. destruct (near_greedy ks tol p' T N') as (L' & _ & C').
  assert (D : forall a b, (a < b)%nat -> (b < length ks)%nat -> ~ vnorm (vsub (nth a ks vzero) (nth b ks vzero)) <= tol).
  { apply (kept_pairs (fun u v => ~ vnorm (vsub u v) <= tol) (cull_vectors p (length vecs)) vecs L A). }
  apply (nth_ext _ _ false false); [now rewrite repeat_length|]. intros k K. rewrite L' in K. rewrite (nth_indep (repeat _ _) false true), nth_repeat by (rewrite repeat_length; exact K).
  destruct (nth k (cull_vectors p' (length ks)) false) eqn:E; [reflexivity|]. exfalso. destruct (C' k K E) as (i & I & _ & X). now apply (D i k I K).
Qed.
Lemma cull_moved t vecs tol p p' : keeps_distance t -> near_lists vecs tol p -> near_lists (map t vecs) tol p' -> cull_vectors p' (length (map t vecs)) = cull_vectors p (length vecs).
Proof.
  intros D N N'. rewrite map_length. apply cull_ext. intros j J. destruct (N j J) as [S I]. destruct (N' j) as [S' I']; [now rewrite map_length|].
  apply lt_sorted_unique; auto. intros i. rewrite I, I', map_length.
  assert (M : forall k, (k < length vecs)%nat -> nth k (map t vecs) vzero = t (nth k vecs vzero)) by (intros k K; rewrite (nth_indep _ vzero (t vzero)) by (rewrite map_length; exact K); apply map_nth).
  split; intros [A B]; (split; [exact A|]); rewrite ?(M i A), ?(M j J), ?D in *; exact B.
Qed.
Lemma isometry_keeps t : isometry t -> keeps_distance t.
Proof.
  intros (A & K & I) a b. assert (E : vsub (t a) (t b) = t (vsub a b)).
  { replace (vsub a b) with (vadd a (vscale (-1) b)) by (unfold vsub, vadd, vscale; cbn [vx vy vz]; f_equal; ring). rewrite A, K. unfold vsub, vadd, vscale. cbn [vx vy vz]. f_equal; ring. }
  rewrite E. unfold vnorm. now rewrite I.
Qed.
Lemma shift_keeps d : keeps_distance (fun v => vadd v d).
Proof. intros a b. f_equal. unfold vsub, vadd. cbn [vx vy vz]. f_equal; ring. Qed.

(** a larger tolerance that keeps more vectors *)
Definition five : list vec3 := [V3 0 0 11; V3 0 0 0; V3 10 0 0; V3 (-10) 0 0; V3 0 10 0].
Definition fine_lists (j : nat) : list nat := nth j [[0]; [1;2;3;4]; [1;2]; [1;3]; [1;4]]%nat [].
Definition coarse_lists (j : nat) : list nat := nth j [[0;1]; [0;1;2;3;4]; [1;2]; [1;3]; [1;4]]%nat [].
Lemma vnorm_le v r : 0 <= r -> (vnorm v <= r <-> dot v v <= r * r).
Proof.
  intros R. pose proof (vnorm_sqr v) as S. assert (0 <= vnorm v) by apply sqrt_pos. split; intros H1; [rewrite <- S; nra|]. apply Rnot_lt_le. intros L. rewrite <- S in H1. nra.
Qed.
Ltac five_case := intros j J; cbn [length five] in J;
  destruct j as [|[|[|[|[|j]]]]]; [..|cbn in J; lia]; (split; [cbn; repeat constructor; lia|]); intros i;
  (destruct (Nat.lt_ge_cases i 5) as [I|I]; [|cbn; split; [intros [E|E]; intuition lia|intros [E _]; lia]]);
  rewrite vnorm_le by lra; destruct i as [|[|[|[|[|i]]]]]; [..|lia];
  cbn; unfold dot, vsub; cbn; split; intros E; repeat split; try lia; try lra; try tauto; try (exfalso; intuition (try lia; try discriminate; lra)).
Lemma fine_near : near_lists five 10 fine_lists.
Proof. five_case. Qed.
Lemma coarse_near : near_lists five 12 coarse_lists.
Proof. five_case. Qed.
Lemma coarse_keeps_more : exists vecs tol tol' p p', 0 < tol < tol' /\ near_lists vecs tol p /\ near_lists vecs tol' p' /\
  (length (kept (cull_vectors p (length vecs)) vecs) < length (kept (cull_vectors p' (length vecs)) vecs))%nat.
Proof.
  exists five, 10, 12, fine_lists, coarse_lists. split; [lra|]. split; [exact fine_near|]. split; [exact coarse_near|]. cbn. lia.
Qed.
Lemma seq_sorted n : forall a, StronglySorted lt (seq a n).
Proof. induction n as [|n IH]; intros a; cbn [seq]; constructor; [apply IH|]. apply Forall_forall. intros x X. apply in_seq in X. lia. Qed.
Lemma near_exists vecs tol : exists p, near_lists vecs tol p.
Proof.
  exists (fun j => filter (fun i => Rleb (vnorm (vsub (nth i vecs vzero) (nth j vecs vzero))) tol) (seq 0 (length vecs))). intros j J. split; [apply ss_filter, seq_sorted|].
  intros i. rewrite filter_In, in_seq, Rleb_true. split; intros [A B]; split; auto; lia.
Qed.
