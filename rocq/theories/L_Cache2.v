From Coq Require Import Lra Lia.
From Verif Require Import Base BaseX M_Metric M_Cache S_Metric L_Cache S_Cache.
Import ListNotations.
Local Open Scope R_scope.

Lemma provides_definer k p d : provides k p d -> definer k p = d.
Proof.
  intros H. induction H as [k p H|k p k' d N E H IH].
  - destruct k; cbn in H; decompose [or] H; try subst; try reflexivity; contradiction.
  - subst d. destruct k; cbn in E; inversion E; subst k'; destruct p; try reflexivity; exfalso; apply N; cbn; tauto.
Qed.
Ltac isin := solve [cbn; repeat (first [left; reflexivity | right])].
Ltac notin H := solve [exfalso; cbn in H; repeat (destruct H as [H|H]; [discriminate H|]); exact H].
Lemma in_defines p k : In p (defines k) \/ ~ In p (defines k).
Proof. destruct k, p; try (left; isin); right; intros H; notin H. Qed.
Lemma definer_provides k0 k p : provides k0 p (definer k p) -> provides k p (definer k p).
Proof.
  intros H. assert (In p (defines (definer k p))) as D.
  { remember (definer k p) as d. clear Heqd. induction H; auto. }
  clear H. destruct k.
  - apply provides_own. exact D.
  - destruct (in_defines p KMetric) as [I|N].
    + replace (definer KMetric p) with KMetric by (symmetry; now apply provides_definer, provides_own). now apply provides_own.
    + eapply provides_up; [exact N|reflexivity|]. assert (definer KMetric p = KBase) as E by (destruct p; try reflexivity; exfalso; apply N; isin). rewrite E in *. now apply provides_own.
  - destruct (in_defines p KColor) as [I|N].
    + replace (definer KColor p) with KColor by (symmetry; now apply provides_definer, provides_own). now apply provides_own.
    + eapply provides_up; [exact N|reflexivity|]. destruct (in_defines p KMetric) as [I|N'].
      * replace (definer KColor p) with KMetric; [now apply provides_own|]. destruct p; try reflexivity; try (exfalso; apply N; isin); notin I.
      * eapply provides_up; [exact N'|reflexivity|]. assert (definer KColor p = KBase \/ p = Pirradiance) as [E|E] by (destruct p; try (now left); try (now right); exfalso; apply N'; isin); [|exfalso; apply N; rewrite E; isin]. rewrite E in *. now apply provides_own.
Qed.
(** reading an object touches only the entries of its own class *)
Lemma read_keeps h j : forall fuel q c r c', read fuel h j c q = Some (r, c') ->
  forall d p, d <> definer (fst (h j)) p -> c' d p = c d p.
Proof.
  induction fuel as [|fuel IH]; intros q c r c' E d p Hd; [discriminate|]. cbn [read] in E. destruct (h j) as [k m] eqn:Eh. cbn [fst] in *.
  assert (RR : forall g c0 r0 c1, run (read fuel h j) g c0 = Some (r0, c1) -> c1 d p = c0 d p).
  { induction g as [v|x kk IHg]; intros c0 r0 c1 E0; cbn [run] in E0; [now injection E0 as _ <-|].
    destruct (read fuel h j c0 x) as [[[v|e] c2]|] eqn:E2; try discriminate.
    - apply IHg in E0. rewrite E0. eapply IH; eauto.
    - injection E0 as _ <-. eapply IH; eauto. }
  destruct (negb (has_prop k q)); [now injection E as _ <-|].
  assert (SS : forall c0 v, d <> definer k p -> cache_set c0 (definer k q) q (j, v) d p = c0 d p).
  { intros c0 v N. unfold cache_set. destruct (kind_beq (definer k q) d && prop_beq q p) eqn:B; auto. apply beq_sound in B as [<- <-]. congruence. }
  assert (G : match c (definer k q) q with
     | Some (j0, v0) => if Nat.eqb j0 j then Some (Ok v0, c)
         else match run (read fuel h j) (body k m q) c with Some (Ok v, c0) => Some (Ok v, cache_set c0 (definer k q) q (j, v)) | r => r end
     | None => match run (read fuel h j) (body k m q) c with Some (Ok v, c0) => Some (Ok v, cache_set c0 (definer k q) q (j, v)) | r => r end
     end = Some (r, c') -> c' d p = c d p).
  { assert (MM : forall r c', match run (read fuel h j) (body k m q) c with Some (Ok v, c0) => Some (Ok v, cache_set c0 (definer k q) q (j, v)) | r => r end = Some (r, c') -> c' d p = c d p).
    { intros r1 c1 E1. destruct (run (read fuel h j) (body k m q) c) as [[[v|e] c0]|] eqn:E0; try discriminate.
      - injection E1 as _ <-. rewrite SS by auto. eauto.
      - injection E1 as _ <-. eauto. }
    intros E1. destruct (c (definer k q) q) as [[j0 v0]|]; [destruct (Nat.eqb j0 j); [now injection E1 as _ <-|]|]; eauto. }
  destruct q; auto. now injection E as _ <-.
Qed.
Lemma has_prop_ok h i p v : pv h i p = Ok v -> has_prop (fst (h i)) p = true.
Proof. intros E. destruct (has_prop (fst (h i)) p) eqn:Hp; auto. unfold pv, prop_value in E. rewrite Hp in E. discriminate. Qed.
(** an old value survives whatever is read of objects for which another class provides the property *)
Lemma kept h i js p m' v d : pv h i p = Ok v -> provides (fst (h i)) p d ->
  (forall j q, In (j, q) js -> ~ provides (fst (h j)) p d) ->
  exists rs, history h empty_cache (Read i p :: Assign i m' :: map (fun x => Read (fst x) (snd x)) js ++ [Read i p]) = Some (Ok v) :: rs ++ [Some (Ok v)].
Proof.
  intros E Hp Hj. pose proof (provides_definer _ _ _ Hp) as D. cbn [history].
  assert (Hv : p <> Pview_area).
  { intros ->. clear -Hp. remember Pview_area as q. induction Hp as [k q H|]; auto. subst. destruct k; cbn in H; intuition discriminate. }
  destruct (read_fills h i p v empty_cache E Hv) as [c [R1 R2]]; [intros d0 q j w X; discriminate|]. rewrite R1. rewrite D in R2. clear R1.
  set (h' := set_data h i m'). assert (K : forall j, fst (h' j) = fst (h j)).
  { intros j. unfold h', set_data. destruct (Nat.eqb i j) eqn:B; auto. apply Nat.eqb_eq in B. now subst. }
  clearbody h'. enough (exists rs, history h' c (map (fun x => Read (fst x) (snd x)) js ++ [Read i p]) = rs ++ [Some (Ok v)]) as [rs G] by (exists rs; now rewrite G).
  revert c R2. induction js as [|[j q] js IH]; intros c R2.
  - exists []. cbn [map app history]. change read_fuel with (S 11). rewrite (read_hit 11 _ _ _ _ v); auto; rewrite K; [congruence|]. eapply has_prop_ok; eauto.
  - destruct IH with (c := match read read_fuel h' j c q with Some (_, c') => c' | None => c end) as [rs IHs].
    + intros j' q' X; apply (Hj j' q'); right; auto.
    + destruct (read read_fuel h' j c q) as [[r c']|] eqn:Er; auto. erewrite read_keeps; eauto. rewrite K.
      intros X. apply (Hj j q); [now left|]. rewrite X. apply (definer_provides (fst (h i))). now rewrite <- X.
    + cbn [map app history fst snd]. destruct (read read_fuel h' j c q) as [[r c']|]; rewrite IHs; [exists (Some r :: rs)|exists (None :: rs)]; reflexivity.
Qed.
(** and a read of another object served by the same function drops it *)
Lemma leaf_body k m p : reads_data p -> exists v, body k m p = Ret v.
Proof.
  intros H. unfold reads_data in H. cbn [In] in H.
  repeat (destruct H as [<-|H]); try contradiction; destruct k; cbn; unfold ret_f, ret_x; try (eexists; reflexivity);
  destruct (map r_lum (ms_rays m)); eexists; reflexivity.
Qed.
Lemma leaf_read n h i c p : reads_data p -> c (definer (fst (h i)) p) p = None \/ (exists j v, c (definer (fst (h i)) p) p = Some (j, v) /\ j <> i) ->
  exists c', read (S n) h i c p = Some (pv h i p, c') /\ forall w, pv h i p = Ok w -> c' (definer (fst (h i)) p) p = Some (i, w).
Proof.
  intros L Hc. pose proof (body_correct (fst (h i)) (snd (h i)) p) as B. unfold pv. cbn [read]. destruct (h i) as [k m]. cbn [fst snd] in *.
  destruct (has_prop k p) eqn:Hp; cbn [negb]; [|exists c; unfold prop_value; rewrite Hp; split; [reflexivity|discriminate]].
  assert (Hv : p <> Pview_area) by (intros ->; unfold reads_data in L; cbn in L; intuition discriminate).
  specialize (B eq_refl Hv). destruct (leaf_body k m p L) as [v Ev]. rewrite Ev in *. cbn [run peval] in *. rewrite <- B.
  assert (G : exists c', match c (definer k p) p with
     | Some (j0, v0) => if Nat.eqb j0 i then Some (Ok v0, c)
         else match v with Ok w => Some (Ok w, cache_set c (definer k p) p (i, w)) | Raise e => Some (v, c) end
     | None => match v with Ok w => Some (Ok w, cache_set c (definer k p) p (i, w)) | Raise e => Some (v, c) end
     end = Some (v, c') /\ forall w, v = Ok w -> c' (definer k p) p = Some (i, w)).
  { destruct Hc as [->|[j [w [-> N]]]]; [|apply Nat.eqb_neq in N; rewrite N]; destruct v as [u|e]; eexists; (split; [reflexivity|]); try discriminate; intros w0 [= <-]; unfold cache_set; now rewrite kind_lb, prop_lb. }
  destruct G as [c' [G K]]. exists c'. split; [|exact K]. revert G. clear -Hv. destruct v; destruct p; intros G; try exact G; congruence.
Qed.
Lemma dropped h i j p m' v w d : i <> j -> reads_data p -> pv h i p = Ok v -> pv h j p = Ok w ->
  provides (fst (h i)) p d -> provides (fst (h j)) p d ->
  history h empty_cache [Read i p; Assign i m'; Read j p; Read i p] = [Some (Ok v); Some (Ok w); Some (prop_value (fst (h i)) m' p)].
Proof.
  intros N L E1 E2 P1 P2. apply provides_definer in P1, P2. 
  assert (Hv : p <> Pview_area) by (intros ->; unfold reads_data in L; cbn in L; intuition discriminate).
  cbn [history]. destruct (read_fills h i p v empty_cache E1 Hv) as [c [R1 R2]]; [intros d0 q j0 w0 X; discriminate|]. rewrite R1. f_equal. rewrite P1 in R2.
  set (h' := set_data h i m'). assert (Ej : h' j = h j) by (unfold h', set_data; apply Nat.eqb_neq in N; now rewrite N).
  assert (Ei : h' i = (fst (h i), m')) by (unfold h', set_data; now rewrite Nat.eqb_refl). clearbody h'. clear R1.
  change read_fuel with (S 11).
  destruct (leaf_read 11 h' j c p L) as [c' [R K]].
  { right. exists i, v. rewrite Ej, P2. auto. }
  rewrite R. unfold pv in K |- *. rewrite Ej in K |- *. unfold pv in E2. f_equal; [now rewrite E2|].
  assert (C' : c' d p = Some (j, w)) by (rewrite <- P2; apply K; exact E2).
  destruct (leaf_read 11 h' i c' p L) as [c'' [R' _]].
  { right. exists j, w. rewrite Ei. cbn [fst]. rewrite P1. split; auto. }
  rewrite R'. unfold pv. now rewrite Ei.
Qed.
