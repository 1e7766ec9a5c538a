From Coq Require Import Lra Lia Psatz String.
From Verif Require Import Base BaseX L_Base M_Translate S_Translate M_Mapper S_Mapper M_Io M_Metric M_Cache S_Metric L_Mapper L_Pidx L_Metric L_Metric2 L_Metric3 L_Metric4.
Import ListNotations.
Local Open Scope R_scope.

(** ** bodies compute the definitions when their reads do *)
Fixpoint peval (pv : prop -> res value) (g : prog) : res value :=
  match g with
  | Ret v => v
  | Ask p k => match pv p with Ok v => peval pv (k v) | Raise e => Raise e end
  end.
Lemma map2_map {A B C D} (f : B -> C -> D) (a : A -> B) (b : A -> C) l : map2 f (map a l) (map b l) = map (fun x => f (a x) (b x)) l.
Proof. unfold map2. induction l as [|x l IH]; cbn; f_equal; auto. Qed.
Lemma select_maps {A B} (f : A -> bool) (g : A -> B) l : select (map f l) (map g l) = map g (filter f l).
Proof. rewrite select_map, select_map_filter. auto. Qed.
Lemma map2_irr (a : ray -> R) (b : list R -> R) (c : ray -> R) l k :
  map2 Rmult (map2 Rmult (map a l) (map b k)) (map c l) = map (fun p => a (fst p) * b (snd p) * c (fst p)) (combine l k).
Proof.
  unfold map2. revert k. induction l as [|r l IH]; intros [|x k]; cbn; auto. f_equal. apply IH.
Qed.
Lemma xexp_quot i : xdiv (xexp (xadd (xmul (Fin 0.024) (Fin i)) (Fin (-4)))) (xadd (Fin 1) (xexp (xadd (xmul (Fin 0.024) (Fin i)) (Fin (-4))))) =
  Fin (exp (0.024 * i - 4) / (1 + exp (0.024 * i - 4))).
Proof.
  cbn [xmul xadd xexp]. change (0.024 * i + -4) with (0.024 * i - 4).
  pose proof (exp_pos (0.024 * i - 4)). rewrite xdiv_fin by lra. auto.
Qed.
Ltac arr := unfold einsum3, einsum2; rewrite ?map2_map, ?map_map, ?select_map_filter, ?select_maps, ?map_map, ?map2_map; cbn [map].
Lemma body_base_correct k m p : has_prop k p = true -> is_metric_prop p = false -> p <> Pmaxlum -> p <> Pirradiance -> p <> Pview_area ->
  peval (prop_value k m) (body_base m p) = prop_value k m p.
Proof.
  intros H1 H2 H3 H4 H5.
  destruct p; try discriminate H2; try congruence; destruct k; try discriminate H1; cbn [body_base];
  unfold ask_r, ask_x, ret_f, ret_x; cbn [peval prop_value has_prop negb is_metric_prop andb]; arr; try reflexivity;
  try (rewrite map_length; reflexivity);
  try (unfold gcr, gcr_of; destruct (xgtb (avglum m) (Fin 0)); cbn [peval prop_value has_prop negb is_metric_prop andb]; reflexivity);
  try (unfold pwgcr, gcr_of; destruct (xgtb (pwavglum m) (Fin 0)); cbn [peval prop_value has_prop negb is_metric_prop andb]; reflexivity).
Qed.
Lemma body_metric_correct k m p : k <> KBase -> has_prop k p = true -> p <> Pirradiance -> p <> Pview_area ->
  peval (prop_value k m) (body_metric m p) = prop_value k m p.
Proof.
  intros Hk H1 H4 H5. destruct (is_metric_prop p) eqn:E.
  - destruct p; try discriminate E; destruct k; try congruence; cbn [body_metric];
    unfold ask_r, ask_x, ask_b, ask_s, ret_f, ret_x; cbn [peval prop_value has_prop negb is_metric_prop andb]; arr; try reflexivity;
    try (unfold threshold; destruct (Rgtb (ms_threshold m) 100); cbn [peval prop_value has_prop negb is_metric_prop andb]; reflexivity);
    try (unfold pwsl2; rewrite map_map, map2_map; reflexivity);
    try (cbn [xadd xopp]; rewrite xdiv_fin by apply PI_neq0; unfold backlum, Rminus; reflexivity);
    try (unfold dgp, lowlight_factor; destruct (ms_lowlight m); cbn [peval prop_value has_prop negb is_metric_prop andb]; [|reflexivity];
         change (xltb (Fin (illum m)) (Fin 500)) with (Rltb (illum m) 500);
         destruct (Rltb (illum m) 500); cbn [peval prop_value has_prop negb is_metric_prop andb]; [|reflexivity];
         rewrite xexp_quot; reflexivity).
  - destruct (prop_beq p Pmaxlum) eqn:F.
    + destruct p; try discriminate F. cbn [body_metric]. destruct k; [congruence| |]; cbn [prop_value has_prop negb]; unfold maxlum;
      destruct (map r_lum (ms_rays m)); reflexivity.
    + replace (body_metric m p) with (body_base m p) by (destruct p; try discriminate E; try discriminate F; reflexivity).
      apply body_base_correct; auto. intros ->. discriminate F.
Qed.
Lemma body_correct k m p : has_prop k p = true -> p <> Pview_area -> peval (prop_value k m) (body k m p) = prop_value k m p.
Proof.
  intros H1 H2. destruct k; cbn [body].
  - destruct (prop_beq p Pmaxlum) eqn:F.
    + destruct p; try discriminate F. cbn. unfold maxlum_base. destruct (np_max _); reflexivity.
    + apply body_base_correct; auto; [destruct p; try discriminate; auto|intros ->; discriminate|intros ->; discriminate].
  - apply body_metric_correct; auto; try congruence. intros ->. discriminate.
  - destruct (prop_beq p Pirradiance) eqn:F.
    + destruct p; try discriminate F. cbn [body_color]. unfold ask_r. cbn [peval prop_value has_prop negb is_metric_prop andb].
      unfold irradiance, einsum3. do 2 f_equal. apply map_ext. intros j. rewrite map2_irr. reflexivity.
    + replace (body_color m p) with (body_metric m p) by (destruct p; try discriminate F; reflexivity).
      apply body_metric_correct; auto; try congruence. intros ->. discriminate F.
Qed.

(** ** nesting of reads *)
Definition rank (p : prop) : nat :=
  match p with
  | Pctheta | Ppos_idx | Pavglum | Pmaxlum | Pavgraylum | Pdensity | Ptask_mask | Pview_area => 0
  | Pradians | Ppweight | Pillum | Ptasklum | Pirradiance | Pgcr => 1
  | Ppweighted_area | Pthreshold | Ploggcr | Pdgp_t1 => 2
  | Ppwavglum | Psrc_mask => 3
  | Ppwgcr | Psources | Pbackground | Psource_pos_idx => 4
  | Plogpwgcr | Ppwsl2 | Psrcillum | Psrcarea | Pbacklum_true => 5
  | Pbacklum | Plog_gc => 6
  | Pugr | Pdgp_t2 => 7
  | Pdgp | Pugp => 8
  end.
Inductive asks_below (n : nat) : prog -> Prop :=
  | ab_ret v : asks_below n (Ret v)
  | ab_ask p k : (rank p < n)%nat -> (forall v, asks_below n (k v)) -> asks_below n (Ask p k).
Ltac below := repeat (first [apply ab_ret | apply ab_ask; [cbn; lia|intros []] |
   match goal with |- asks_below _ (if ?b then _ else _) => destruct b | |- asks_below _ (match ?l with _ => _ end) => destruct l end]).
Lemma base_below m p : asks_below (rank p) (body_base m p).
Proof. destruct p; cbn [body_base]; unfold ask_r, ask_x, ask_b, ask_s, ret_f, ret_x; cbn [rank]; below. Qed.
Lemma metric_below m p : asks_below (rank p) (body_metric m p).
Proof.
  destruct p; try apply base_below; cbn [body_metric]; unfold ask_r, ask_x, ask_b, ask_s, ret_f, ret_x; cbn [rank]; below.
Qed.
Lemma color_below m p : asks_below (rank p) (body_color m p).
Proof. destruct p; try apply metric_below. cbn [body_color]. unfold ask_r; cbn [rank]; below. Qed.
Lemma body_below k m p : asks_below (rank p) (body k m p).
Proof. destruct k; cbn [body]; [apply base_below|apply metric_below|apply color_below]. Qed.

(** ** the cache invariant *)
Definition pv (h : heap) (i : nat) : prop -> res value := prop_value (fst (h i)) (snd (h i)).
(** entries are right for the object they remember; [P] holds of the objects remembered *)
Definition cache_ok (P : nat -> Prop) (h : heap) (c : cache) : Prop :=
  forall d p j v, c d p = Some (j, v) -> pv h j p = Ok v /\ P j.
Lemma kind_bl k k' : kind_beq k k' = true -> k = k'. Proof. destruct k, k'; intros H; try reflexivity; discriminate H. Qed.
Lemma prop_bl p p' : prop_beq p p' = true -> p = p'. Proof. destruct p, p'; intros H; try reflexivity; discriminate H. Qed.
Lemma kind_lb k : kind_beq k k = true. Proof. destruct k; reflexivity. Qed.
Lemma prop_lb p : prop_beq p p = true. Proof. destruct p; reflexivity. Qed.
Lemma beq_sound k k' p p' : kind_beq k k' && prop_beq p p' = true -> k = k' /\ p = p'.
Proof. intros H. apply andb_prop in H as [A B]. apply kind_bl in A. apply prop_bl in B. auto. Qed.
Lemma cache_set_ok P h c d p i v : cache_ok P h c -> pv h i p = Ok v -> P i -> cache_ok P h (cache_set c d p (i, v)).
Proof.
  intros H E HP d' p' j w. unfold cache_set. destruct (kind_beq d d' && prop_beq p p') eqn:B.
  - apply beq_sound in B as [<- <-]. intros [= <- <-]. auto.
  - apply H.
Qed.
Lemma read_ok (P : nat -> Prop) h i : P i -> forall fuel p c, (rank p < fuel)%nat -> cache_ok P h c ->
  exists c', read fuel h i c p = Some (pv h i p, c') /\ cache_ok P h c'.
Proof.
  intros HP. induction fuel as [|fuel IH]; intros p c Hr Hc; [lia|].
  assert (R : forall g, asks_below (rank p) g -> forall c, cache_ok P h c ->
     exists c', run (read fuel h i) g c = Some (peval (pv h i) g, c') /\ cache_ok P h c').
  { intros g Hg. induction Hg as [v|q k Hq Hk IHk]; intros c0 H0; cbn [run peval].
    - exists c0. auto.
    - destruct (IH q c0) as [c1 [E1 H1]]; auto; [lia|]. rewrite E1. destruct (pv h i q) as [v|e].
      + apply IHk. auto.
      + exists c1. auto. }
  unfold pv in *. cbn [read]. destruct (h i) as [k m] eqn:Eh. cbn [fst snd] in *.
  destruct (has_prop k p) eqn:Hp; cbn [negb].
  2:{ exists c. split; auto. unfold prop_value. rewrite Hp. reflexivity. }
  destruct (prop_beq p Pview_area) eqn:Ep.
  { apply prop_bl in Ep. subst p. exists c. split; auto. unfold prop_value. rewrite Hp. reflexivity. }
  set (miss := match run (read fuel h i) (body k m p) c with Some (Ok v, c0) => Some (Ok v, cache_set c0 (definer k p) p (i, v)) | r => r end).
  assert (G : (match p with Pview_area => Some (Ok (VX (Fin (ms_view_area m))), c) | _ =>
      match c (definer k p) p with Some (j, v) => if Nat.eqb j i then Some (Ok v, c) else miss | None => miss end end)
      = match c (definer k p) p with Some (j, v) => if Nat.eqb j i then Some (Ok v, c) else miss | None => miss end)
    by (destruct p; try reflexivity; discriminate Ep).
  change (exists c' : cache, (match p with Pview_area => Some (Ok (VX (Fin (ms_view_area m))), c) | _ =>
      match c (definer k p) p with Some (j, v) => if Nat.eqb j i then Some (Ok v, c) else miss | None => miss end end)
      = Some (prop_value k m p, c') /\ cache_ok P h c').
  rewrite G. clear G.
  assert (M : exists c', miss = Some (prop_value k m p, c') /\ cache_ok P h c').
  { unfold miss. destruct (R (body k m p) (body_below k m p) c Hc) as [c1 [E1 H1]]. rewrite E1.
    rewrite body_correct by (auto; intros ->; discriminate Ep).
    destruct (prop_value k m p) as [v|e] eqn:Ev; [|exists c1; auto].
    eexists. split; [reflexivity|]. apply cache_set_ok; auto. unfold pv. rewrite Eh. auto. }
  destruct (c (definer k p) p) as [[j v]|] eqn:Ec; auto.
  destruct (Nat.eqb j i) eqn:Ej; auto. apply Nat.eqb_eq in Ej. subst j. exists c. split; auto.
  apply Hc in Ec as [Ec _]. unfold pv in Ec. rewrite Eh in Ec. cbn [fst snd] in Ec. rewrite Ec. auto.
Qed.
Lemma rank_fuel p : (rank p < read_fuel)%nat. Proof. destruct p; cbn; unfold read_fuel; lia. Qed.
Lemma history_ok es : forall h c, assigned_before_read es -> cache_ok (fun j => forall m, ~ In (Assign j m) es) h c ->
  history h c es = expected h es.
Proof.
  induction es as [|[i p|i m] es IH]; intros h c Ha Hc; auto; cbn [history expected assigned_before_read] in *.
  - destruct Ha as [Ha Hes].
    assert (Hc' : cache_ok (fun j => forall m, ~ In (Assign j m) es) h c).
    { intros d q j v E. apply Hc in E as [E1 E2]. split; auto. intros m Hm. apply (E2 m). right. auto. }
    destruct (read_ok _ h i Ha read_fuel p c (rank_fuel p) Hc') as [c' [E1 E2]]. rewrite E1. f_equal. apply IH; auto.
  - apply IH; auto. intros d q j v E. apply Hc in E as [E1 E2].
    assert (j <> i) by (intros ->; apply (E2 m); left; auto).
    split; [|intros m' Hm; apply (E2 m'); right; auto]. unfold pv, set_data in *.
    replace (Nat.eqb i j) with false by (symmetry; apply Nat.eqb_neq; auto). auto.
Qed.
Lemma history_correct h es : assigned_before_read es -> history h empty_cache es = expected h es.
Proof. intros H. apply history_ok; auto. intros d p j v E. discriminate. Qed.
(** reads alone *)
Lemma reads_assigned_before_read l : assigned_before_read (map (fun ip => Read (fst ip) (snd ip)) l).
Proof.
  induction l as [|[i p] l IH]; cbn; auto. split; auto. intros m H. apply in_map_iff in H as [x [E _]]. discriminate.
Qed.
(** after an assignment the old value comes back *)
Lemma read_hit fuel h i c p v : c (definer (fst (h i)) p) p = Some (i, v) -> has_prop (fst (h i)) p = true -> p <> Pview_area ->
  read (S fuel) h i c p = Some (Ok v, c).
Proof.
  intros E Hp Hv. cbn [read]. destruct (h i) as [k m]. cbn [fst] in *. rewrite Hp. cbn [negb]. rewrite E, Nat.eqb_refl.
  destruct p; auto; congruence.
Qed.
Lemma read_fills_S n h i p v c : pv h i p = Ok v -> p <> Pview_area -> (rank p < S n)%nat -> cache_ok (fun _ => True) h c ->
  exists c', read (S n) h i c p = Some (Ok v, c') /\ c' (definer (fst (h i)) p) p = Some (i, v).
Proof.
  intros E Hv Hn Hc. destruct (read_ok (fun _ => True) h i I (S n) p c Hn Hc) as [c' [R1 R2]].
  exists c'. rewrite E in R1. split; auto. cbn [read] in R1.
  destruct (h i) as [k m] eqn:Eh. cbn [fst]. destruct (has_prop k p) eqn:Hp; cbn [negb] in R1; [|discriminate].
  assert (S : forall c0 w, cache_set c0 (definer k p) p (i, w) (definer k p) p = Some (i, w)).
  { intros c0 w. unfold cache_set. rewrite kind_lb, prop_lb. reflexivity. }
  set (rd := read n h i) in *.
  assert (G : match c (definer k p) p with
     | Some (j, v0) => if Nat.eqb j i then Some (Ok v0, c)
         else match run rd (body k m p) c with Some (Ok v, c0) => Some (Ok v, cache_set c0 (definer k p) p (i, v)) | r => r end
     | None => match run rd (body k m p) c with Some (Ok v, c0) => Some (Ok v, cache_set c0 (definer k p) p (i, v)) | r => r end
     end = Some (Ok v, c')) by (destruct p; auto; congruence).
  clear R1. destruct (c (definer k p) p) as [[j v0]|] eqn:Ec; [destruct (Nat.eqb j i) eqn:Ej|].
  - injection G as -> <-. apply Nat.eqb_eq in Ej. subst. auto.
  - destruct (run rd (body k m p) c) as [[[w|e] c0]|]; try discriminate. injection G as -> <-. apply S.
  - destruct (run rd (body k m p) c) as [[[w|e] c0]|]; try discriminate. injection G as -> <-. apply S.
Qed.
Lemma read_fills h i p v c : pv h i p = Ok v -> p <> Pview_area -> cache_ok (fun _ => True) h c ->
  exists c', read read_fuel h i c p = Some (Ok v, c') /\ c' (definer (fst (h i)) p) p = Some (i, v).
Proof. intros E Hv Hc. apply (read_fills_S 11); auto. apply rank_fuel. Qed.
Lemma stale h i p m' v : pv h i p = Ok v -> p <> Pview_area ->
  history h empty_cache [Read i p; Assign i m'; Read i p] = [Some (Ok v); Some (Ok v)].
Proof.
  intros E Hv. cbn [history]. destruct (read_fills h i p v empty_cache E Hv) as [c' [R1 R2]]; [intros d q j w X; discriminate|].
  rewrite R1. f_equal. change read_fuel with (S 11). rewrite (read_hit 11 _ _ _ _ v); auto.
  - unfold set_data. rewrite Nat.eqb_refl. auto.
  - unfold set_data. rewrite Nat.eqb_refl. cbn [fst]. destruct (has_prop (fst (h i)) p) eqn:Hp; auto.
    unfold pv, prop_value in E. rewrite Hp in E. discriminate.
Qed.
Definition lit (s : R) : mset := with_scale (mset_of (opts1 2000) full [ray1 1]) s.
Lemma lit_illum s : illum (lit s) = s.
Proof.
  unfold lit, illum, with_scale, mset_of, m_ctheta. cbn [ms_rays ms_scale ms_vm]. rewrite Rsumf_1. cbn [ray1 r_vec r_lum r_omega].
  rewrite full_ctheta. ring.
Qed.
Lemma stale_witness : exists h es, history h empty_cache es <> expected h es.
Proof.
  exists (fun _ => (KMetric, lit 1)), [Read 0 Pillum; Assign 0 (lit 2); Read 0 Pillum].
  rewrite (stale _ _ _ _ (VX (Fin 1))); [|unfold pv; cbn [fst snd prop_value has_prop negb]; rewrite lit_illum; auto|congruence].
  cbn [expected set_data Nat.eqb fst snd prop_value has_prop negb]. rewrite !lit_illum. intros H. injection H. lra.
Qed.
