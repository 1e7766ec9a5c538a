From Coq Require Import Lra Lia Psatz String.
From Verif Require Import Base BaseX L_Base M_Translate S_Translate M_Mapper S_Mapper M_Io M_Metric M_Cache S_Metric L_Angles L_Mapper L_Metric.
Import ListNotations.
Local Open Scope R_scope.

(** ** the omega loop *)
Definition on_edge (a c : R) (p : R * R) : bool := Rgtb (fst p) (a - c * sqrt (snd p)).
Definition edge_total (a c : R) (l : list (R * R)) : R := Rsumf snd (filter (on_edge a c) l).
Definition adjust_of (excess tot : R) : R := if Rgtb tot 0 then 1 - excess / tot else 1.
Definition adjusted (a c k : R) (l : list (R * R)) : list R := map (fun p => if on_edge a c p then snd p * k else snd p) l.
Definition sides (c : R) (l : list (R * R)) : list R := map (fun p => c * sqrt (snd p)) l.
Lemma combine_maps {A B C} (f : A -> B) (g : A -> C) l : combine (map f l) (map g l) = map (fun x => (f x, g x)) l.
Proof. induction l as [|x l IH]; cbn; f_equal; auto. Qed.
Lemma select_maps2 {A B} (f : A -> bool) (g : A -> B) l : select (map f l) (map g l) = map g (filter f l).
Proof. induction l as [|x l IH]; cbn [map select filter]; auto. destruct (f x); cbn [map]; rewrite IH; auto. Qed.
Lemma omega_loop_step fuel a excess l c :
  omega_loop (S fuel) a excess (map fst l) (map snd l) (sides c l) =
  let k := adjust_of excess (edge_total a c l) in
  if Rltb k 0 then omega_loop fuel a excess (map fst l) (map snd l) (sides (c * 1.1) l) else Some (adjusted a c k l).
Proof.
  cbn [omega_loop]. unfold edge_mask, sides. rewrite combine_maps, map_map. cbn [fst snd].
  rewrite select_maps2, combine_maps, !map_map. cbn [fst snd].
  fold (on_edge a c). unfold adjust_of, edge_total, Rsumf.
  change (map (fun x : R * R => Rgtb (fst x) (a - c * sqrt (snd x))) l) with (map (on_edge a c) l).
  change (filter (fun x : R * R => Rgtb (fst x) (a - c * sqrt (snd x))) l) with (filter (on_edge a c) l).
  destruct (Rltb _ 0); [|reflexivity]. f_equal. apply map_ext. intros p. ring.
Qed.
Lemma filter_sum {A} (f : A -> R) (e : A -> bool) k l :
  Rsum (map (fun p => if e p then f p * k else f p) l) = Rsumf f l - Rsumf f (filter e l) + k * Rsumf f (filter e l).
Proof.
  induction l as [|p l IH]; [unfold Rsumf; cbn; ring|]. cbn [map filter]. rewrite Rsumf_cons.
  change (Rsum (?x :: ?y)) with (x + Rsum y). cbn [Rsum fold_right]. 
  change (fold_right Rplus 0 ?y) with (Rsum y). rewrite IH. destruct (e p); rewrite ?Rsumf_cons; ring.
Qed.
Lemma adjusted_sum a c excess l : let tot := edge_total a c l in 0 < tot ->
  Rsum (adjusted a c (adjust_of excess tot) l) = Rsumf snd l - excess.
Proof.
  intros tot Ht. unfold adjusted. rewrite filter_sum. fold (edge_total a c l). fold tot.
  unfold adjust_of. replace (Rgtb tot 0) with true by (symmetry; apply Rltb_true; auto). field. lra.
Qed.
Lemma pow11 n : 1 + INR n * 0.1 <= 1.1 ^ n.
Proof. replace 1.1 with (1 + 0.1) by lra. apply poly. lra. Qed.
Lemma nat_above x : exists n, x < INR n.
Proof.
  destruct (archimed x) as [H _]. exists (Z.to_nat (up x)). rewrite INR_IZR_INZ.
  assert (up x <= Z.of_nat (Z.to_nat (up x)))%Z by lia. apply IZR_le in H0. lra.
Qed.
Lemma enough_rounds a (l : list (R * R)) : (forall p, In p l -> 0 <= snd p) ->
  exists n, forall m, (n <= m)%nat -> forall p, In p l -> 0 < snd p -> on_edge a (1.1 ^ m) p = true.
Proof.
  induction l as [|p l IH]; intros H; [exists 0%nat; intros m _ p []|].
  destruct IH as [n Hn]; [intros q Hq; apply H; right; auto|].
  destruct (Rle_lt_dec (snd p) 0) as [Hp|Hp].
  { exists n. intros m Hm q [<-|Hq] Hq0; [lra|]. apply (Hn m); auto. }
  assert (Hs : 0 < sqrt (snd p)) by (apply sqrt_lt_R0; auto).
  destruct (nat_above (10 * ((a - fst p) / sqrt (snd p)))) as [n' Hn'].
  exists (Nat.max n n'). intros m Hm q [<-|Hq] Hq0; [|apply (Hn m); auto; lia].
  apply Rltb_true. pose proof (pow11 m). assert (INR n' <= INR m) by (apply le_INR; lia).
  assert (B : (a - fst p) / sqrt (snd p) < 1.1 ^ m) by lra.
  apply (Rmult_lt_compat_r (sqrt (snd p))) in B; auto. unfold Rdiv in B. rewrite Rmult_assoc, Rinv_l in B by lra. lra.
Qed.
Lemma all_on_edge a c l : (forall p, In p l -> 0 <= snd p) -> (forall p, In p l -> 0 < snd p -> on_edge a c p = true) ->
  edge_total a c l = Rsumf snd l.
Proof.
  unfold edge_total. induction l as [|p l IH]; intros H1 H2; auto. cbn [filter].
  assert (E : Rsumf snd (filter (on_edge a c) l) = Rsumf snd l) by (apply IH; intros q Hq; [apply H1|apply H2]; right; auto).
  destruct (on_edge a c p) eqn:Ep; rewrite ?Rsumf_cons, E; auto.
  assert (snd p = 0); [|lra]. destruct (H1 p (or_introl eq_refl)) as [G|G]; auto. rewrite (H2 p (or_introl eq_refl) G) in Ep. discriminate.
Qed.
Lemma omega_loop_terminates a area l : 0 <= area -> (forall p, In p l -> 0 <= snd p) ->
  exists n c os, 1 <= c /\
    (forall fuel, (n <= fuel)%nat -> omega_loop fuel a (Rsumf snd l - area) (map fst l) (map snd l) (sides 1 l) = Some os) /\
    exists k, 0 <= k /\ os = adjusted a c k l /\ ((0 < edge_total a c l /\ Rsum os = area) \/ (edge_total a c l = 0 /\ k = 1)).
Proof.
  intros Ha Hl. set (excess := Rsumf snd l - area). destruct (enough_rounds a l Hl) as [N HN].
  assert (G : forall j i, (i + j = N)%nat -> exists n c os, 1 <= c /\
    (forall fuel, (n <= fuel)%nat -> omega_loop fuel a excess (map fst l) (map snd l) (sides (1.1 ^ i) l) = Some os) /\
    exists k, 0 <= k /\ os = adjusted a c k l /\ ((0 < edge_total a c l /\ Rsum os = area) \/ (edge_total a c l = 0 /\ k = 1))).
  { intros j. induction j as [|j IH]; intros i Hi.
    all: set (k := adjust_of excess (edge_total a (1.1 ^ i) l)).
    all: assert (T0 : 0 <= edge_total a (1.1 ^ i) l) by (apply Rsumf_nonneg; intros p Hp; apply filter_In in Hp as [Hp _]; auto).
    all: assert (Hdone : 0 <= k -> exists n c os, 1 <= c /\
      (forall fuel, (n <= fuel)%nat -> omega_loop fuel a excess (map fst l) (map snd l) (sides (1.1 ^ i) l) = Some os) /\
      exists k, 0 <= k /\ os = adjusted a c k l /\ ((0 < edge_total a c l /\ Rsum os = area) \/ (edge_total a c l = 0 /\ k = 1))).
    1,3: intros Hk; exists 1%nat, (1.1 ^ i), (adjusted a (1.1 ^ i) k l); split; [apply pow_R1_Rle; lra|]; split;
      [intros [|fuel] Hf; [lia|]; rewrite omega_loop_step; cbv zeta; fold k;
       replace (Rltb k 0) with false by (symmetry; apply Rltb_false; auto); auto|];
      exists k; split; [auto|]; split; [auto|]; destruct T0 as [T0|T0];
      [left; split; [auto|]; unfold k; rewrite adjusted_sum by auto; unfold excess; ring
      |right; split; [auto|]; unfold k, adjust_of; rewrite <- T0; replace (Rgtb 0 0) with false by (symmetry; apply Rltb_false; lra); auto].
    - apply Hdone. unfold k, adjust_of. rewrite (all_on_edge a (1.1 ^ i) l) by (auto; intros p Hp Hp0; apply (HN i); auto; lia).
      destruct (Rgtb (Rsumf snd l) 0) eqn:E; [|lra]. apply Rltb_true in E.
      replace (1 - excess / Rsumf snd l) with (area / Rsumf snd l) by (unfold excess; field; lra).
      apply Rmult_le_pos; auto. left. apply Rinv_0_lt_compat; auto.
    - destruct (Rle_lt_dec 0 k) as [Hk|Hk]; auto.
      destruct (IH (S i)) as (n & c & os & H1 & H2 & H3); [lia|]. exists (S n), c, os. split; auto. split; auto.
      intros [|fuel] Hf; [lia|]. rewrite omega_loop_step. cbv zeta. fold k.
      replace (Rltb k 0) with true by (symmetry; apply Rltb_true; auto).
      replace (1.1 ^ i * 1.1) with (1.1 ^ S i) by (cbn [pow]; ring). apply H2. lia. }
  apply (G N 0%nat). lia.
Qed.
Lemma sides_1 l : sides 1 l = map sqrt (map snd l).
Proof. unfold sides. rewrite map_map. apply map_ext. intros. ring. Qed.

(** ** the view *)
Definition ray_pair (vm : viewmapper) (r : ray) : R * R := (acos (vm_ctheta vm (r_vec r)), r_omega r).
Lemma adjusted_rays vm c k rays : edge_scaled vm c k rays
  (mk_rays (map r_vec rays) (adjusted (vm_viewangle vm * PI / 360) c k (map (ray_pair vm) rays)) (map r_lum rays)).
Proof.
  unfold edge_scaled. induction rays as [|[v o l] rays IH]; [constructor|]. cbn [map adjusted].
  change (mk_rays (?v :: ?vs) (?o :: ?os) (?l :: ?ls)) with (Ray v o l :: mk_rays vs os ls). constructor; auto.
  cbn [r_vec r_omega r_lum]. split; auto. split; auto. unfold at_edge, on_edge, ray_pair. cbn [fst snd r_vec r_omega].
  split; intros H.
  - replace (Rgtb _ _) with true by (symmetry; apply Rltb_true; auto). ring.
  - replace (Rgtb _ _) with false by (symmetry; apply Rltb_false; apply Rnot_lt_le; auto). auto.
Qed.
Lemma mk_rays_omega_sum : forall v o l, length v = length o -> length v = length l -> Rsumf r_omega (mk_rays v o l) = Rsum o.
Proof.
  induction v as [|v vs IH]; intros [|o os] [|l ls] A B; cbn in A, B; try discriminate; auto.
  change (mk_rays (v :: vs) (o :: os) (l :: ls)) with (Ray v o l :: mk_rays vs os ls). rewrite Rsumf_cons. cbn [r_omega].
  rewrite IH by lia. reflexivity.
Qed.
Lemma edge_scaled_none vm c rays l : edge_scaled vm c 1 rays l -> l = rays.
Proof.
  intros H. induction H as [|[v o x] [v' o' x'] rays l [H1 [H2 [H3 H4]]] F IH]; auto. cbn in *. subst. f_equal.
  destruct (Rlt_dec (vm_viewangle vm * PI / 360 - c * sqrt o) (acos (vm_ctheta vm v))) as [D|D].
  - rewrite H3 by exact D. f_equal. ring.
  - rewrite H4 by exact D. auto.
Qed.
Lemma construct_corrects o vm args rays mask om : o_as_area o = false -> 0 <= vm_area vm ->
  view_rays vm args = (rays, mask, om) -> (forall r, In r rays -> 0 <= r_omega r) -> (100 < length rays)%nat ->
  exists n m c k, (forall fuel, (n <= fuel)%nat -> construct fuel o vm args = Some (m, om)) /\
    ms_view_area m = vm_area vm /\ 1 <= c /\ 0 <= k /\ edge_scaled vm c k rays (ms_rays m) /\
    (Rsumf r_omega (ms_rays m) = vm_area vm \/
     (ms_rays m = rays /\ forall r, In r rays -> at_edge vm c r -> r_omega r = 0)).
Proof.
  intros Ho Ha E Hr Hl. set (l := map (ray_pair vm) rays). set (a := vm_viewangle vm * PI / 360).
  assert (L1 : map snd l = map r_omega rays) by (unfold l; rewrite map_map; auto).
  assert (L2 : map fst l = map (fun r => acos (vm_ctheta vm (r_vec r))) rays) by (unfold l; rewrite map_map; auto).
  destruct (omega_loop_terminates a (vm_area vm) l Ha) as (n & c & os & Hc & Hn & k & Hk & Hos & Hs).
  { intros p Hp. apply in_map_iff in Hp as [r [<- Hin]]. cbn. auto. }
  set (m := MS vm (o_guth o) (vm_area vm) (mk_rays (map r_vec rays) os (map r_lum rays)) (o_scale o) (o_threshold o) (o_tradius o) (o_lowlight o) [] 0).
  assert (Hlen : length os = length rays) by (rewrite Hos; unfold adjusted, l; rewrite !map_length; auto).
  exists n, m, c, k. split; [|split; [reflexivity|]; split; auto; split; auto; split].
  - intros fuel Hf. unfold construct. rewrite E. unfold set_omega. rewrite Ho. cbn [negb andb].
    replace (100 <? length rays)%nat with true by (symmetry; apply Nat.ltb_lt; auto).
    fold a. rewrite <- L2, <- L1, <- sides_1. change (Rsum (map snd l)) with (Rsumf snd l). rewrite Hn by auto. reflexivity.
  - unfold m. cbn [ms_rays]. rewrite Hos. apply adjusted_rays.
  - destruct Hs as [[Hs1 Hs2]|[Hs1 Hs2]]; unfold m; cbn [ms_rays].
    + left. rewrite mk_rays_omega_sum by (rewrite !map_length; auto). auto.
    + right. split.
      * apply (edge_scaled_none vm c). rewrite <- Hs2. rewrite Hos. apply adjusted_rays.
      * intros r Hin He. assert (Hp : In (ray_pair vm r) (filter (on_edge a c) l)).
        { apply filter_In. split; [apply in_map; auto|]. apply Rltb_true. exact He. }
        unfold edge_total in Hs1. assert (Z : forall q, In q (filter (on_edge a c) l) -> 0 <= snd q).
        { intros q Hq. apply filter_In in Hq as [Hq _]. apply in_map_iff in Hq as [r' [<- Hr']]. cbn. auto. }
        revert Hs1 Z Hp. generalize (filter (on_edge a c) l). intros q. clear. induction q as [|x q IH]; intros S Z []; rewrite Rsumf_cons in S.
        -- subst x. assert (0 <= Rsumf snd q) by (apply Rsumf_nonneg; intros y Hy; apply Z; right; auto).
           pose proof (Z _ (or_introl eq_refl)). cbn in *. lra.
        -- assert (0 <= snd x) by (apply Z; left; auto). assert (0 <= Rsumf snd q) by (apply Rsumf_nonneg; intros y Hy; apply Z; right; auto).
           apply IH; auto; [lra|intros y Hy; apply Z; right; auto].
Qed.
Lemma construct_keeps fuel o vm args rays mask om : view_rays vm args = (rays, mask, om) ->
  o_as_area o = true \/ (length rays <= 100)%nat ->
  exists m, construct fuel o vm args = Some (m, om) /\ ms_rays m = rays /\ ms_view_area m = Rsumf r_omega rays.
Proof.
  intros E H. unfold construct. rewrite E. unfold set_omega.
  replace (negb (o_as_area o) && (100 <? length rays)%nat) with false.
  - rewrite mk_rays_id. eexists. split; [reflexivity|]. auto.
  - symmetry. destruct H as [->|H]; auto. replace (100 <? length rays)%nat with false by (symmetry; apply Nat.ltb_ge; auto). apply andb_false_r.
Qed.
Lemma vm_area_nonneg d va : 0 <= vm_area (mk_view d va).
Proof.
  unfold mk_view. cbn [vm_area]. pose proof PI_pos. pose proof (COS_bound ((if Reqb va 360 then 180 else va) * PI * IZR (if Reqb va 360 then 2 else 1) / 360)).
  apply Rmult_le_pos; lra.
Qed.
