(** Lemmas about weighted_quantile (statement level) and cull_vectors. *)
From Coq Require Import Sorting.Permutation Sorting.Sorted Lra Lia.
From Verif Require Import Base M_Translate M_Mapper M_Data S_Data L_Base L_Data.
Local Open Scope R_scope.

Lemma wq_in_range argsort dw t qs :
  sorts argsort -> 0 <= t -> (exists x, included dw t x) -> Forall (fun q => 0 <= q <= 1) qs ->
  exists r, weighted_quantile argsort dw qs t = Ok r /\
    Forall2 (fun q v => exists a b, included dw t a /\ included dw t b /\ a <= v <= b) qs r.
Proof.
  intros Hs Ht Hex Hq. eexists. split; [apply wq_whole; assumption|].
  pose proof (d_len argsort dw t) as Hl. pose proof (d_pos argsort dw t Hs Hex) as Hp.
  pose proof (d_sorted argsort dw t Hs) as Hd.
  pose proof (cw_ss argsort dw t Hs Ht) as Hc. pose proof (cw_0 argsort dw t Hs Hex) as H0.
  pose proof (kept_included argsort dw t Hs) as Hin.
  set (d := map fst (kept argsort dw t)) in *. set (cw := cw_of (map snd (kept argsort dw t))) in *.
  induction Hq as [|q qs Hq _ IH]; cbn [map]; constructor; [|exact IH].
  exists (nth 0 d 0), (nth (length d - 1) d 0). split; [|split].
  - apply Hin, nth_In. lia.
  - apply Hin, nth_In. lia.
  - apply wq_range; assumption.
Qed.

Lemma wq_ends argsort dw t qs :
  sorts argsort -> 0 <= t -> (exists x, included dw t x) -> Forall (fun q => 0 <= q <= 1) qs ->
  exists r, weighted_quantile argsort dw qs t = Ok r /\
    Forall2 (fun q v => (q = 0 -> smallest (included dw t) v) /\ (q = 1 -> largest (included dw t) v)) qs r.
Proof.
  intros Hs Ht Hex Hq. eexists. split; [apply wq_whole; assumption|].
  pose proof (d_len argsort dw t) as Hl. pose proof (d_pos argsort dw t Hs Hex) as Hp.
  pose proof (d_sorted argsort dw t Hs) as Hd.
  pose proof (cw_ss argsort dw t Hs Ht) as Hc. pose proof (cw_0 argsort dw t Hs Hex) as H0.
  pose proof (kept_included argsort dw t Hs) as Hin.
  set (d := map fst (kept argsort dw t)) in *. set (cw := cw_of (map snd (kept argsort dw t))) in *.
  induction Hq as [|q qs Hq _ IH]; cbn [map]; constructor; [|exact IH].
  split; intros ->.
  - rewrite wq_0 by assumption. split; [apply Hin, nth_In; lia|].
    intros x Hx. apply Hin in Hx. apply (In_nth _ _ 0) in Hx. destruct Hx as (i & Hi & <-).
    apply ss_le_nth; auto; lia.
  - rewrite wq_1 by assumption. split; [apply Hin, nth_In; lia|].
    intros x Hx. apply Hin in Hx. apply (In_nth _ _ 0) in Hx. destruct Hx as (i & Hi & <-).
    apply ss_le_nth; auto; lia.
Qed.

Lemma wq_monotone argsort dw t q1 q2 :
  sorts argsort -> 0 <= t -> (exists x, included dw t x) ->
  0 <= q1 -> q1 <= q2 -> q2 < 1 - / 100000 - / 100000000 \/ q2 = 1 ->
  exists r1 r2, weighted_quantile argsort dw [q1; q2] t = Ok [r1; r2] /\ r1 <= r2.
Proof.
  intros Hs Ht Hex H1 H12 H2.
  assert (Forall (fun q => 0 <= q <= 1) [q1; q2]) as Hq.
  { repeat apply Forall_cons; try apply Forall_nil; destruct H2; lra. }
  do 2 eexists. split; [rewrite wq_whole by assumption; reflexivity|].
  apply wq_mono; auto using d_len, d_pos, d_sorted, cw_ss, cw_0.
Qed.

(** * equal weights *)
Lemma nth_cumsum_const acc w l i :
  (forall y, In y l -> y = w) -> (i < length l)%nat -> nth i (cumsum_from acc l) 0 = acc + (INR i + 1) * w.
Proof.
  revert acc i. induction l as [|y l IH]; intros acc i H Hi; cbn [length] in Hi; [lia|].
  cbn [cumsum_from]. assert (y = w) as -> by (apply H; now left). destruct i as [|i]; cbn [nth].
  - cbn [INR]. lra.
  - rewrite IH by (auto with datatypes || lia). rewrite S_INR. ring.
Qed.

Lemma nth_cw_const w l i :
  (forall y, In y l -> y = w) -> (i < length l)%nat -> nth i (cw_of l) 0 = INR i * w.
Proof.
  intros H Hi. unfold cw_of.
  rewrite (nth_indep _ 0 (0 - hd 0 l)) by (rewrite map_length; unfold cumsum; rewrite cumsum_from_length; exact Hi).
  rewrite (map_nth (fun c => c - hd 0 l)). unfold cumsum. rewrite (nth_cumsum_const 0 w) by assumption.
  assert (hd 0 l = w) as ->.
  { destruct l as [|y l]; cbn [length] in Hi; [lia|]. apply H. now left. }
  ring.
Qed.

Lemma wq_equal argsort dw t w qs :
  sorts argsort -> 0 <= t -> (exists x, included dw t x) ->
  (forall x v, In (x, v) dw -> t < v -> v = w) ->
  Forall (fun q => 0 <= q < 1 - / 100000 - / 100000000 \/ q = 1) qs ->
  exists l r, Permutation l (map fst (filter (fun p => Rgtb (snd p) t) dw)) /\ StronglySorted Rle l /\
    weighted_quantile argsort dw qs t = Ok r /\ Forall2 (linear_quantile l) qs r.
Proof.
  intros Hs Ht Hex Hw Hq. exists (map fst (kept argsort dw t)). eexists. split; [|split; [|split]].
  - apply Permutation_map. unfold kept. clear - Hs.
    destruct (Hs dw) as [Hp _]. induction Hp; cbn [filter]; auto.
    + destruct (Rgtb (snd x) t); auto.
    + destruct (Rgtb (snd x) t), (Rgtb (snd y) t); auto. apply perm_swap.
    + eapply Permutation_trans; eassumption.
  - now apply d_sorted.
  - apply wq_whole; auto. eapply Forall_impl; [|exact Hq]. cbn beta. intros a [?| ->]; lra.
  - pose proof (d_len argsort dw t) as Hl. pose proof (d_pos argsort dw t Hs Hex) as Hp.
    pose proof (d_sorted argsort dw t Hs) as Hd.
    pose proof (cw_ss argsort dw t Hs Ht) as Hc. pose proof (cw_0 argsort dw t Hs Hex) as H0.
    assert (forall i, (i < length (map fst (kept argsort dw t)))%nat ->
              nth i (cw_of (map snd (kept argsort dw t))) 0 = INR i * w) as Hcw.
    { intros i Hi. rewrite map_length in Hi. apply nth_cw_const; [|now rewrite map_length].
      intros y Hy. apply in_map_iff in Hy. destruct Hy as (p & <- & Hy).
      apply (kept_in argsort dw t Hs) in Hy. destruct Hy as [Hy Hlt].
      apply (Hw (fst p)); [now rewrite <- surjective_pairing|exact Hlt]. }
    assert (0 < w) as Hwp.
    { destruct Hex as (x & v & Hv & Hlt). rewrite <- (Hw x v Hv Hlt). lra. }
    set (d := map fst (kept argsort dw t)) in *. set (cw := cw_of (map snd (kept argsort dw t))) in *.
    clearbody d cw. clear - Hq Hl Hp Hd Hc H0 Hcw Hwp.
    assert (last cw 0 = (INR (length d) - 1) * w) as Hlast.
    { rewrite last_nth, <- Hl, Hcw by lia. rewrite minus_INR by lia. cbn [INR]. ring. }
    induction Hq as [|q qs Hq _ IH]; cbn [map]; constructor; [|exact IH].
    destruct Hq as [Hq| ->].
    + assert (close_to_one q = false) as E by (apply close_lt'; lra).
      destruct (wq_cases d cw Hl Hp Hc H0 q ltac:(lra))
        as [(E' & _)|[(_ & H1 & Hi & ->)|(_ & Hi & s & Hs & Ds & ->)]]; [congruence| |].
      * exists 0%nat, 0. split; [lia|]. split; [lra|]. split; [|ring].
        rewrite Hl, H1. cbn [INR]. ring.
      * exists (wli cw q), s. split; [lia|]. split; [lra|]. split; [|ring].
        rewrite Ds, Hlast, !Hcw by lia. rewrite plus_INR. cbn [INR]. field. lra.
    + exists (length d - 1)%nat, 0. split; [lia|]. split; [lra|]. split.
      * rewrite minus_INR by lia. cbn [INR]. ring.
      * rewrite wq_1 by assumption. ring.
Qed.

(** * a sort exists *)
Fixpoint insert_key (p : R * R) (l : list (R * R)) : list (R * R) :=
  match l with
  | [] => [p]
  | a :: r => if Rleb (fst p) (fst a) then p :: l else a :: insert_key p r
  end.
Definition sort_key (l : list (R * R)) : list (R * R) := fold_right insert_key [] l.

Lemma insert_key_perm p l : Permutation (insert_key p l) (p :: l).
Proof.
  induction l as [|a l IH]; cbn [insert_key]; [auto|]. destruct (Rleb (fst p) (fst a)); [auto|].
  eapply Permutation_trans; [apply perm_skip, IH|apply perm_swap].
Qed.

Lemma insert_key_sorted p l :
  StronglySorted (fun a b => fst a <= fst b) l -> StronglySorted (fun a b => fst a <= fst b) (insert_key p l).
Proof.
  induction 1 as [|a l H IH Ha]; cbn [insert_key]; [repeat constructor|].
  destruct (Rleb (fst p) (fst a)) eqn:E.
  - apply Rleb_true in E. constructor; [constructor; assumption|]. constructor; [exact E|].
    eapply Forall_impl; [|exact Ha]. cbn beta. intros. lra.
  - constructor; [exact IH|]. rewrite Forall_forall in *. intros x Hx.
    apply (Permutation_in x (insert_key_perm p l)) in Hx. destruct Hx as [<-|Hx]; [|now apply Ha].
    unfold Rleb in E. destruct (Rle_dec _ _) in E; [discriminate|lra].
Qed.

Lemma sort_key_sorts : sorts sort_key.
Proof.
  intros l. induction l as [|p l [IH1 IH2]]; cbn [sort_key fold_right]; [split; constructor|].
  split; [|now apply insert_key_sorted].
  eapply Permutation_trans; [apply insert_key_perm|now apply perm_skip].
Qed.

Lemma sort_key_id l : StronglySorted (fun a b => fst a <= fst b) l -> sort_key l = l.
Proof.
  induction 1 as [|a l H IH Ha]; [reflexivity|]. unfold sort_key in *. cbn [fold_right]. rewrite IH.
  destruct l as [|b l]; [reflexivity|]. cbn [insert_key]. inversion Ha; subst.
  assert (Rleb (fst a) (fst b) = true) as -> by now apply Rleb_true. reflexivity.
Qed.

Lemma sort_key_rev_sorts : sorts (fun l => sort_key (rev l)).
Proof.
  intros l. destruct (sort_key_sorts (rev l)) as [A B]. split; [|exact B].
  eapply Permutation_trans; [exact A|]. apply Permutation_sym, Permutation_rev.
Qed.

Lemma sort_two argsort a b :
  sorts argsort -> fst a < fst b -> argsort [a; b] = [a; b].
Proof.
  intros Hs Hab. destruct (Hs [a; b]) as [Hp Hss].
  apply Permutation_sym, Permutation_length_2_inv in Hp. destruct Hp as [E|E]; [exact E|].
  rewrite E in Hss. inversion Hss as [|? ? _ Hf]; subst. inversion Hf; subst. lra.
Qed.

Ltac rcmp :=
  unfold Rgtb, Rltb, Rleb in *;
  repeat match goal with
         | |- context [Rlt_dec ?a ?b] => destruct (Rlt_dec a b); try lra
         | |- context [Rle_dec ?a ?b] => destruct (Rle_dec a b); try lra
         end.

(** one q, two data *)
Lemma wq_two argsort x y u v q :
  sorts argsort -> x < y -> 0 < u -> 0 < v -> 0 <= q <= 1 ->
  weighted_quantile argsort [(x, u); (y, v)] [q] 0 =
  Ok [if close_to_one q then (if Reqb q 1 then y else x) else x + (y - x) * q].
Proof.
  intros Hs Hxy Hu Hv Hq.
  assert (exists z, included [(x, u); (y, v)] 0 z) as Hex.
  { exists x, u. split; [now left|lra]. }
  rewrite wq_whole; auto; [|lra]. unfold kept. rewrite sort_two by assumption.
  cbn [filter]. unfold Rgtb, Rltb. cbn [snd].
  destruct (Rlt_dec 0 u); [|lra]. destruct (Rlt_dec 0 v); [|lra].
  unfold cw_of, cumsum. cbn [map cumsum_from fst snd hd].
  unfold wq. cbn [last length filter].
  replace (0 + u - u) with 0 by ring. replace (0 + u + v - u) with v by ring.
  assert (0 <= q * v) by (apply Rmult_le_pos; lra).
  unfold Rleb. destruct (Rle_dec 0 (q * v)); [|lra].
  destruct (Req_EM_T q 1) as [->|Hne].
  - destruct (Rle_dec v (1 * v)); [|lra]. rewrite close_one.
    unfold Reqb. destruct (Req_EM_T 1 1); [reflexivity|lra].
  - destruct (Rle_dec v (q * v)) as [C|]; [nra|]. unfold Reqb. destruct (Req_EM_T q 1); [lra|].
    cbn [length Nat.sub nth Nat.leb Nat.add]. destruct (close_to_one q); [reflexivity|].
    do 2 f_equal. field. lra.
Qed.

(** * dropping the first weight *)
Lemma cw_first_ignored u v l : cw_of (u :: l) = cw_of (v :: l).
Proof.
  unfold cw_of, cumsum. cbn [cumsum_from map hd].
  assert (forall a b, map (fun c => c - a) (cumsum_from (0 + a) l) = map (fun c => c - b) (cumsum_from (0 + b) l)) as H.
  { intros a b. assert (forall k, map (fun c => c - a) (cumsum_from (a + k) l) = map (fun c => c - b) (cumsum_from (b + k) l)) as H.
    { induction l as [|y l IH]; intros k; cbn [cumsum_from map]; [reflexivity|]. f_equal; [ring|].
      replace (a + k + y) with (a + (k + y)) by ring. replace (b + k + y) with (b + (k + y)) by ring. apply IH. }
    specialize (H 0). rewrite !Rplus_0_r in H. now rewrite !Rplus_0_l. }
  f_equal; [ring|apply H].
Qed.

Lemma wq_first_ignored argsort x u v l qs :
  (forall l, StronglySorted (fun a b => fst a <= fst b) l -> argsort l = l) ->
  0 < u -> 0 < v -> StronglySorted (fun a b => fst a <= fst b) ((x, u) :: l) ->
  weighted_quantile argsort ((x, u) :: l) qs 0 = weighted_quantile argsort ((x, v) :: l) qs 0.
Proof.
  intros Hid Hu Hv Hs. unfold weighted_quantile. rewrite (Hid _ Hs), Hid.
  - assert (forall z, 0 < z -> filter (fun p => Rgtb (snd p) 0) ((x, z) :: l) =
                     (x, z) :: filter (fun p => Rgtb (snd p) 0) l) as Hf.
    { intros z Hz. cbn [filter]. unfold Rgtb at 1, Rltb at 1. cbn [snd]. destruct (Rlt_dec 0 z); [reflexivity|lra]. }
    rewrite (Hf u Hu), (Hf v Hv). cbn [map fst snd].
    match goal with |- context [cumsum (u :: ?w)] =>
      change (map (fun c => c - u) (cumsum (u :: w))) with (cw_of (u :: w));
      change (map (fun c => c - v) (cumsum (v :: w))) with (cw_of (v :: w));
      rewrite (cw_first_ignored u v w)
    end. reflexivity.
  - inversion Hs as [|? ? A B]; subst. constructor; [exact A|].
    eapply Forall_impl; [|exact B]. cbn [fst]. auto.
Qed.

(** * cull_vectors *)
Lemma mem_in q i : mem q i = true <-> In i q.
Proof.
  unfold mem. rewrite existsb_exists. split.
  - intros (x & Hx & E). apply Nat.eqb_eq in E. now subst.
  - intros H. exists i. split; [exact H|apply Nat.eqb_refl].
Qed.

Lemma cull_run_S p m : cull_run p (S m) = cull_step p (cull_run p m) m.
Proof. unfold cull_run. rewrite seq_S, fold_left_app. reflexivity. Qed.

Lemma cull_flt_flagged p m i : fst (cull_run p m) i = negb (snd (cull_run p m) i).
Proof.
  induction m as [|m IH]; [reflexivity|]. rewrite cull_run_S. unfold cull_step.
  destruct (cull_run p m) as [flt fl]. cbn [fst snd] in *.
  destruct (negb (fl m) && (1 <? length (p m))%nat); cbn [fst snd]; [|exact IH].
  destruct (mem _ i); [reflexivity|exact IH].
Qed.

Section Cull.
Variables (n : nat) (close : nat -> nat -> Prop) (p : nat -> list nat).
Hypothesis Hp : neighbours n close p.
Hypothesis Hrefl : forall i, (i < n)%nat -> close i i.
Hypothesis Hsym : forall i j, close i j -> close j i.
Hypothesis Hord : forall j, (j < n)%nat -> StronglySorted lt (p j).

Let fl m := snd (cull_run p m).

Lemma cull_inv m : (m <= n)%nat -> forall k, (k < n)%nat ->
  (fl m k = true <-> exists i, (i < m)%nat /\ (i < k)%nat /\ close i k /\ fl m i = false).
Proof.
  induction m as [|m IH]; intros Hm k Hk.
  { split; [discriminate|]. intros (i & Hi & _). lia. }
  specialize (IH ltac:(lia)). unfold fl in *. rewrite cull_run_S. unfold cull_step.
  destruct (cull_run p m) as [flt g] eqn:Er. cbn [snd] in *.
  destruct (Hp m ltac:(lia)) as [Hnd Hin].
  destruct (g m) eqn:Egm; cbn [negb andb].
  - (* already culled *)
    cbn [snd]. rewrite (IH k Hk). split.
    + intros (i & Hi & H). exists i. split; [lia|exact H].
    + intros (i & Hi & Hik & Hc & Hg). exists i. split; [|auto].
      destruct (Nat.eq_dec i m) as [->|]; [congruence|lia].
  - assert (In m (p m)) as Hself by (apply Hin; auto with arith).
    destruct (1 <? length (p m))%nat eqn:El; cbn [snd].
    + (* m is kept and culls its neighbours *)
      set (q := filter (fun i => negb (Nat.eqb i m)) (tl (p m))).
      assert (forall i, In i q -> (i < n)%nat /\ close i m /\ i <> m) as Hq.
      { intros i Hi. apply filter_In in Hi. destruct Hi as [Hi Hne].
        apply negb_true_iff, Nat.eqb_neq in Hne.
        assert (In i (p m)) as Hi' by (destruct (p m); [contradiction|now right]).
        apply Hin in Hi'. tauto. }
      assert (forall i, (m < i)%nat -> (i < n)%nat -> close i m -> In i q) as Hq2.
      { intros i Hmi Hi Hc. apply filter_In. split.
        - assert (In i (p m)) as Hi' by (apply Hin; auto).
          specialize (Hord m ltac:(lia)). destruct (p m) as [|a l]; [contradiction|]. cbn [tl].
          destruct Hi' as [->|Hi']; [|exact Hi']. exfalso.
          destruct Hself as [->|Hself]; [lia|].
          inversion Hord as [|? ? _ Hf]; subst. rewrite Forall_forall in Hf. apply Hf in Hself. lia.
        - apply negb_true_iff, Nat.eqb_neq. lia. }
      assert (forall i, (i < n)%nat -> (i <= m)%nat -> mem q i || g i = g i) as Hlow.
      { intros i Hi Him. destruct (mem q i) eqn:Em; [|reflexivity]. cbn [orb]. symmetry.
        apply mem_in, Hq in Em. destruct Em as (_ & Hc & Hne).
        destruct (g i) eqn:Eg; [reflexivity|]. exfalso.
        assert (g m = true); [|congruence]. apply IH; [lia|]. exists i. repeat split; auto; lia. }
      split.
      * intros H. apply orb_true_iff in H. destruct H as [H|H].
        -- apply mem_in in H. destruct (Hq k H) as (_ & Hc & Hne).
           destruct (le_lt_dec k m) as [Hle|Hlt].
           ++ assert (g k = true) as Hgk.
              { rewrite <- (Hlow k Hk Hle). apply orb_true_iff. left. now apply mem_in. }
              apply IH in Hgk; [|exact Hk]. destruct Hgk as (i & Hi & Hik & Hci & Hg).
              exists i. repeat split; auto. rewrite Hlow; auto; lia.
           ++ exists m. repeat split; auto. rewrite Hlow; auto.
        -- apply IH in H; [|exact Hk]. destruct H as (i & Hi & Hik & Hci & Hg).
           exists i. repeat split; auto. rewrite Hlow; auto; lia.
      * intros (i & Hi & Hik & Hc & Hg). apply orb_true_iff. rewrite Hlow in Hg by lia.
        destruct (Nat.eq_dec i m) as [->|Hne].
        -- left. apply mem_in, Hq2; auto.
        -- right. apply IH; [exact Hk|]. exists i. repeat split; auto. lia.
    + (* no neighbours *)
      apply Nat.ltb_ge in El. rewrite (IH k Hk). split.
      * intros (i & Hi & H). exists i. split; [lia|exact H].
      * intros (i & Hi & Hik & Hc & Hg). exists i. split; [|auto].
        destruct (Nat.eq_dec i m) as [->|]; [|lia]. exfalso.
        assert (In k (p m)) as Hkm by (apply Hin; auto).
        destruct (p m) as [|a [|b l]]; cbn [length] in El; [contradiction| |lia].
        destruct Hself as [->|[]]. destruct Hkm as [->|[]]. lia.
Qed.

Lemma cull_nth k : (k < n)%nat -> nth k (cull_vectors p n) false = negb (fl n k).
Proof.
  intros Hk. unfold cull_vectors.
  rewrite (nth_indep _ false (fst (cull_run p n) 0%nat)) by (rewrite map_length, seq_length; exact Hk).
  rewrite (map_nth (fst (cull_run p n))), seq_nth by exact Hk. apply cull_flt_flagged.
Qed.

Lemma cull_greedy :
  let mask := cull_vectors p n in
  length mask = n /\
  (forall i k, (i < k)%nat -> (k < n)%nat -> nth i mask false = true -> nth k mask false = true -> ~ close i k) /\
  (forall k, (k < n)%nat -> nth k mask false = false ->
     exists i, (i < k)%nat /\ nth i mask false = true /\ close i k) /\
  ((0 < n)%nat -> nth 0 mask false = true).
Proof.
  cbv zeta. split; [|split; [|split]].
  - unfold cull_vectors. now rewrite map_length, seq_length.
  - intros i k Hik Hk. rewrite !cull_nth by lia. intros Hi Hkk Hc.
    apply negb_true_iff in Hi, Hkk.
    assert (fl n k = true); [|congruence]. apply cull_inv; auto. exists i. repeat split; auto. lia.
  - intros k Hk. rewrite cull_nth by exact Hk. intros H. apply negb_false_iff in H.
    apply cull_inv in H; auto. destruct H as (i & Hi & Hik & Hc & Hg).
    exists i. split; [exact Hik|]. split; [|exact Hc]. rewrite cull_nth by lia. now apply negb_true_iff.
  - intros Hn. rewrite cull_nth by exact Hn. apply negb_true_iff.
    destruct (fl n 0) eqn:E; [|reflexivity]. apply cull_inv in E; auto.
    destruct E as (i & _ & Hi & _). lia.
Qed.
End Cull.
