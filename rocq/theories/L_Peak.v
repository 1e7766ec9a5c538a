(** Lemmas about peak normalisation. *)
From Coq Require Import Sorting.Permutation Sorting.Sorted Lra Lia.
From Verif Require Import Base M_Translate M_Mapper M_Io M_Peak S_Peak L_Base L_Metric4.
Local Open Scope R_scope.

Lemma lum_nth w r : lum w r = Rsumf (fun c => nth c w 0 * chan c r) (seq 0 (length w)).
Proof. unfold lum. apply rgb2rad_nth. Qed.

Lemma lum_mk w v o l : lum w (Pix v o l) = rgb2rad w l.
Proof. reflexivity. Qed.
Lemma chan_mk c v o l : chan c (Pix v o l) = nth c l 0.
Proof. reflexivity. Qed.

(** * argmax *)
Lemma find_first_bound {A} (f : A -> bool) l i : (find_first f l i = 0 \/ i <= find_first f l i < i + length l)%nat.
Proof.
  revert i. induction l as [|x l IH]; intros i; cbn [find_first length]; [now left|].
  destruct (f x); [right; lia|]. destruct (IH (S i)); [now left|right; lia].
Qed.

Lemma argmax_bound {A} (f : A -> bool) l : (0 < length l)%nat -> (argmax f l < length l)%nat.
Proof. intros H. unfold argmax. destruct (find_first_bound f l 0); lia. Qed.

Lemma find_first_true {A} (f : A -> bool) l i d : existsb f l = true ->
  (i <= find_first f l i)%nat /\ f (nth (find_first f l i - i) l d) = true /\
  forall k, (k < find_first f l i - i)%nat -> f (nth k l d) = false.
Proof.
  revert i. induction l as [|x l IH]; intros i H; cbn [existsb] in H; [discriminate|]. cbn [find_first].
  destruct (f x) eqn:E.
  - split; [lia|]. rewrite Nat.sub_diag. split; [exact E|]. intros. lia.
  - cbn [orb] in H. destruct (IH (S i) H) as (H1 & H2 & H3). split; [lia|].
    replace (find_first f l (S i) - i)%nat with (S (find_first f l (S i) - S i)) by lia.
    cbn [nth]. split; [exact H2|]. intros [|k] Hk; cbn [nth]; [exact E|]. apply H3. lia.
Qed.

(** * running sums *)
Lemma running_length f acc l : length (running f acc l) = length l.
Proof. revert acc. induction l as [|r l IH]; intros acc; cbn [running length]; auto. Qed.

Lemma running_nth f acc l k : (k < length l)%nat ->
  nth k (running f acc l) 0 = acc + Rsumf (fun r => p_o r * f r) (firstn (S k) l).
Proof.
  revert acc k. induction l as [|r l IH]; intros acc k Hk; cbn [length] in Hk; [lia|].
  cbn [running]. destruct k as [|k]; cbn [nth].
  - cbn [firstn]. unfold Rsumf. cbn. lra.
  - rewrite IH by lia. cbn [firstn]. rewrite Rsumf_cons. cbn [firstn]. lra.
Qed.

Lemma last_nth (l : list R) : last l 0 = nth (length l - 1) l 0.
Proof.
  induction l as [|a l IH]; [reflexivity|]. destruct l as [|b l]; [reflexivity|].
  change (last (a :: b :: l) 0) with (last (b :: l) 0). rewrite IH.
  cbn [length]. replace (S (S (length l)) - 1)%nat with (S (S (length l) - 1)) by lia. reflexivity.
Qed.

(** * linearity of the luminance *)
Lemma nth_map_seq (f : nat -> R) n c : (c < n)%nat -> nth c (map f (seq 0 n)) 0 = f c.
Proof.
  intros H. rewrite (nth_indep _ 0 (f 0%nat)) by (now rewrite map_length, seq_length).
  now rewrite map_nth, seq_nth by exact H.
Qed.

(** luminance of channel totals *)
Lemma lum_of_totals w g t :
  rgb2rad w (map (fun c => Rsumf (fun r => p_o r * chan c r) g / t) (seq 0 (length w))) =
  Rsumf (fun r => p_o r * lum w r) g / t.
Proof.
  rewrite rgb2rad_nth.
  rewrite (Rsumf_ext _ (fun c => / t * Rsumf (fun r => p_o r * (nth c w 0 * chan c r)) g)).
  - rewrite Rsumf_scal, <- (Rsumf_swap (fun r c => p_o r * (nth c w 0 * chan c r))).
    rewrite (Rsumf_ext (fun a => Rsumf (fun c => p_o a * (nth c w 0 * chan c a)) (seq 0 (length w)))
               (fun r => p_o r * lum w r)); [unfold Rdiv; ring|].
    intros r _. now rewrite Rsumf_scal, lum_nth.
  - intros c Hc. apply in_seq in Hc. rewrite nth_map_seq by lia.
    unfold Rdiv. rewrite (Rsumf_ext (fun r => p_o r * (nth c w 0 * chan c r)) (fun r => nth c w 0 * (p_o r * chan c r)))
      by (intros; ring).
    rewrite Rsumf_scal. ring.
Qed.

Lemma nth_map_div l cf c : nth c (map (fun x => x / cf) l) 0 = nth c l 0 / cf.
Proof.
  destruct (Nat.lt_ge_cases c (length l)) as [H|H].
  - rewrite (nth_indep _ 0 (0 / cf)) by (now rewrite map_length). now rewrite (map_nth (fun x => x / cf)).
  - rewrite !nth_overflow by (rewrite ?map_length; exact H). unfold Rdiv. ring.
Qed.

Lemma rgb2rad_div w l cf : rgb2rad w (map (fun x => x / cf) l) = rgb2rad w l / cf.
Proof.
  rewrite !rgb2rad_nth. rewrite (Rsumf_ext _ (fun c => / cf * (nth c w 0 * nth c l 0))).
  - rewrite Rsumf_scal. unfold Rdiv. ring.
  - intros c _. rewrite nth_map_div. unfold Rdiv. ring.
Qed.

(** * the consolidated ray *)
Lemma pos_sum (f : pix -> R) g : Forall (fun r => 0 < f r) g -> (0 < length g)%nat -> 0 < Rsumf f g.
Proof.
  intros H. induction H as [|r g Hr Hg IH]; cbn [length]; intros Hl; [lia|]. rewrite Rsumf_cons.
  destruct g as [|r' g']; [unfold Rsumf; cbn; lra|]. assert (0 < Rsumf f (r' :: g')) by (apply IH; cbn; lia). lra.
Qed.

Lemma Forall_firstn {A} (P : A -> Prop) n l : Forall P l -> Forall P (firstn n l).
Proof. intros H. revert n. induction H; intros [|n]; cbn [firstn]; constructor; auto. Qed.

Lemma weighted_dir_ok w g : Forall (fun r => 0 < p_o r * lum w r) g -> (0 < length g)%nat ->
  exists v, weighted_dir w g = Ok v /\
    v = norm (vscale (/ Rsumf (fun r => p_o r * lum w r) g)
               (fold_right (fun r a => vadd (vscale (p_o r * lum w r) (p_v r)) a) vzero g)).
Proof.
  intros H Hl. unfold weighted_dir. fold (Rsumf (fun r => p_o r * lum w r) g).
  assert (0 < Rsumf (fun r => p_o r * lum w r) g) by now apply pos_sum.
  unfold Reqb. destruct (Req_EM_T _ _) as [E|E]; [lra|]. eexists. split; reflexivity.
Qed.

Lemma merge_peak_spec blur w p first g :
  (0 < length g)%nat -> length (p_l first) = length w ->
  a_peaka p <> 0 -> lum w first <> 0 -> (forall a l, 0 < blur a l) ->
  Forall (fun r => 0 < p_o r * lum w r) g ->
  exists peak stop, merge_peak blur w p first g = Ok (peak, stop) /\
  (1 <= stop <= length g)%nat /\
  weighted_dir w (firstn stop g) = Ok (p_v peak) /\
  p_o peak * lum w peak = Rsumf (fun r => p_o r * lum w r) (firstn stop g) /\
  (1 < a_peakc p -> forall c, (c < length w)%nat ->
     p_o peak * chan c peak = Rsumf (fun r => p_o r * chan c r) (firstn stop g)).
Proof.
  intros Hg Hlen Ha Hl0 Hblur Hpos. unfold merge_peak. cbv zeta.
  set (esun := match mean _ with Some m => Some (m * a_peaka p * a_peakc p) | None => None end).
  set (cume := running (lum w) 0 g).
  assert (forall s, (1 <= s <= length g)%nat -> forall f, nth (s - 1) (running f 0 g) 0 =
            Rsumf (fun r => p_o r * f r) (firstn s g)) as Hrun.
  { intros s Hs f. rewrite running_nth by lia. replace (S (s - 1)) with s by lia. ring. }
  assert (forall k, (k < length g)%nat -> (1 <= (if (k =? 0)%nat then length g else k) <= length g)%nat) as Hstop.
  { intros k Hk. destruct (k =? 0)%nat eqn:E; [lia|]. apply Nat.eqb_neq in E. lia. }
  assert (forall f, (1 <= (if (argmax f cume =? 0)%nat then length g else argmax f cume) <= length g)%nat) as Hs1.
  { intros f. apply Hstop. rewrite <- (running_length (lum w) 0 g). apply argmax_bound. unfold cume.
    now rewrite running_length. }
  assert (forall f, (1 <= (if (argmax f g =? 0)%nat then length g else argmax f g) <= length g)%nat) as Hs2.
  { intros f. apply Hstop, argmax_bound, Hg. }
  assert (forall b a x, 0 < (if b : bool then blur a x else 1)) as Hcf by (intros [] a x; [apply Hblur|lra]).
  assert (forall s, (1 <= s <= length g)%nat -> exists v, weighted_dir w (firstn s g) = Ok v) as Hwd.
  { intros s Hs. destruct (weighted_dir_ok w (firstn s g)) as (v & Ev & _).
    - now apply Forall_firstn.
    - rewrite firstn_length. lia.
    - now exists v. }
  assert (forall s cf v, (1 <= s <= length g)%nat -> 0 < cf ->
    let pk := Pix v (a_peaka p * cf)
                  (map (fun x => x / cf) (map (fun c => nth (s - 1) (running (chan c) 0 g) 0 / a_peaka p)
                         (seq 0 (length (p_l first))))) in
    p_o pk * lum w pk = Rsumf (fun r => p_o r * lum w r) (firstn s g) /\
    forall c, (c < length w)%nat -> p_o pk * chan c pk = Rsumf (fun r => p_o r * chan c r) (firstn s g)) as Hfull.
  { intros s cf v Hs Hc. cbv zeta. rewrite Hlen. split.
    - rewrite lum_mk, rgb2rad_div.
      rewrite (map_ext_in _ (fun c => Rsumf (fun r => p_o r * chan c r) (firstn s g) / a_peaka p)).
      + cbn [p_o]. rewrite (lum_of_totals w). field. lra.
      + intros c _. rewrite Hrun by exact Hs. reflexivity.
    - intros c Hc'. rewrite chan_mk, nth_map_div, nth_map_seq by exact Hc'.
      rewrite Hrun by exact Hs. cbn [p_o]. field. lra. }
  destruct (above (last cume 0) esun) eqn:Eabove.
  - pose proof (Hs1 (fun x => above x esun)) as Hs.
    match goal with |- context [if (?k =? 0)%nat then ?n else ?k] => set (st := if (k =? 0)%nat then n else k) in * end.
    clearbody st. destruct (Hwd st Hs) as [v Ev]. rewrite Ev. cbn [bind].
    match goal with |- context [a_peaka p * ?cf] => set (c0 := cf) end.
    assert (0 < c0) as Hc0 by apply Hcf. destruct (Hfull st c0 v Hs Hc0) as [E1 E2].
    eexists _, st. split; [reflexivity|]. split; [exact Hs|]. split; [exact Ev|].
    split; [exact E1|]. intros _. exact E2.
  - match goal with |- context [argmax ?f g] => pose proof (Hs2 f) as Hs end.
    match goal with |- context [if (?k =? 0)%nat then ?n else ?k] => set (st := if (k =? 0)%nat then n else k) in * end.
    clearbody st. destruct (Hwd st Hs) as [v Ev].
    destruct (Rgtb (a_peakc p) 1) eqn:Ec.
    + rewrite Ev. cbn [bind].
      match goal with |- context [a_peaka p * ?cf] => set (c0 := cf) end.
      assert (0 < c0) as Hc0 by apply Hcf. destruct (Hfull st c0 v Hs Hc0) as [E1 E2].
      eexists _, st. split; [reflexivity|]. split; [exact Hs|]. split; [exact Ev|].
      split; [exact E1|]. intros _. exact E2.
    + rewrite Ev. cbn [bind]. eexists _, st. split; [reflexivity|]. split; [exact Hs|]. split; [exact Ev|]. split.
      * rewrite lum_mk, rgb2rad_div. fold (lum w first).
        cbn [p_o]. match goal with |- ?a * ?cf * _ = _ => set (c0 := cf); assert (0 < c0) as Hc0 by apply Hcf end.
        clearbody c0. unfold cume. rewrite Hrun by exact Hs. field. split; [lra|exact Hl0].
      * intros C. exfalso. unfold Rgtb, Rltb in Ec. destruct (Rlt_dec 1 (a_peakc p)); [discriminate|lra].
Qed.

(** * selection of the rays *)
Lemma Rsum_perm l l' : Permutation l l' -> Rsum l = Rsum l'.
Proof. unfold Rsum. induction 1; cbn [fold_right]; lra. Qed.
Lemma Rsumf_perm {A} (f : A -> R) l l' : Permutation l l' -> Rsumf f l = Rsumf f l'.
Proof. intros H. unfold Rsumf. now apply Rsum_perm, Permutation_map. Qed.

Lemma in_pc_true pc i : in_pc pc i = true <-> In i pc.
Proof.
  unfold in_pc. rewrite existsb_exists. split.
  - intros (x & Hx & E). apply Nat.eqb_eq in E. now subst.
  - intros H. exists i. split; [exact H|apply Nat.eqb_refl].
Qed.

Lemma filter_pc_perm pc n : NoDup pc -> (forall i, In i pc -> (i < n)%nat) ->
  Permutation (filter (in_pc pc) (seq 0 n)) pc.
Proof.
  intros Hnd Hin. apply NoDup_Permutation; [apply NoDup_filter, seq_NoDup|exact Hnd|].
  intros i. rewrite filter_In, in_pc_true, in_seq. split; [tauto|]. intros H. split; [|exact H]. apply Hin in H. lia.
Qed.

Lemma rays_as_seq (rays : list pix) : map (get rays) (seq 0 (length rays)) = rays.
Proof.
  unfold get. induction rays as [|r rays IH]; [reflexivity|]. cbn [length seq map nth]. f_equal.
  rewrite <- seq_shift, map_map. exact IH.
Qed.

(** energy of the rays split by index *)
Lemma energy_split (f : pix -> R) pc rays : NoDup pc -> (forall i, In i pc -> (i < length rays)%nat) ->
  Rsumf f rays = Rsumf (fun i => f (get rays i)) pc + Rsumf f (delete_rows pc rays).
Proof.
  intros Hnd Hin. rewrite <- (rays_as_seq rays) at 1. unfold Rsumf at 1. rewrite map_map.
  fold (Rsumf (fun i => f (get rays i)) (seq 0 (length rays))).
  rewrite <- (Rsumf_perm _ _ _ (filter_pc_perm pc (length rays) Hnd Hin)).
  unfold delete_rows. unfold Rsumf at 3. rewrite map_map.
  fold (Rsumf (fun i => f (get rays i)) (filter (fun i => negb (in_pc pc i)) (seq 0 (length rays)))).
  induction (seq 0 (length rays)) as [|i l IH]; [unfold Rsumf; cbn; ring|]. rewrite Rsumf_cons, IH. cbn [filter].
  destruct (in_pc pc i); cbn [negb]; rewrite Rsumf_cons; ring.
Qed.

Lemma zero_rows_energy (f : pix -> R) pc rays : (forall r, p_o r = 0 -> f r = 0) ->
  Rsumf f (zero_rows pc rays) = Rsumf f (delete_rows pc rays).
Proof.
  intros Hf. unfold zero_rows, delete_rows, Rsumf. rewrite !map_map. fold (get rays).
  induction (seq 0 (length rays)) as [|i l IH]; [reflexivity|]. cbn [map filter].
  change (Rsum (?a :: ?b)) with (a + Rsum b). rewrite IH.
  destruct (in_pc pc i); cbn [negb map].
  - rewrite Hf by reflexivity. lra.
  - reflexivity.
Qed.

Section Find.
Variables (order : (nat -> R) -> list nat -> list nat) (blur : R -> R -> R) (w : list R) (p : peak_args)
          (rays : list pix).
Hypothesis Hord : sorts_down order.
Hypothesis Hblur : forall a l, 0 < blur a l.
Hypothesis Hargs : args_ok p.
Hypothesis Hrays : rays_ok w p rays.

Lemma cosrad_lt_1 : cosrad p < 1.
Proof.
  destruct Hargs as (_ & _ & _ & H1 & H2). unfold cosrad. rewrite <- cos_0. apply cos_decreasing_1; lra.
Qed.

Lemma bright_in i : In i (bright w p rays) <-> (i < length rays)%nat /\ is_bright w p (get rays i).
Proof.
  unfold bright. rewrite filter_In, in_seq. unfold is_bright, lum, Rgtb, Rltb.
  destruct (Rlt_dec _ _); split; intros [A B]; split; try lia; try lra; try discriminate; reflexivity.
Qed.

Lemma get_ok i : (i < length rays)%nat ->
  dot (p_v (get rays i)) (p_v (get rays i)) = 1 /\ length (p_l (get rays i)) = length w /\
  (is_bright w p (get rays i) -> 0 < p_o (get rays i)).
Proof.
  intros Hi. unfold rays_ok in Hrays. rewrite Forall_forall in Hrays. apply Hrays. unfold get. now apply nth_In.
Qed.

(** everything about a successful search *)
Lemma find_peak_spec :
  (bright w p rays = [] /\ find_peak order blur w p rays = Ok (None, [])) \/
  exists peak pc top rest,
    find_peak order blur w p rays = Ok (Some peak, pc) /\ In top pc /\
    NoDup (pc ++ rest) /\
    (forall i, In i (pc ++ rest) <->
       (i < length rays)%nat /\ is_bright w p (get rays i) /\ within_radius p (get rays top) (get rays i)) /\
    (forall i, (i < length rays)%nat -> is_bright w p (get rays i) -> lum w (get rays i) <= lum w (get rays top)) /\
    (forall i j, In i pc -> In j rest -> lum w (get rays j) <= lum w (get rays i)) /\
    weighted_dir w (map (get rays) pc) = Ok (p_v peak) /\
    p_o peak * lum w peak = Rsumf (fun i => p_o (get rays i) * lum w (get rays i)) pc /\
    (1 < a_peakc p -> forall c, (c < length w)%nat ->
       p_o peak * chan c peak = Rsumf (fun i => p_o (get rays i) * chan c (get rays i)) pc).
Proof.
  unfold find_peak. destruct (bright w p rays) as [|b0 bs] eqn:Eb; [now left|]. right. rewrite <- Eb.
  set (key := fun i => lum w (get rays i)).
  destruct (Hord key (bright w p rays)) as [Hperm Hss].
  set (pc0 := order key (bright w p rays)) in *.
  assert (forall i, In i pc0 <-> (i < length rays)%nat /\ is_bright w p (get rays i)) as Hin0.
  { intros i. rewrite <- bright_in. split; apply Permutation_in; [exact Hperm|now apply Permutation_sym]. }
  destruct pc0 as [|top pc1] eqn:Epc0.
  { exfalso. apply Permutation_nil in Hperm. congruence. }
  cbn [hd].
  destruct (proj1 (Hin0 top) (or_introl eq_refl)) as [Htop Htb].
  destruct (get_ok top Htop) as (Htu & Htl & _).
  set (near := fun i => Rgtb (dot (p_v (get rays top)) (p_v (get rays i))) (cosrad p)).
  assert (near top = true) as Hnt.
  { unfold near. apply Rltb_true. rewrite Htu. apply cosrad_lt_1. }
  cbn [filter]. rewrite Hnt. cbn [map].
  set (pc := top :: filter near pc1).
  change (get rays top :: map (get rays) (filter near pc1)) with (map (get rays) pc).
  destruct Hargs as (Hsc & Hpt & Hpa & _).
  assert (forall i, is_bright w p (get rays i) -> 0 < lum w (get rays i)) as Hlpos.
  { intros i Hi. assert (0 <= a_peakt p / a_scale p) by (apply Rmult_le_pos; [lra|left; now apply Rinv_0_lt_compat]).
    unfold is_bright in Hi. unfold lum. lra. }
  destruct (merge_peak_spec blur w p (get rays top) (map (get rays) pc)) as (peak & stop & Em & Hstop & Hdir & He & Hch).
  { unfold pc. cbn [map length]. lia. }
  { exact Htl. }
  { apply Rgt_not_eq. exact Hpa. }
  { apply Rgt_not_eq. now apply Hlpos. }
  { exact Hblur. }
  { rewrite Forall_forall. intros r Hr. apply in_map_iff in Hr. destruct Hr as (i & <- & Hi).
    assert (In i (top :: pc1)) as Hi'.
    { destruct Hi as [<-|Hi]; [now left|]. right. apply filter_In in Hi. tauto. }
    apply Hin0 in Hi'. destruct Hi' as [Hil Hib]. destruct (get_ok i Hil) as (_ & _ & Hpo).
    apply Rmult_lt_0_compat; auto. }
  rewrite Em. cbn [bind fst snd].
  rewrite map_length in Hstop. rewrite firstn_map in He, Hch, Hdir.
  assert (forall f : pix -> R, Rsumf f (map (get rays) (firstn stop pc)) = Rsumf (fun i => f (get rays i)) (firstn stop pc)) as Hsum.
  { intros f. unfold Rsumf. now rewrite map_map. }
  rewrite (Hsum (fun r => p_o r * lum w r)) in He.
  exists peak, (firstn stop pc), top, (skipn stop pc).
  split; [reflexivity|]. split.
  { destruct stop as [|s]; [lia|]. unfold pc. cbn [firstn]. now left. }
  rewrite firstn_skipn.
  assert (pc = filter near (top :: pc1)) as Epc by (cbn [filter]; now rewrite Hnt).
  assert (NoDup (top :: pc1)) as Hnd.
  { apply (Permutation_NoDup (Permutation_sym Hperm)). unfold bright. apply NoDup_filter, seq_NoDup. }
  split; [rewrite Epc; now apply NoDup_filter|]. split; [|split; [|split; [|split; [exact Hdir|split]]]].
  - intros i. rewrite Epc, filter_In, Hin0. unfold near, within_radius, Rgtb, Rltb. fold (cosrad p).
    destruct (Rlt_dec _ _); split; intros H; repeat split; try tauto; try easy.
  - intros i Hi Hbi. assert (In i (top :: pc1)) as Hx by (apply Hin0; auto).
    destruct Hx as [->|Hx]; [apply Rle_refl|]. inversion Hss as [|? ? _ Hf]; subst. rewrite Forall_forall in Hf. now apply Hf.
  - intros i j Hi Hj.
    assert (StronglySorted (fun a b => key b <= key a) pc) as Hs2.
    { rewrite Epc. clear - Hss. induction Hss as [|a l H IH Ha]; cbn [filter]; [constructor|].
      destruct (near a); [|exact IH]. constructor; [exact IH|]. rewrite Forall_forall in *. intros x Hx.
      apply filter_In in Hx. now apply Ha. }
    clear - Hs2 Hi Hj. revert stop Hi Hj. induction Hs2 as [|a l H IH Ha]; intros [|s] Hi Hj; cbn [firstn skipn] in *;
      try contradiction.
    destruct Hi as [->|Hi]; [|now apply (IH s)].
    rewrite Forall_forall in Ha. apply Ha. rewrite <- (firstn_skipn s l). apply in_or_app. now right.
  - exact He.
  - intros H c Hc. rewrite (Hch H c Hc). apply (Hsum (fun r => p_o r * chan c r)).
Qed.

Lemma pc_bounds pc rest top : NoDup (pc ++ rest) ->
  (forall i, In i (pc ++ rest) <->
       (i < length rays)%nat /\ is_bright w p (get rays i) /\ within_radius p (get rays top) (get rays i)) ->
  NoDup pc /\ forall i, In i pc -> (i < length rays)%nat.
Proof.
  intros Hnd Hin. split.
  - clear - Hnd. induction pc as [|a pc IH]; [constructor|]. cbn [app] in Hnd. inversion Hnd; subst.
    constructor; [|now apply IH]. intros C. apply H1, in_or_app. now left.
  - intros i Hi. apply (Hin i). apply in_or_app. now left.
Qed.

Lemma normalize_energy keepzeros : exists r, normalize_peak order blur w p keepzeros rays = Ok r /\
  energy w r = energy w rays.
Proof.
  unfold normalize_peak.
  destruct find_peak_spec as [(_ & ->)|(peak & pc & top & rest & -> & Htop & Hnd & Hin & _ & _ & _ & He & _)].
  { exists rays. split; reflexivity. }
  cbn [bind]. destruct pc as [|i0 pc']; [contradiction|].
  eexists. split; [reflexivity|]. set (pc := i0 :: pc') in *.
  destruct (pc_bounds pc rest top Hnd Hin) as [Hnd' Hb].
  change (energy w ?l) with (Rsumf (fun r => p_o r * lum w r) l).
  rewrite Rsumf_app, (energy_split (fun r => p_o r * lum w r) pc rays Hnd' Hb), <- He.
  replace (Rsumf _ [peak]) with (p_o peak * lum w peak) by (unfold Rsumf; cbn; ring).
  destruct keepzeros; [rewrite zero_rows_energy by (intros r ->; ring)|]; ring.
Qed.

Lemma normalize_channels keepzeros : 1 < a_peakc p ->
  exists r, normalize_peak order blur w p keepzeros rays = Ok r /\
    forall c, (c < length w)%nat -> channel_energy c r = channel_energy c rays.
Proof.
  intros Hpc. unfold normalize_peak.
  destruct find_peak_spec as [(_ & ->)|(peak & pc & top & rest & -> & Htop & Hnd & Hin & _ & _ & _ & _ & He)].
  { exists rays. split; reflexivity. }
  cbn [bind]. destruct pc as [|i0 pc']; [contradiction|].
  eexists. split; [reflexivity|]. intros c Hc. set (pc := i0 :: pc') in *.
  destruct (pc_bounds pc rest top Hnd Hin) as [Hnd' Hb].
  change (channel_energy c ?l) with (Rsumf (fun r => p_o r * chan c r) l).
  rewrite Rsumf_app, (energy_split (fun r => p_o r * chan c r) pc rays Hnd' Hb), <- (He Hpc c Hc).
  replace (Rsumf _ [peak]) with (p_o peak * chan c peak) by (unfold Rsumf; cbn; ring).
  destruct keepzeros; [rewrite zero_rows_energy by (intros r ->; ring)|]; ring.
Qed.

Lemma filter_seq_sorted f s n : StronglySorted lt (filter f (seq s n)).
Proof.
  revert s. induction n as [|n IH]; intros s; cbn [seq filter]; [constructor|].
  destruct (f s); [|apply IH]. constructor; [apply IH|]. rewrite Forall_forall. intros x Hx.
  apply filter_In in Hx. destruct Hx as [Hx _]. apply in_seq in Hx. lia.
Qed.

Lemma normalize_removed :
  (exists i, (i < length rays)%nat /\ is_bright w p (get rays i)) ->
  exists kept peak removed top,
    normalize_peak order blur w p false rays = Ok (kept ++ [peak]) /\
    without removed rays kept /\ In top removed /\ NoDup removed /\
    (forall i, (i < length rays)%nat -> lum w (get rays i) <= lum w (get rays top)) /\
    (forall i, In i removed ->
       (i < length rays)%nat /\ is_bright w p (get rays i) /\ within_radius p (get rays top) (get rays i)) /\
    (forall i j, In i removed -> (j < length rays)%nat -> ~ In j removed ->
       within_radius p (get rays top) (get rays j) -> lum w (get rays j) <= lum w (get rays i)).
Proof.
  intros (i1 & Hi1 & Hb1). unfold normalize_peak.
  destruct find_peak_spec as [(E & _)|(peak & pc & top & rest & -> & Htop & Hnd & Hin & Hmax & Hpre & _)].
  { exfalso. assert (In i1 (bright w p rays)) as C by now apply bright_in. rewrite E in C. contradiction. }
  cbn [bind]. destruct pc as [|i0 pc']; [contradiction|]. set (pc := i0 :: pc') in *.
  destruct (pc_bounds pc rest top Hnd Hin) as [Hnd' Hb].
  exists (delete_rows pc rays), peak, pc, top. split; [reflexivity|]. split; [|split; [exact Htop|split; [exact Hnd'|]]].
  - exists (filter (fun i => negb (in_pc pc i)) (seq 0 (length rays))). split; [apply filter_seq_sorted|].
    split; [|reflexivity]. intros i. rewrite filter_In, in_seq, negb_true_iff.
    split; intros [A B]; (split; [lia|]).
    + intros C. apply in_pc_true in C. congruence.
    + destruct (in_pc pc i) eqn:E; [|reflexivity]. apply in_pc_true in E. contradiction.
  - assert (forall i, ~ is_bright w p (get rays i) -> lum w (get rays i) < lum w (get rays top)) as Hdim.
    { intros i Hn. unfold is_bright in Hn. destruct (proj1 (Hin top)) as (_ & Ht & _); [apply in_or_app; now left|].
      unfold is_bright in Ht. unfold lum. lra. }
    split; [|split].
    + intros i Hi. destruct (Rlt_dec (a_peakt p / a_scale p) (rgb2rad w (p_l (get rays i)))) as [Hy|Hn].
      * now apply Hmax.
      * left. now apply Hdim.
    + intros i Hi. apply Hin. apply in_or_app. now left.
    + intros i j Hi Hj Hnj Hwr.
      destruct (Rlt_dec (a_peakt p / a_scale p) (rgb2rad w (p_l (get rays j)))) as [Hy|Hn].
      * apply Hpre; [exact Hi|]. assert (In j (pc ++ rest)) as Hx by (apply Hin; auto).
        apply in_app_or in Hx. tauto.
      * assert (In i (pc ++ rest)) as Hx by (apply in_or_app; now left).
        apply Hin in Hx. destruct Hx as (_ & Hx & _). unfold is_bright in Hx. unfold lum. lra.
Qed.

Lemma normalize_dark keepzeros :
  (forall i, (i < length rays)%nat -> ~ is_bright w p (get rays i)) ->
  normalize_peak order blur w p keepzeros rays = Ok rays.
Proof.
  intros H. unfold normalize_peak, find_peak.
  destruct (bright w p rays) as [|i l] eqn:E; [reflexivity|]. exfalso.
  assert (In i (bright w p rays)) as C by (rewrite E; now left). apply bright_in in C. now apply (H i).
Qed.
End Find.
