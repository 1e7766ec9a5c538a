(** The secondary sources of find_peak, and the counterexamples. *)
From Coq Require Import Sorting.Permutation Sorting.Sorted Lra Lia.
From Verif Require Import Base M_Translate M_Mapper M_Io M_Peak S_Peak L_Base L_Angles L_Metric4 L_Data L_Peak L_Peak2.
Local Open Scope R_scope.

Lemma filter_perm {A} (f : A -> bool) l l' : Permutation l l' -> Permutation (filter f l) (filter f l').
Proof.
  induction 1 as [|x l l' _ IH|x y l|]; cbn [filter]; try reflexivity.
  - destruct (f x); [now apply perm_skip|exact IH].
  - destruct (f x), (f y); try reflexivity. apply perm_swap.
  - etransitivity; eauto.
Qed.

Lemma filter_filter {A} (f g : A -> bool) l : filter f (filter g l) = filter (fun x => g x && f x) l.
Proof.
  induction l as [|a l IH]; [reflexivity|]. cbn [filter]. destruct (g a); cbn [andb]; [|exact IH].
  cbn [filter]. now rewrite IH.
Qed.

Lemma map_filter {A B} (h : A -> B) (f : B -> bool) l : map h (filter (fun x => f (h x)) l) = filter f (map h l).
Proof. induction l as [|a l IH]; [reflexivity|]. cbn [filter map]. destruct (f (h a)); cbn [map]; now rewrite IH. Qed.

Lemma bright_map w p rays : map (get rays) (bright w p rays) = filter (fun r => Rgtb (lum w r) (a_peakt p / a_scale p)) rays.
Proof. unfold bright. rewrite (map_filter (get rays) (fun r => Rgtb (lum w r) (a_peakt p / a_scale p))), rays_as_seq. reflexivity. Qed.

Lemma secondary_spec fuel order sortdesc w p rays :
  sorts_down order -> sorts_rays_down w sortdesc -> args_ok p -> rays_ok w p rays ->
  cos (sqrt (a_peaka p / PI) * a_peakrad p * 8) < 1 -> (length rays < fuel)%nat ->
  (exists i, (i < length rays)%nat /\ is_bright w p (get rays i)) ->
  exists top groups left strays,
    secondary fuel order sortdesc w p rays = Ok strays /\
    In top rays /\ (forall r, In r rays -> rgb2rad w (p_l r) <= rgb2rad w (p_l top)) /\
    Permutation (filter (fun r => Rltb (4 * (a_peakt p / a_scale p)) (rgb2rad w (p_l r)) &&
                                  Rltb (dot (p_v top) (p_v r)) (cos (sqrt (a_peaka p / PI) * a_peakrad p * 8))) rays)
      (concat groups ++ left) /\ (length left <= 3)%nat /\
    Forall2 (describes w (cos (sqrt (a_peaka p / PI) * a_peakrad p * 8))) groups strays.
Proof.
  intros Hord Hsort Hargs Hrays Hc Hf (i1 & Hi1 & Hb1). unfold secondary.
  destruct (bright w p rays) as [|b0 bs] eqn:Eb.
  { exfalso. assert (In i1 (bright w p rays)) as C by now apply bright_in. rewrite Eb in C. contradiction. }
  rewrite <- Eb. set (key := fun i => lum w (get rays i)).
  destruct (Hord key (bright w p rays)) as [Hperm Hss]. set (pc := order key (bright w p rays)) in *.
  assert (exists top pc1, pc = top :: pc1) as (top & pc1 & Epc).
  { destruct pc as [|t q]; [|now exists t, q]. apply Permutation_nil in Hperm. congruence. }
  set (tol2 := cos (sqrt (a_peaka p / PI) * a_peakrad p * 8)) in *.
  replace (hd dummy_pix (map (get rays) pc)) with (get rays top) by (now rewrite Epc).
  set (far := fun r => Rltb (dot (p_v (get rays top)) (p_v r)) tol2).
  set (pvol := filter far (map (get rays) pc)).
  assert (Permutation pvol (filter (fun r => Rgtb (lum w r) (a_peakt p / a_scale p) && far r) rays)) as Hpv.
  { unfold pvol. rewrite <- filter_filter, <- bright_map. now apply filter_perm, Permutation_map. }
  destruct Hargs as (Hsc & Hpt & Hpa & Hrad).
  assert (0 <= a_peakt p / a_scale p) as Ht by (apply Rmult_le_pos; [lra|left; now apply Rinv_0_lt_compat]).
  destruct (gather_spec sortdesc w (a_peakt p * 4 / a_scale p) tol2 Hsort Hc fuel pvol) as (groups & left & strays & E & Hp & Hl & HF).
  { rewrite (Permutation_length Hpv). pose proof (filter_length_bound (fun r => Rgtb (lum w r) (a_peakt p / a_scale p) && far r) rays). lia. }
  { rewrite Forall_forall. intros r Hr. apply (Permutation_in _ Hpv) in Hr. apply filter_In in Hr. destruct Hr as [Hr Hr2].
    apply andb_prop in Hr2. destruct Hr2 as [Hr2 _]. apply Rltb_true in Hr2.
    unfold rays_ok in Hrays. rewrite Forall_forall in Hrays. destruct (Hrays r Hr) as (H1 & H2 & H3).
    split; [exact H1|]. split; [exact H2|]. now apply H3. }
  rewrite E. cbn [bind].
  assert (In top (bright w p rays)) as Htb by (apply (Permutation_in _ Hperm); rewrite Epc; now left).
  apply bright_in in Htb. destruct Htb as [Htl Htb].
  exists (get rays top), groups, left. eexists. split; [reflexivity|].
  split; [unfold get; now apply nth_In|]. split; [|split; [|split; [exact Hl|exact HF]]].
  - intros r Hr. destruct (Rlt_dec (a_peakt p / a_scale p) (rgb2rad w (p_l r))) as [Hy|Hn].
    + destruct (In_nth rays r dummy_pix Hr) as (i & Hi & Ei).
      assert (In i pc) as Hip.
      { apply (Permutation_in _ (Permutation_sym Hperm)), bright_in. split; [exact Hi|]. unfold get. rewrite Ei. exact Hy. }
      rewrite Epc in Hip, Hss. subst r. fold (get rays i). destruct Hip as [->|Hip]; [apply Rle_refl|].
      inversion Hss as [|? ? _ Hff]; subst. rewrite Forall_forall in Hff. apply (Hff i Hip).
    + unfold is_bright in Htb. lra.
  - rewrite <- Hp. etransitivity; [|apply filter_perm, Permutation_sym, Hpv].
    rewrite filter_filter. erewrite filter_ext; [reflexivity|]. intros r. cbv beta. unfold far.
    replace (a_peakt p * 4 / a_scale p) with (4 * (a_peakt p / a_scale p)) by (field; lra).
    unfold Rgtb, lum. fold tol2. unfold Rltb.
    repeat destruct (Rlt_dec _ _); cbn [andb]; try reflexivity; lra.
Qed.

Lemma secondary_dark fuel order sortdesc w p rays :
  (forall i, (i < length rays)%nat -> ~ is_bright w p (get rays i)) ->
  secondary fuel order sortdesc w p rays = Ok [].
Proof.
  intros H. unfold secondary. destruct (bright w p rays) as [|i l] eqn:E; [reflexivity|]. exfalso.
  assert (In i (bright w p rays)) as C by (rewrite E; now left). apply bright_in in C. now apply (H i).
Qed.

(** * Counterexamples *)




Lemma rad1 : sqrt (PI / PI) * 1 = 1.
Proof. replace (PI / PI) with 1 by (field; apply PI_neq0). rewrite sqrt_1. ring. Qed.

Lemma args1_ok : args_ok args1.
Proof.
  unfold args_ok, args1. cbn [a_scale a_peaka a_peakt a_peakrad]. rewrite rad1. pose proof PI_RGT_0. pose proof PI2_1.
  repeat split; lra.
Qed.

Lemma cosrad1 : cosrad args1 < 1.
Proof. apply cosrad_lt_1, args1_ok. Qed.

Lemma dot_up : dot up up = 1.
Proof. unfold dot, up. cbn. ring. Qed.

(** the only ordering of two rays *)
Lemma order_two order key : sorts_down order -> key 0%nat < key 1%nat -> order key [0;1]%nat = [1;0]%nat.
Proof.
  intros H Hk. destruct (H key [0;1]%nat) as [Hp Hs].
  apply Permutation_sym, Permutation_length_2_inv in Hp. destruct Hp as [E|E]; [|exact E].
  rewrite E in Hs. inversion Hs as [|? ? _ Hf]; subst. inversion Hf; subst. lra.
Qed.
Lemma order_two' order key : sorts_down order -> key 1%nat < key 0%nat -> order key [0;1]%nat = [0;1]%nat.
Proof.
  intros H Hk. destruct (H key [0;1]%nat) as [Hp Hs].
  apply Permutation_sym, Permutation_length_2_inv in Hp. destruct Hp as [E|E]; [exact E|].
  rewrite E in Hs. inversion Hs as [|? ? _ Hf]; subst. inversion Hf; subst. lra.
Qed.

Ltac cmp := unfold Rgtb, Rleb, Rltb; repeat match goal with
  | |- context [Rlt_dec ?a ?b] => destruct (Rlt_dec a b); [try (exfalso; lra)|try (exfalso; lra)]
  | |- context [Rle_dec ?a ?b] => destruct (Rle_dec a b); [try (exfalso; lra)|try (exfalso; lra)] end.

(** colour: the red ray is absorbed by the green one and its energy becomes green *)


Lemma lum_red : lum vl3 (Pix up 1 [10; 0; 0]) = 2.65.
Proof. unfold lum, rgb2rad, vl3, Rsum. cbn. lra. Qed.
Lemma lum_green : lum vl3 (Pix up 1 [0; 8; 0]) = 5.36.
Proof. unfold lum, rgb2rad, vl3, Rsum. cbn. lra. Qed.

Lemma red_green_ok : rays_ok vl3 args1 red_green.
Proof. unfold rays_ok, red_green. repeat apply Forall_cons; try apply Forall_nil; cbn [p_v p_o p_l]; repeat split; try apply dot_up; lra. Qed.

Lemma red_green_result order blur : sorts_down order -> exists peak,
  normalize_peak order blur vl3 args1 false red_green = Ok [peak] /\ p_l peak = [0 / 1; 8 / 1; 0 / 1].
Proof.
  intros Hord. unfold normalize_peak, find_peak.
  assert (bright vl3 args1 red_green = [0;1]%nat) as Eb.
  { unfold bright, red_green, get. cbn [length seq filter nth]. rewrite lum_red, lum_green.
    unfold args1. cbn [a_peakt a_scale]. cmp; reflexivity. }
  rewrite Eb. rewrite (order_two order) by (try exact Hord; unfold get, red_green; cbn [nth]; rewrite lum_red, lum_green; lra).
  cbn [hd filter]. unfold get, red_green. cbn [nth p_v map]. rewrite dot_up.
  replace (Rgtb 1 (cosrad args1)) with true by (symmetry; apply Rltb_true, cosrad1).
  cbn [map nth]. unfold merge_peak. cbv zeta. cbn [filter map]. rewrite lum_red, lum_green.
  unfold args1. cbn [a_blurtol a_peaka a_peakc a_peakr a_blursun].
  replace (Rleb (5.36 * 0.75) 5.36) with true by (symmetry; apply Rleb_true; lra).
  replace (Rleb (5.36 * 0.75) 2.65) with false by (unfold Rleb; destruct (Rle_dec _ _); [lra|reflexivity]).
  cbn [map mean length]. cbn [running last p_o]. rewrite lum_red, lum_green.
  unfold above at 1.
  replace (Rgtb _ _) with false.
  2:{ unfold Rgtb, Rltb. destruct (Rlt_dec _ _) as [C|C]; [|reflexivity]. exfalso. cbn in C. pose proof PI2_1. unfold PI2 in *. nra. }
  unfold argmax. cbn [find_first]. rewrite lum_red, lum_green.
  replace (Rltb 5.36 (5.36 / 4)) with false by (unfold Rltb; destruct (Rlt_dec _ _); [lra|reflexivity]).
  replace (Rltb 2.65 (5.36 / 4)) with false by (unfold Rltb; destruct (Rlt_dec _ _); [lra|reflexivity]).
  cbn [Nat.eqb].
  replace (Rgtb 1 1) with false by (unfold Rgtb, Rltb; destruct (Rlt_dec _ _); [lra|reflexivity]).
  cbn [firstn]. unfold weighted_dir. cbn [map p_o]. rewrite lum_red, lum_green.
  unfold Reqb. destruct (Req_EM_T _ _) as [C|_]; [exfalso; unfold Rsum in C; cbn in C; lra|].
  cbn [bind fst snd firstn]. eexists. split; [reflexivity|]. reflexivity.
Qed.

Lemma channels_counterexample order blur : sorts_down order ->
  args_ok args1 /\ rays_ok vl3 args1 red_green /\
  exists r, normalize_peak order blur vl3 args1 false red_green = Ok r /\
    channel_energy 0 red_green = 10 /\ channel_energy 0 r = 0.
Proof.
  intros Hord. split; [apply args1_ok|]. split; [apply red_green_ok|].
  destruct (red_green_result order blur Hord) as (peak & E & El). exists [peak]. split; [exact E|].
  unfold channel_energy, red_green, Rsum. cbn [map fold_right p_o p_l nth]. rewrite El. cbn [nth]. split; field.
Qed.

(** a pixel larger than the sun: the consolidated source takes the energy of all the rays around it *)

Lemma lum_c0 : lum [1] (Pix up 5 [10]) = 10.
Proof. unfold lum, rgb2rad, Rsum. cbn. lra. Qed.
Lemma lum_c1 : lum [1] (Pix up 100 [1]) = 1.
Proof. unfold lum, rgb2rad, Rsum. cbn. lra. Qed.
Lemma coarse_ok : rays_ok [1] args1 coarse.
Proof. unfold rays_ok, coarse. repeat apply Forall_cons; try apply Forall_nil; cbn [p_v p_o p_l]; repeat split; try apply dot_up; lra. Qed.

Lemma coarse_result order blur : sorts_down order -> exists peak,
  normalize_peak order blur [1] args1 false coarse = Ok [peak] /\ lum [1] peak = 150 / PI.
Proof.
  intros Hord. unfold normalize_peak, find_peak.
  assert (bright [1] args1 coarse = [0;1]%nat) as Eb.
  { unfold bright, coarse, get. cbn [length seq filter nth]. rewrite lum_c0, lum_c1.
    unfold args1. cbn [a_peakt a_scale]. cmp; reflexivity. }
  rewrite Eb. rewrite (order_two' order) by (try exact Hord; unfold get, coarse; cbn [nth]; rewrite lum_c0, lum_c1; lra).
  cbn [hd filter]. unfold get, coarse. cbn [nth p_v map]. rewrite dot_up.
  replace (Rgtb 1 (cosrad args1)) with true by (symmetry; apply Rltb_true, cosrad1).
  cbn [map nth]. unfold merge_peak. cbv zeta. cbn [filter map]. rewrite lum_c0, lum_c1.
  unfold args1. cbn [a_blurtol a_peaka a_peakc a_peakr a_blursun].
  replace (Rleb (10 * 0.75) 10) with true by (symmetry; apply Rleb_true; lra).
  replace (Rleb (10 * 0.75) 1) with false by (unfold Rleb; destruct (Rle_dec _ _); [lra|reflexivity]).
  cbn [map mean length]. cbn [running last p_o]. rewrite lum_c0, lum_c1.
  unfold above at 1. pose proof PI_4 as HP4. pose proof PI_RGT_0 as HP0.
  replace (Rgtb (0 + 5 * 10 + 100 * 1) _) with true.
  2:{ symmetry. apply Rltb_true. unfold Rsum. cbn. lra. }
  unfold argmax. cbn [find_first].
  replace (above (0 + 5 * 10) (Some (Rsum [10] / INR 1 * PI * 1))) with true.
  2:{ symmetry. unfold above. apply Rltb_true. unfold Rsum. cbn. pose proof PI_4. lra. }
  cbn [Nat.eqb firstn]. unfold weighted_dir. cbn [map p_o]. rewrite lum_c0, lum_c1.
  unfold Reqb. destruct (Req_EM_T _ _) as [C|_]; [exfalso; unfold Rsum in C; cbn in C; lra|].
  cbn [bind fst snd firstn]. eexists. split; [reflexivity|].
  rewrite lum_mk, rgb2rad_div. unfold rgb2rad, Rsum, chan. cbn. field. lra.
Qed.

Lemma luminance_counterexample order blur : sorts_down order ->
  args_ok args1 /\ rays_ok [1] args1 coarse /\
  exists r peak, normalize_peak order blur [1] args1 false coarse = Ok r /\ In peak r /\
    forall r0, In r0 coarse -> 3 * rgb2rad [1] (p_l r0) < rgb2rad [1] (p_l peak).
Proof.
  intros Hord. split; [apply args1_ok|]. split; [apply coarse_ok|].
  destruct (coarse_result order blur Hord) as (peak & E & El). exists [peak], peak. split; [exact E|]. split; [now left|].
  intros r0 Hr0. fold (lum [1] peak). rewrite El. pose proof PI_4 as HP4. pose proof PI_RGT_0 as HP0.
  assert (30 < 150 / PI) as HB.
  { apply (Rmult_lt_reg_r PI); [exact HP0|]. unfold Rdiv. rewrite Rmult_assoc, Rinv_l by lra. lra. }
  unfold coarse in Hr0. destruct Hr0 as [<-|[<-|[]]].
  - fold (lum [1] (Pix up 5 [10])). rewrite lum_c0. lra.
  - fold (lum [1] (Pix up 100 [1])). rewrite lum_c1. lra.
Qed.

(** * The hypotheses can be met *)
Section Down.
Context {A : Type}.
Variable key : A -> R.
Fixpoint insert_down (a : A) (l : list A) : list A :=
  match l with
  | [] => [a]
  | b :: l' => if Rle_dec (key b) (key a) then a :: l else b :: insert_down a l'
  end.
Definition sort_down (l : list A) : list A := fold_right insert_down [] l.

Lemma insert_down_perm a l : Permutation (insert_down a l) (a :: l).
Proof.
  induction l as [|b l IH]; cbn [insert_down]; [reflexivity|]. destruct (Rle_dec _ _); [reflexivity|].
  rewrite IH. apply perm_swap.
Qed.

Lemma insert_down_sorted a l : StronglySorted (fun i j => key j <= key i) l ->
  StronglySorted (fun i j => key j <= key i) (insert_down a l).
Proof.
  induction 1 as [|b l H IH Hb]; cbn [insert_down]; [repeat constructor|].
  destruct (Rle_dec (key b) (key a)) as [L|L].
  - constructor; [now constructor|]. constructor; [exact L|]. rewrite Forall_forall in *. intros x Hx. specialize (Hb x Hx). lra.
  - constructor; [exact IH|]. rewrite Forall_forall in *. intros x Hx. apply (Permutation_in _ (insert_down_perm a l)) in Hx.
    destruct Hx as [<-|Hx]; [lra|now apply Hb].
Qed.

Lemma sort_down_spec l : Permutation (sort_down l) l /\ StronglySorted (fun i j => key j <= key i) (sort_down l).
Proof.
  induction l as [|a l [IH1 IH2]]; cbn [sort_down fold_right]; [split; constructor|]. split.
  - rewrite insert_down_perm. now apply perm_skip.
  - now apply insert_down_sorted.
Qed.
End Down.

Lemma sort_down_exists : exists order, sorts_down order.
Proof. exists (fun key l => sort_down key l). intros key l. apply sort_down_spec. Qed.
Lemma sort_rays_down_exists w : exists sortdesc, sorts_rays_down w sortdesc.
Proof. exists (sort_down (fun r => rgb2rad w (p_l r))). intros l. apply sort_down_spec. Qed.

Lemma red_bright : is_bright vl3 args1 (nth 0 red_green dummy_pix).
Proof. unfold is_bright, red_green, args1. cbn [nth a_peakt a_scale]. fold (lum vl3 (Pix up 1 [10; 0; 0])). rewrite lum_red. lra. Qed.

Lemma red_green_small : args_ok args1 /\ rays_ok vl3 args1 red_green /\ a_peakc args1 = 1 /\ a_blursun args1 = false /\
  0 < a_blurtol args1 <= 1 /\ forall r, In r red_green -> p_o r <= a_blurtol args1 * a_peaka args1.
Proof.
  split; [apply args1_ok|]. split; [apply red_green_ok|]. unfold args1. cbn [a_peakc a_blursun a_blurtol a_peaka].
  pose proof PI2_1. split; [reflexivity|]. split; [reflexivity|]. split; [lra|].
  intros r [<-|[<-|[]]]; cbn [p_o]; lra.
Qed.

Definition args8 : peak_args := PeakArgs 1 PI 1 4 0.75 1 (1 / 8) false.
Definition down : vec3 := V3 0 0 (-1).
Definition far_rays : list pix := [Pix up 1 [10]; Pix down 1 [5]; Pix down 2 [6]; Pix down 1 [7]; Pix down 1 [8]].

Lemma far_example : args_ok args8 /\ rays_ok [1] args8 far_rays /\
  cos (sqrt (a_peaka args8 / PI) * a_peakrad args8 * 8) < 1 /\
  (exists i, (i < length far_rays)%nat /\ is_bright [1] args8 (nth i far_rays dummy_pix)) /\
  length (filter (fun r => Rltb (4 * (a_peakt args8 / a_scale args8)) (rgb2rad [1] (p_l r)) &&
      Rltb (dot (p_v (nth 0 far_rays dummy_pix)) (p_v r)) (cos (sqrt (a_peaka args8 / PI) * a_peakrad args8 * 8)))
      far_rays) = 4%nat.
Proof.
  unfold args8, args_ok, rays_ok, is_bright. cbn [a_scale a_peaka a_peakt a_peakrad].
  replace (sqrt (PI / PI) * (1 / 8)) with (1 / 8).
  2:{ replace (PI / PI) with 1 by (field; apply PI_neq0). rewrite sqrt_1. ring. }
  replace (1 / 8 * 8) with 1 by field. pose proof PI2_1 as HP. pose proof PI_RGT_0 as HP0.
  assert (cos 1 < 1) as Hc1 by (rewrite <- cos_0 at 2; apply cos_decreasing_1; lra).
  assert (0 < cos 1) as Hc0 by (apply cos_gt_0; lra).
  assert (dot up down = -1) as Hud by (unfold dot, up, down; cbn; ring).
  assert (dot down down = 1) as Hdd by (unfold dot, down; cbn; ring).
  split; [repeat split; lra|]. split.
  { unfold far_rays. repeat apply Forall_cons; try apply Forall_nil; cbn [p_v p_o p_l]; repeat split;
      first [apply dot_up|exact Hdd|lra]. }
  split; [exact Hc1|]. split.
  { exists 0%nat. split; [cbn; repeat constructor|]. unfold far_rays, rgb2rad, Rsum. cbn. lra. }
  unfold far_rays. cbn [nth p_v filter p_l]. rewrite dot_up, Hud.
  replace (Rltb 1 (cos 1)) with false by (unfold Rltb; destruct (Rlt_dec _ _); [lra|reflexivity]).
  replace (Rltb (-1) (cos 1)) with true by (symmetry; apply Rltb_true; lra).
  rewrite Bool.andb_false_r, !Bool.andb_true_r.
  repeat match goal with |- context [Rltb ?a (rgb2rad [1] [?b])] =>
    replace (Rltb a (rgb2rad [1] [b])) with true by (symmetry; apply Rltb_true; unfold rgb2rad, Rsum; cbn; lra) end.
  reflexivity.
Qed.
