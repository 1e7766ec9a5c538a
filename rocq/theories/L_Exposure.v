(** Multiplying the pixels of an image by a factor. *)
From Coq Require Import Lra Lia String Sorting.Permutation Sorting.Sorted.
From Verif Require Import Base L_Base BaseX M_Translate M_Mapper M_Io M_Utility M_Header M_Metric M_Peak M_Retina M_Imgmetric S_Metric S_Units L_Units S_Peak L_Peak L_Peak3 L_Retina S_Exposure L_Imgmetric6.
Import ListNotations.
Local Open Scope R_scope.

Section Scaled.
Context (k : R) (K : 0 < k) (w : list R) (p : peak_args) (NB : a_blursun p = false).
Notation B := (brighter_pix k).

Lemma rgb_scale c v : rgb2rad v (map (Rmult k) c) = k * rgb2rad v c.
Proof.
  unfold rgb2rad. revert v. induction c as [|x c IH]; intros [|y v]; cbn [map combine Rsum fold_right fst snd]; try ring.
  specialize (IH v). unfold Rsum in *. cbn [fst snd] in IH. rewrite IH. ring.
Qed.
Lemma lum_scale r : lum w (B r) = k * lum w r. Proof. apply rgb_scale. Qed.
Lemma nth_scale n l : nth n (map (Rmult k) l) 0 = k * nth n l 0.
Proof. revert n. induction l as [|x l IH]; intros [|n]; cbn [map nth]; auto; ring. Qed.
Lemma chan_scale c r : chan c (B r) = k * chan c r. Proof. apply nth_scale. Qed.
Lemma running_scale f g acc : (forall r, f (B r) = k * f r) -> running f (k * acc) (map B g) = map (Rmult k) (running f acc g).
Proof.
  intros F. revert acc. induction g as [|r g IH]; intros acc; [reflexivity|]. cbn [map running]. rewrite F. cbn [brighter_pix p_o].
  replace (k * acc + p_o r * (k * f r)) with (k * (acc + p_o r * f r)) by ring. now rewrite IH.
Qed.
Lemma running_scale0 f g : (forall r, f (B r) = k * f r) -> running f 0 (map B g) = map (Rmult k) (running f 0 g).
Proof. intros F. rewrite <- running_scale by exact F. now rewrite Rmult_0_r. Qed.
Lemma last_scale l : last (map (Rmult k) l) 0 = k * last l 0.
Proof. induction l as [|x [|y l] IH]; cbn [map last] in *; auto; ring. Qed.
Lemma Rltb_scale x y : Rltb (k * x) (k * y) = Rltb x y.
Proof. destruct (Rltb x y) eqn:E; [apply Rltb_true|apply Rltb_false]; [apply Rltb_true in E|apply Rltb_false in E]; nra. Qed.
Lemma Rgtb_scale x y : Rgtb (k * x) (k * y) = Rgtb x y. Proof. apply Rltb_scale. Qed.
Lemma Rleb_scale x y : Rleb (k * x) (k * y) = Rleb x y.
Proof. unfold Rleb. destruct (Rle_dec x y), (Rle_dec (k * x) (k * y)); try reflexivity; exfalso; nra. Qed.
Lemma mean_scaled l : mean (map (Rmult k) l) = option_map (Rmult k) (mean l).
Proof.
  destruct l as [|x l]; [reflexivity|]. unfold mean. cbn [map option_map]. f_equal. rewrite <- (map_cons (Rmult k)), map_length.
  assert (S : forall l, Rsum (map (Rmult k) l) = k * Rsum l) by (clear; induction l as [|a l IH]; unfold Rsum in *; cbn [map fold_right]; [ring|rewrite IH; ring]).
  rewrite S. unfold Rdiv. ring.
Qed.
Lemma above_scale x y : above (k * x) (option_map (Rmult k) y) = above x y.
Proof. destruct y; [apply Rgtb_scale|reflexivity]. Qed.
Lemma find_first_map {A C} (h : A -> C) f l i : find_first f (map h l) i = find_first (fun x => f (h x)) l i.
Proof. revert i. induction l as [|x l IH]; intros i; cbn [map find_first]; [reflexivity|]. now rewrite IH. Qed.
Lemma find_first_ext {A} (f g : A -> bool) l i : (forall x, f x = g x) -> find_first f l i = find_first g l i.
Proof. intros E. revert i. induction l as [|x l IH]; intros i; cbn [find_first]; [reflexivity|]. now rewrite E, IH. Qed.
Lemma filter_B f g l : (forall r, f (B r) = g r) -> filter f (map B l) = map B (filter g l).
Proof. intros E. induction l as [|r l IH]; cbn [map filter]; [reflexivity|]. rewrite E. destruct (g r); cbn [map]; now rewrite IH. Qed.
Lemma weighted_scale g : weighted_dir w (map B g) = weighted_dir w g.
Proof.
  unfold weighted_dir.
  assert (T : Rsum (map (fun r => p_o r * lum w r) (map B g)) = k * Rsum (map (fun r => p_o r * lum w r) g)).
  { induction g as [|r g IH]; unfold Rsum in *; cbn [map fold_right]; [ring|]. rewrite IH, lum_scale. cbn [brighter_pix p_o]. ring. }
  assert (V : fold_right (fun r a => vadd (vscale (p_o r * lum w r) (p_v r)) a) vzero (map B g) = vscale k (fold_right (fun r a => vadd (vscale (p_o r * lum w r) (p_v r)) a) vzero g)).
  { clear T. induction g as [|r g IH]; cbn [map fold_right].
    - unfold vscale, vzero. cbn [vx vy vz]. f_equal; ring.
    - rewrite IH, lum_scale. cbn [brighter_pix p_o p_v]. unfold vadd, vscale. cbn [vx vy vz]. f_equal; ring. }
  rewrite T, V. set (t := Rsum _). set (s := fold_right _ _ _). unfold Reqb. destruct (Req_EM_T (k * t) 0), (Req_EM_T t 0); try reflexivity; try (exfalso; nra).
  do 2 f_equal. unfold vscale. cbn [vx vy vz]. f_equal; field; lra.
Qed.
Definition up_peak (x : pix * nat) : pix * nat := (B (fst x), snd x).
Definition rmap {A C} (f : A -> C) (r : res A) : res C := match r with Ok a => Ok (f a) | Raise e => Raise e end.
Lemma ratio_scale x y : k * x / (k * y) = x / y.
Proof. unfold Rdiv. rewrite Rinv_mult. replace (k * x * (/ k * / y)) with (k * / k * (x * / y)) by ring. rewrite Rinv_r by lra. ring. Qed.
Lemma merge_scale blur blur' f g : merge_peak blur w p (B f) (map B g) = rmap up_peak (merge_peak blur' w (peak_scaled k p) f g).
Proof.
  unfold merge_peak. cbn [peak_scaled a_blurtol a_peaka a_peakc a_peakr a_blursun]. rewrite NB. rewrite lum_scale.
  rewrite (filter_B _ (fun r => Rleb (lum w f * a_blurtol p) (lum w r)))
    by (intros r; rewrite lum_scale; replace (k * lum w f * a_blurtol p) with (k * (lum w f * a_blurtol p)) by ring; apply Rleb_scale).
  set (near := filter _ g). rewrite map_map. rewrite (map_ext (fun x => lum w (B x)) (fun x => k * lum w x)) by (intros; apply lum_scale).
  rewrite <- (map_map (lum w) (Rmult k)), mean_scaled. rewrite running_scale0 by apply lum_scale.
  set (es := match mean (map (lum w) near) with Some m => Some (m * a_peaka p * a_peakc p) | None => None end).
  replace (match option_map (Rmult k) (mean (map (lum w) near)) with Some m => Some (m * a_peaka p * a_peakc p) | None => None end) with (option_map (Rmult k) es)
    by (unfold es; destruct (mean _); cbn [option_map]; [f_equal; ring|reflexivity]).
  clearbody es. set (cume := running (lum w) 0 g). rewrite last_scale, above_scale. cbn [brighter_pix p_l]. rewrite !map_length.
  assert (T : forall c stop, nth (stop - 1) (running (chan c) 0 (map B g)) 0 = k * nth (stop - 1) (running (chan c) 0 g) 0)
    by (intros c stop; rewrite running_scale0 by apply chan_scale; apply nth_scale).
  set (chans := seq 0 (length (p_l f))).
  assert (F : forall pa stop, map (fun c => nth (stop - 1) (running (chan c) 0 (map B g)) 0 / pa) chans = map (Rmult k) (map (fun c => nth (stop - 1) (running (chan c) 0 g) 0 / pa) chans))
    by (intros pa stop; rewrite map_map; apply map_ext; intros c; rewrite T; unfold Rdiv; ring).
  assert (fin : forall area l stop, bind (weighted_dir w (firstn stop (map B g))) (fun pv => Ok (Pix pv (area * 1) (map (fun x => x / 1) (map (Rmult k) l)), stop)) =
    rmap up_peak (bind (weighted_dir w (firstn stop g)) (fun pv => Ok (Pix pv (area * 1) (map (fun x => x / 1) l), stop)))).
  { intros area l stop. rewrite firstn_map, weighted_scale. destruct (weighted_dir w (firstn stop g)); cbn [bind rmap]; [|reflexivity]. unfold up_peak, brighter_pix. cbn [fst snd p_v p_o p_l].
    rewrite !map_map. do 3 f_equal. apply map_ext. intros x. unfold Rdiv. ring. }
  destruct (above (last cume 0) es).
  - unfold argmax. rewrite find_first_map, (find_first_ext _ (fun x => above x es)) by (intros; apply above_scale).
    rewrite F. apply fin.
  - unfold argmax. rewrite find_first_map.
    rewrite (find_first_ext _ (fun r => Rltb (lum w r) (lum w f / a_peakr p))) by (intros r; rewrite lum_scale; replace (k * lum w f / a_peakr p) with (k * (lum w f / a_peakr p)) by (unfold Rdiv; ring); apply Rltb_scale).
    destruct (Rgtb (a_peakc p) 1).
    + rewrite F. apply fin.
    + rewrite nth_scale, ratio_scale. apply fin.
Qed.
Lemma get_scale rays i : get (map B rays) i = B (get rays i).
Proof. unfold get. change dummy_pix with (B dummy_pix) at 1. apply map_nth. Qed.
Lemma bright_scale rays : bright w p (map B rays) = bright w (peak_scaled k p) rays.
Proof.
  unfold bright. rewrite map_length. apply filter_ext. intros i. rewrite get_scale, lum_scale. cbn [peak_scaled a_peakt a_scale].
  rewrite <- (Rgtb_scale (lum w (get rays i))). f_equal. unfold Rdiv. rewrite Rinv_mult.
  replace (k * (a_peakt p * (/ k * / a_scale p))) with (k * / k * (a_peakt p * / a_scale p)) by ring. rewrite Rinv_r by lra. ring.
Qed.
Definition up_found (x : option pix * list nat) := (option_map B (fst x), snd x).
Lemma find_scale order blur blur' rays : by_comparison order ->
  find_peak order blur w p (map B rays) = rmap up_found (find_peak order blur' w (peak_scaled k p) rays).
Proof.
  intros O. unfold find_peak. rewrite bright_scale. destruct (bright w (peak_scaled k p) rays) as [|i b]; [reflexivity|].
  rewrite (O (fun i => lum w (get (map B rays) i)) (fun i => lum w (get rays i))) by (intros x y; rewrite !get_scale, !lum_scale; split; nra).
  set (pc := order _ _). rewrite get_scale. change (cosrad (peak_scaled k p)) with (cosrad p).
  rewrite (filter_ext _ (fun i => Rgtb (dot (p_v (get rays (hd 0%nat pc))) (p_v (get rays i))) (cosrad p))) by (intros x; rewrite get_scale; reflexivity).
  set (pf := filter _ pc). rewrite (map_ext (get (map B rays)) (fun i => B (get rays i))) by (intros; apply get_scale). rewrite <- (map_map (get rays) B).
  destruct (map (get rays) pf) as [|f g]; [reflexivity|]. cbn [map]. change (B f :: map B g) with (map B (f :: g)). rewrite (merge_scale blur blur').
  destruct (merge_peak blur' w (peak_scaled k p) f (f :: g)) as [[q n]|e]; reflexivity.
Qed.
Lemma delete_scale pc rays : delete_rows pc (map B rays) = map B (delete_rows pc rays).
Proof. unfold delete_rows. rewrite map_length, map_map. apply map_ext. intros i. apply get_scale. Qed.
Lemma zero_scale pc rays : zero_rows pc (map B rays) = map B (zero_rows pc rays).
Proof.
  unfold zero_rows. rewrite map_length, map_map. apply map_ext. intros i. rewrite get_scale. destruct (in_pc pc i); [|reflexivity].
  unfold brighter_pix. cbn [p_v p_o p_l]. rewrite !map_map. f_equal. apply map_ext. intros x. ring.
Qed.
Lemma normalize_scale order blur blur' kz rays : by_comparison order ->
  normalize_peak order blur w p kz (map B rays) = rmap (map B) (normalize_peak order blur' w (peak_scaled k p) kz rays).
Proof.
  intros O. unfold normalize_peak. rewrite (find_scale order blur blur' rays O). destruct (find_peak order blur' w (peak_scaled k p) rays) as [[[q|] [|i pc]]|e]; cbn [rmap bind up_found option_map fst snd]; try reflexivity.
  rewrite map_app. cbn [map]. destruct kz; now rewrite ?delete_scale, ?zero_scale.
Qed.
End Scaled.

Lemma combine_map_snd {A C D} (h : C -> D) (a : list A) (l : list C) : combine a (map h l) = map (fun x => (fst x, h (snd x))) (combine a l).
Proof. revert l. induction a as [|x a IH]; intros [|y l]; cbn [combine map fst snd]; auto. now rewrite IH. Qed.
Lemma volume_scale k vm f g : (forall px, g (map (Rmult k) px) = map (Rmult k) (g px)) ->
  volume vm (if_im (brighter_file k f)) g = rmap (map (brighter_pix k)) (volume vm (if_im f) g).
Proof.
  intros G. unfold volume, hdr2vol. cbn [brighter_file if_im im_nx im_ny im_px]. rewrite !map_length. destruct (_ && _)%bool; [|reflexivity]. cbn [rmap]. f_equal.
  rewrite <- (map_map (fun q : Z * Z => im_px (if_im f) (fst q) (snd q)) (map (Rmult k))). rewrite combine_map_snd, !map_map. apply map_ext. intros x. cbn [fst snd].
  unfold brighter_pix. cbn [p_v p_o p_l]. now rewrite G.
Qed.
Lemma exposure_metrics parse order blur blur' fuel o file metrics k : 0 < k -> by_comparison order -> mo_peakn o = false \/ mo_blursun o = false ->
  imgmetric parse order blur fuel o (brighter_file k file) metrics = imgmetric parse order blur' fuel (mopts_scaled k o) file metrics.
Proof.
  intros K O NB. unfold imgmetric. cbn [brighter_file if_vm if_item]. destruct (if_vm file) as [v|e]; [|reflexivity]. set (vm := match v with Some vm => vm | None => _ end).
  cbn [mopts_scaled mo_lumrgb]. destruct (choose_lumrgb _ _ _ _) as [lr|e]; [|reflexivity]. destruct (match lr with Some w => negb (length w =? 3)%nat | None => false end); [reflexivity|].
  fold (brighter_file k file).
  change (opts_of (MOpts (mo_peakn o) (k * mo_scale o) (mo_lumrgb o) (mo_threshold o) (mo_lowlight o) (mo_peaka o) (mo_peakt o) (mo_peakr o) (mo_blursun o))) with (brighter k (opts_of o)).
  assert (N : forall w rays, (if mo_peakn o then normalize_peak order blur w (peak_of o) false (map (brighter_pix k) rays) else Ok (map (brighter_pix k) rays)) =
     rmap (map (brighter_pix k)) (if mo_peakn o then normalize_peak order blur' w (peak_scaled k (peak_of o)) false rays else Ok rays)).
  { intros w rays. destruct (mo_peakn o); [|reflexivity]. apply normalize_scale; auto. destruct NB as [NB|NB]; [discriminate|exact NB]. }
  destruct (needs_color metrics).
  - rewrite (volume_scale k vm file (fun px => px)) by reflexivity. destruct (volume vm (if_im file) (fun px => px)) as [rays|e]; [|reflexivity]. cbn [rmap].
    rewrite N. change (peak_of (mopts_scaled k o)) with (peak_scaled k (peak_of o)). change (mo_peakn (mopts_scaled k o)) with (mo_peakn o).
    destruct (if mo_peakn o then _ else Ok rays) as [r|e]; [|reflexivity]. cbn [rmap].
    destruct lr as [lw|]; [|reflexivity]. destruct (check_metrics KColor metrics true) as [?|e]; [|reflexivity].
    rewrite map_map. cbn [brighter_pix p_v p_o p_l]. pose proof (units_color fuel (opts_of o) vm lw (map (fun r => (p_v r, p_o r, p_l r)) r) k KColor metrics K) as U.
    unfold scale_rgb in U. rewrite map_map in U. cbn [fst snd] in U. change (opts_of (mopts_scaled k o)) with (brighter k (opts_of o)). unfold outcome in U.
    destruct (construct_color fuel (opts_of o) vm lw _) as [[m om]|], (construct_color fuel (brighter k (opts_of o)) vm lw _) as [[m' om']|]; congruence.
  - set (w := match lr with Some w => w | None => pvalue_weights end). rewrite (volume_scale k vm file (fun px => [rgb2rad w px])) by (intros px; cbn [map]; now rewrite rgb_scale).
    destruct (volume vm (if_im file) (fun px => [rgb2rad w px])) as [rays|e]; [|reflexivity]. cbn [rmap].
    rewrite N. change (peak_of (mopts_scaled k o)) with (peak_scaled k (peak_of o)). change (mo_peakn (mopts_scaled k o)) with (mo_peakn o).
    destruct (if mo_peakn o then _ else Ok rays) as [r|e]; [|reflexivity]. cbn [rmap].
    rewrite map_map. cbn [brighter_pix p_v p_o p_l]. pose proof (units fuel (opts_of o) vm (map (fun r => Ray (p_v r) (p_o r) (nth 0 (p_l r) 0)) r) k KMetric metrics K) as U.
    unfold scale_lum in U. rewrite map_map in U. cbn [r_vec r_omega r_lum] in U. rewrite (map_ext (fun x : pix => Ray (p_v x) (p_o x) (nth 0 (map (Rmult k) (p_l x)) 0)) (fun x => Ray (p_v x) (p_o x) (k * nth 0 (p_l x) 0))) by (intros x; now rewrite nth_scale).
    change (opts_of (mopts_scaled k o)) with (brighter k (opts_of o)). unfold outcome in U.
    destruct (construct fuel (opts_of o) vm _) as [[m om]|], (construct fuel (brighter k (opts_of o)) vm _) as [[m' om']|]; congruence.
Qed.

(** a sort by comparisons *)
Lemma insert_ext {A} (key key' : A -> R) a l : (forall i j, key i <= key j <-> key' i <= key' j) -> insert_down key a l = insert_down key' a l.
Proof.
  intros H. induction l as [|b l IH]; cbn [insert_down]; [reflexivity|]. rewrite IH. destruct (Rle_dec (key b) (key a)) as [x|x], (Rle_dec (key' b) (key' a)) as [y|y]; try reflexivity; exfalso; specialize (H b a); tauto.
Qed.
Lemma sort_ext {A} (key key' : A -> R) l : (forall i j, key i <= key j <-> key' i <= key' j) -> sort_down key l = sort_down key' l.
Proof. intros H. unfold sort_down. induction l as [|a l IH]; cbn [fold_right]; [reflexivity|]. rewrite IH. now apply insert_ext. Qed.
Lemma sort_example : exists order, sorts_down order /\ by_comparison order.
Proof. exists (fun key l => sort_down key l). split; [intros key l; apply sort_down_spec|]. intros key key' l H. now apply sort_ext. Qed.
Lemma blur_example : exists blur, is_blur_sun blur /\ forall a l, 0 < blur a l.
Proof.
  assert (F : 0 < fwhm0) by (unfold fwhm0; lra). assert (L : 0 < lmin0) by (unfold lmin0; lra).
  exists (fun a l => match Rlt_dec 0 a with left _ => match blur_sun fwhm0 lmin0 a l with Fin f => f | _ => 1 end | right _ => 1 end). split.
  - intros a l A. destruct (Rlt_dec 0 a); [|contradiction]. destruct (blur_ge_1 fwhm0 lmin0 a l F L A) as (f & E & _). rewrite E. reflexivity.
  - intros a l. destruct (Rlt_dec 0 a) as [A|]; [|lra]. destruct (blur_ge_1 fwhm0 lmin0 a l F L A) as (f & E & G & _). rewrite E. lra.
Qed.

(** one bright ray with the blur correction *)
Definition blurred (sc : R) : peak_args := PeakArgs sc PI 1 4 0.75 1 1 true.
Lemma blurred_cos sc : cosrad (blurred sc) < 1.
Proof. exact cosrad1. Qed.
Lemma one_blurred order blur sc L : sorts_down order -> 1 / sc < L -> 0 < L -> exists q, normalize_peak order blur [1] (blurred sc) false [Pix up 1 [L]] = Ok [q] /\ p_o q = blur 1 L.
Proof.
  intros O H P. assert (E : lum [1] (Pix up 1 [L]) = L) by (unfold lum; cbn; lra).
  unfold normalize_peak, find_peak, bright. cbn [length seq filter]. unfold get. cbn [nth]. rewrite E.
  change (a_peakt (blurred sc)) with 1. change (a_scale (blurred sc)) with sc.
  assert (Rgtb L (1 / sc) = true) as -> by (apply Rltb_true; exact H).
  rewrite sorted_one by exact O. cbn [hd filter nth map p_v]. rewrite dot_up.
  assert (Rgtb 1 (cosrad (blurred sc)) = true) as -> by (apply Rltb_true, blurred_cos).
  cbn [map nth]. unfold merge_peak. rewrite E. cbn [filter]. rewrite E.
  assert (Rleb (L * a_blurtol (blurred sc)) L = true) as -> by (apply Rleb_true; cbn; lra).
  cbn [map running length last p_o p_l nth above chan seq firstn]. rewrite E. unfold mean. cbn [length Rsum fold_right INR].
  cbn [above blurred a_peaka a_peakc a_blursun a_peakr]. pose proof PI2_1 as G.
  assert (Rgtb (0 + 1 * L) ((L + 0) / 1 * PI * 1) = false) as -> by (apply Rltb_false; unfold Rdiv; nra).
  unfold argmax. cbn [find_first]. rewrite E. assert (Rltb L (L / 4) = false) as -> by (apply Rltb_false; lra). cbn [Nat.eqb].
  assert (Rgtb 1 1 = false) as -> by (apply Rltb_false; lra). cbn [Nat.sub nth firstn map].
  unfold weighted_dir. cbn [map Rsum fold_right p_o p_v]. rewrite E. assert (Reqb (1 * L + 0) 0 = false) as -> by (apply Reqb_false; lra).
  cbn [bind fst snd firstn]. unfold delete_rows, in_pc. cbn [length seq filter existsb Nat.eqb orb negb map app].
  replace ((0 + 1 * L) / L) with 1 by (field; lra). eexists. split; [reflexivity|]. cbn [p_o]. lra.
Qed.
Lemma exposure_blur : exists k p rays, 0 < k /\ args_ok p /\ rays_ok [1] p rays /\ forall order blur, sorts_down order -> is_blur_sun blur ->
  exists q q', normalize_peak order blur [1] p false (map (brighter_pix k) rays) = Ok [q] /\ normalize_peak order blur [1] (peak_scaled k p) false rays = Ok [q'] /\ p_o q' < p_o q.
Proof.
  assert (F : 0 < fwhm0) by (unfold fwhm0; lra). assert (L : 0 < lmin0) by (unfold lmin0; lra).
  exists 10, (blurred 1), [Pix up 1 [100]]. split; [lra|]. split; [|split].
  - destruct args1_ok as (A & _ & C & D). unfold args_ok, blurred. cbn [a_scale a_peaka a_peakt a_peakrad]. repeat split; try lra; apply D.
  - apply Forall_cons; [|apply Forall_nil]. cbn [p_v p_o p_l]. repeat split; [apply dot_up|lra].
  - intros order blur O S. change (map (brighter_pix 10) [Pix up 1 [100]]) with [Pix up 1 [10 * 100]]. change (peak_scaled 10 (blurred 1)) with (blurred (10 * 1)).
    destruct (one_blurred order blur 1 (10 * 100) O) as (q & Q & X); [lra|lra|]. destruct (one_blurred order blur (10 * 1) 100 O) as (q' & Q' & X'); [lra|lra|].
    exists q, q'. split; [exact Q|]. split; [exact Q'|]. rewrite X, X'.
    destruct (blur_ge_1 fwhm0 lmin0 1 (10 * 100) F L ltac:(lra)) as (f & E & G & H). destruct (blur_ge_1 fwhm0 lmin0 1 100 F L ltac:(lra)) as (f' & E' & G' & H').
    rewrite (S 1 (10 * 100)) in E by lra. rewrite (S 1 100) in E' by lra. injection E as ->. injection E' as ->.
    assert (f' = 1) by (apply H'; unfold lmin0; lra). assert (f <> 1) by (intros ->; destruct H as [H _]; specialize (H eq_refl); unfold lmin0 in H; lra). lra.
Qed.
Lemma exposure_peak order blur w p kz rays k : 0 < k -> by_comparison order -> a_blursun p = false ->
  normalize_peak order blur w p kz (map (brighter_pix k) rays) =
  match normalize_peak order blur w (peak_scaled k p) kz rays with Ok r => Ok (map (brighter_pix k) r) | Raise e => Raise e end.
Proof. intros K O N. exact (normalize_scale k K w p N order blur blur kz rays O). Qed.
Lemma exposed_dot parse blur fuel : exists order, sorts_down order /\ by_comparison order /\
  imgmetric parse order blur fuel (S_Imgmetric2.opts1 true (Some [0; 0; 1])) S_Imgmetric3.dot_file ["maxlum"]%string = Some (Ok [Fin (4 * 1000 / (67967 / 10 ^ 9) * 179)]).
Proof. destruct sort_example as (order & S & C). exists order. split; [exact S|]. split; [exact C|]. now apply dot_alone. Qed.
