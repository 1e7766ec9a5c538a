(** Moving the directions of rays. *)
From Coq Require Import Lra Lia Sorting.Permutation Sorting.Sorted.
From Verif Require Import Base L_Base BaseX M_Translate S_Translate M_Io M_Mapper M_Metric M_Peak S_Peak L_Peak3 S_Turn S_Exposure L_Exposure S_Isometry.
Import ListNotations.
Local Open Scope R_scope.

Section Moved.
Context (t : vec3 -> vec3) (I : isometry t) (w : list R) (p : peak_args).
Notation B := (moved t).
Lemma t_add a b : t (vadd a b) = vadd (t a) (t b). Proof. apply I. Qed.
Lemma t_scale k a : t (vscale k a) = vscale k (t a). Proof. apply I. Qed.
Lemma t_dot a b : dot (t a) (t b) = dot a b. Proof. apply I. Qed.
Lemma t_zero : t vzero = vzero.
Proof.
  assert (Z : forall v, vscale 0 v = vzero) by (intros v; unfold vscale, vzero; f_equal; ring).
  rewrite <- (Z vzero) at 1. rewrite t_scale. apply Z.
Qed.
Lemma norm_is_scale v : norm v = vscale (/ vnorm v) v.
Proof. unfold norm, vscale, Rdiv. f_equal; ring. Qed.
Lemma t_norm v : norm (t v) = t (norm v).
Proof. rewrite !norm_is_scale, t_scale. unfold vnorm. now rewrite t_dot. Qed.
Lemma filter_moved f g l : (forall r, f (B r) = g r) -> filter f (map B l) = map B (filter g l).
Proof. intros E. induction l as [|r l IH]; cbn [map filter]; [reflexivity|]. rewrite E. destruct (g r); cbn [map]; now rewrite IH. Qed.
Lemma map_moved {A} (f g : pix -> A) l : (forall r, f (B r) = g r) -> map f (map B l) = map g l.
Proof. intros E. rewrite map_map. apply map_ext. exact E. Qed.
Lemma running_moved f acc g : (forall r, f (B r) = f r) -> running f acc (map B g) = running f acc g.
Proof. intros F. revert acc. induction g as [|r g IH]; intros acc; [reflexivity|]. cbn [map running]. rewrite F. cbn [moved p_o]. now rewrite IH. Qed.
Lemma find_first_moved f l i : (forall r, f (B r) = f r) -> find_first f (map B l) i = find_first f l i.
Proof. intros E. revert i. induction l as [|x l IH]; intros i; cbn [map find_first]; [reflexivity|]. now rewrite E, IH. Qed.
Lemma sum_moved (f : pix -> R) g : (forall r, f (B r) = f r) ->
  fold_right (fun r a => vadd (vscale (f r) (p_v r)) a) vzero (map B g) = t (fold_right (fun r a => vadd (vscale (f r) (p_v r)) a) vzero g).
Proof. intros F. induction g as [|r g IH]; cbn [map fold_right]; [symmetry; apply t_zero|]. rewrite IH, t_add, t_scale, F. reflexivity. Qed.
Lemma weighted_moved g : weighted_dir w (map B g) = mapped t (weighted_dir w g).
Proof.
  unfold weighted_dir. rewrite (map_moved _ (fun r => p_o r * lum w r)) by reflexivity. rewrite (sum_moved (fun r => p_o r * lum w r)) by reflexivity.
  destruct (Reqb _ _); [reflexivity|]. cbn [mapped]. now rewrite <- t_scale, t_norm.
Qed.
Lemma merge_moved blur f g : merge_peak blur w p (B f) (map B g) = mapped (fun x => (B (fst x), snd x)) (merge_peak blur w p f g).
Proof.
  unfold merge_peak. change (lum w (B f)) with (lum w f). change (p_l (B f)) with (p_l f).
  rewrite (filter_moved _ (fun r => Rleb (lum w f * a_blurtol p) (lum w r))) by reflexivity. rewrite (map_moved (lum w) (lum w)) by reflexivity. rewrite !map_length.
  rewrite (running_moved (lum w)) by reflexivity. unfold argmax. rewrite (find_first_moved (fun r => Rltb (lum w r) (lum w f / a_peakr p))) by reflexivity.
  assert (T : forall c stop, nth (stop - 1) (running (chan c) 0 (map B g)) 0 = nth (stop - 1) (running (chan c) 0 g) 0) by (intros; now rewrite running_moved by reflexivity).
  cbv zeta.
  match goal with |- context [if above ?a ?b then _ else _] => destruct (above a b) end; [|destruct (Rgtb (a_peakc p) 1)];
  rewrite firstn_map, weighted_moved;
  match goal with |- context [mapped t ?x] => destruct x end; cbn [mapped bind]; try reflexivity; cbn [fst snd moved p_v p_o p_l];
  try (erewrite (map_ext (fun c => nth _ (running (chan c) 0 (map B g)) 0 / a_peaka p)) by (intros; rewrite T; reflexivity)); reflexivity.
Qed.
Lemma get_moved rays i : get (map B rays) i = B (get rays i).
Proof. unfold get. replace dummy_pix with (B dummy_pix) at 1 by (unfold moved, dummy_pix; cbn [p_v p_o p_l]; now rewrite t_zero). apply map_nth. Qed.
Lemma bright_moved rays : bright w p (map B rays) = bright w p rays.
Proof. unfold bright. rewrite map_length. apply filter_ext. intros i. now rewrite get_moved. Qed.
Definition moved_found (x : option pix * list nat) := (option_map B (fst x), snd x).
Lemma order_moved (order : (nat -> R) -> list nat -> list nat) rays l : by_comparison order -> order (fun i => lum w (get (map B rays) i)) l = order (fun i => lum w (get rays i)) l.
Proof. intros O. apply O. intros x y. rewrite !get_moved. reflexivity. Qed.
Lemma map_get_moved rays l : map (get (map B rays)) l = map B (map (get rays) l).
Proof. rewrite map_map. apply map_ext. intros i. apply get_moved. Qed.
Lemma find_moved order blur rays : by_comparison order -> find_peak order blur w p (map B rays) = mapped moved_found (find_peak order blur w p rays).
Proof.
  intros O. unfold find_peak. rewrite bright_moved. destruct (bright w p rays) as [|i b]; [reflexivity|].
  rewrite order_moved by exact O. set (pc := order _ _). rewrite get_moved.
  rewrite (filter_ext _ (fun i => Rgtb (dot (p_v (get rays (hd 0%nat pc))) (p_v (get rays i))) (cosrad p))) by (intros x; rewrite get_moved; cbn [moved p_v]; now rewrite t_dot).
  set (pf := filter _ pc). rewrite map_get_moved. destruct (map (get rays) pf) as [|f g]; [reflexivity|]. cbn [map].
  change (B f :: map B g) with (map B (f :: g)). rewrite merge_moved. destruct (merge_peak blur w p f (f :: g)) as [[q n]|e]; reflexivity.
Qed.
Lemma delete_moved pc rays : delete_rows pc (map B rays) = map B (delete_rows pc rays).
Proof. unfold delete_rows. rewrite map_length. apply map_get_moved. Qed.
Lemma zero_moved pc rays : zero_rows pc (map B rays) = map B (zero_rows pc rays).
Proof. unfold zero_rows. rewrite map_length, map_map. apply map_ext. intros i. rewrite get_moved. destruct (in_pc pc i); reflexivity. Qed.
Lemma normalize_moved order blur kz rays : by_comparison order ->
  normalize_peak order blur w p kz (map B rays) = mapped (map B) (normalize_peak order blur w p kz rays).
Proof.
  intros O. unfold normalize_peak. rewrite find_moved by exact O. destruct (find_peak order blur w p rays) as [[[q|] [|i pc]]|e]; cbn [mapped bind moved_found option_map fst snd]; try reflexivity.
  rewrite map_app. cbn [map]. destruct kz; now rewrite ?delete_moved, ?zero_moved.
Qed.
Lemma plain_sum_moved g : fold_right (fun r a => vadd (p_v r) a) vzero (map B g) = t (fold_right (fun r a => vadd (p_v r) a) vzero g).
Proof. induction g as [|r g IH]; cbn [map fold_right]; [symmetry; apply t_zero|]. rewrite IH, t_add. reflexivity. Qed.
Lemma hd_moved l : hd dummy_pix (map B l) = B (hd dummy_pix l).
Proof. destruct l; [|reflexivity]. unfold moved, dummy_pix. cbn [map hd p_v p_o p_l]. now rewrite t_zero. Qed.
Lemma group_moved g : group_of w (map B g) = mapped (moved_stray t) (group_of w g).
Proof.
  unfold group_of. rewrite (map_moved p_o p_o) by reflexivity. destruct (Reqb _ 0); [reflexivity|]. rewrite map_length, plain_sum_moved, hd_moved.
  rewrite (map_moved _ (fun r => p_o r * lum w r)) by reflexivity. cbn [mapped moved_stray s_v s_o s_l]. unfold moved_stray. cbn [s_v s_o s_l]. rewrite <- t_scale.
  do 3 f_equal. apply map_ext. intros c. do 2 f_equal. now apply map_moved.
Qed.
Lemma gather_moved fuel sortdesc pt cr l : ignores_direction sortdesc ->
  gather_strays fuel sortdesc w pt cr (map B l) = mapped (map (moved_stray t)) (gather_strays fuel sortdesc w pt cr l).
Proof.
  intros D. revert l. induction fuel as [|fuel IH]; intros l; [reflexivity|]. cbn [gather_strays].
  rewrite (filter_moved _ (fun r => Rgtb (lum w r) pt)) by reflexivity. set (pc := filter _ l). rewrite map_length. destruct (3 <? length pc)%nat; [|reflexivity].
  rewrite D, hd_moved. set (top := hd dummy_pix (sortdesc pc)). set (so := sortdesc pc).
  rewrite (filter_moved _ (fun r => Rgtb (dot (p_v top) (p_v r)) cr)) by (intros r; cbn [moved p_v]; now rewrite t_dot).
  rewrite (filter_moved _ (fun r => negb (Rgtb (dot (p_v top) (p_v r)) cr))) by (intros r; cbn [moved p_v]; now rewrite t_dot).
  rewrite group_moved, IH. destruct (group_of w _); cbn [mapped bind]; [|reflexivity]. destruct (gather_strays fuel sortdesc w pt cr _); reflexivity.
Qed.
Lemma secondary_moved fuel order sortdesc rays : by_comparison order -> ignores_direction sortdesc ->
  secondary fuel order sortdesc w p (map B rays) = mapped (map (moved_stray t)) (secondary fuel order sortdesc w p rays).
Proof.
  intros O D. unfold secondary. rewrite bright_moved. destruct (bright w p rays) as [|i b]; [reflexivity|]. rewrite order_moved by exact O. rewrite map_get_moved, hd_moved.
  set (pv := map (get rays) _). cbv zeta.
  rewrite (filter_moved _ (fun r => Rltb (dot (p_v (hd dummy_pix pv)) (p_v r)) (cos (sqrt (a_peaka p / PI) * a_peakrad p * 8)))) by (intros r; cbn [moved p_v]; now rewrite t_dot).
  rewrite gather_moved by exact D. destruct (gather_strays _ _ _ _ _ _); cbn [mapped bind]; [|reflexivity]. now rewrite !map_map.
Qed.
End Moved.
(** the hypotheses *)
Lemma about_isometry m c x : c * c + x * x = 1 -> isometry (about_vertical m c x).
Proof.
  intros E. repeat split; intros; unfold about_vertical, vadd, vscale, dot; destruct m; cbn [vx vy vz]; try (f_equal; ring);
  match goal with |- _ = ?a * ?b + ?d * ?e + ?f * ?g => transitivity ((c * c + x * x) * (a * b + d * e) + f * g); [ring|rewrite E; ring] end.
Qed.
Lemma insert_moved t w a l : insert_down (lum w) (moved t a) (map (moved t) l) = map (moved t) (insert_down (lum w) a l).
Proof.
  induction l as [|b l IH]; cbn [insert_down map]; [reflexivity|]. rewrite IH. change (lum w (moved t b)) with (lum w b). change (lum w (moved t a)) with (lum w a).
  destruct (Rle_dec _ _); reflexivity.
Qed.
Lemma sort_moved_exists w : exists sortdesc, sorts_rays_down w sortdesc /\ ignores_direction sortdesc.
Proof.
  exists (sort_down (lum w)). split; [intros l; apply sort_down_spec|]. intros t l. unfold sort_down. induction l as [|a l IH]; cbn [fold_right map]; [reflexivity|]. rewrite IH. apply insert_moved.
Qed.
Lemma turn_vertical : isometry (fun v => V3 (vz v) (vx v) (vy v)).
Proof. repeat split; intros; unfold vadd, vscale, dot; cbn [vx vy vz]; try (f_equal; ring); ring. Qed.
