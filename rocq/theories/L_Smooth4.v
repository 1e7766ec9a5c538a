(** Lemmas for Prop_Smooth.v: the smooth command *)
From Coq Require Import List Sorting.Permutation Sorting.Sorted Lra Lia.
From Verif Require Import Base L_Base M_Translate M_Mapper M_Data S_Data L_Data L_Data2 L_Data3 M_Smooth S_Smooth L_Smooth L_Smooth2 L_Smooth3.
Import ListNotations.
Local Open Scope R_scope.

Lemma column_col data j : column data j = match col data j with Some l => Ok l | None => Raise IndexError end.
Proof.
  unfold column. assert (all_some (map (fun r => py_get r j) data) = col data j) as ->; [|reflexivity].
  induction data as [|r data IH]; [reflexivity|]. cbn [map all_some]. rewrite IH. unfold col at 2. cbn [fold_right]. fold (col data j).
  assert (P : py_get r j = if (0 <=? j)%Z then nth_error r (Z.to_nat j) else if (0 <=? j + Z.of_nat (length r))%Z then nth_error r (Z.to_nat (j + Z.of_nat (length r))) else None).
  { unfold py_get, np_index. destruct (Z.leb_spec 0 j); cbn [andb].
    - destruct (Z.ltb_spec j (Z.of_nat (length r))); [reflexivity|]. assert ((j <? 0)%Z = false) as -> by (apply Z.ltb_ge; lia). rewrite Bool.andb_false_r.
      symmetry. apply nth_error_None. lia.
    - assert ((j <? 0)%Z = true) as -> by (apply Z.ltb_lt; lia). rewrite Bool.andb_true_r.
      destruct (Z.leb_spec (- Z.of_nat (length r)) j); destruct (Z.leb_spec 0 (j + Z.of_nat (length r))); try lia; reflexivity. }
  rewrite P. unfold col. match goal with |- match ?a with _ => _ end = _ => destruct a end; [|reflexivity]. reflexivity.
Qed.
Lemma col_length data j l : col data j = Some l -> length l = length data.
Proof. intros H. pose proof (column_col data j) as C. rewrite H in C. now apply column_length in C. Qed.
Lemma columns_ok data y dy : Forall2 (fun j c => col data j = Some c) y dy -> all_ok (map (column data) y) = Ok dy.
Proof. intros H. apply all_ok_map. induction H as [|j c y dy E _ IH]; constructor; [|exact IH]. now rewrite column_col, E. Qed.
Lemma columns_rect data y dy : Forall2 (fun j c => col data j = Some c) y dy -> rectangle (length data) dy.
Proof. intros H. induction H as [|j c y dy E _ IH]; constructor; [now apply col_length in E|exact IH]. Qed.
Lemma lmin_from a l : let m := fold_right Rmin a l in (In m (a :: l)) /\ m <= a /\ Forall (fun t => m <= t) l.
Proof.
  induction l as [|b l (I & A & F)]; cbn [fold_right]; [repeat split; [now left|lra|constructor]|].
  set (m := fold_right Rmin a l) in *. cbv zeta. unfold Rmin. destruct (Rle_dec b m).
  - split; [right; now left|]. split; [lra|]. constructor; [lra|]. eapply Forall_impl; [|exact F]. intros t T. cbv beta in T. lra.
  - split; [destruct I; [now left|right; now right]|]. split; [exact A|]. constructor; [lra|exact F].
Qed.
Lemma lmax_from a l : let m := fold_right Rmax a l in (In m (a :: l)) /\ a <= m /\ Forall (fun t => t <= m) l.
Proof.
  induction l as [|b l (I & A & F)]; cbn [fold_right]; [repeat split; [now left|lra|constructor]|].
  set (m := fold_right Rmax a l) in *. cbv zeta. unfold Rmax. destruct (Rle_dec b m).
  - split; [destruct I; [now left|right; now right]|]. split; [exact A|]. constructor; [lra|exact F].
  - split; [right; now left|]. split; [lra|]. constructor; [lra|]. eapply Forall_impl; [|exact F]. intros t T. cbv beta in T. lra.
Qed.
Lemma lmin_spec l : l <> [] -> In (lmin l) l /\ Forall (fun t => lmin l <= t) l.
Proof. destruct l as [|a l]; [congruence|]. intros _. unfold lmin. cbn [hd]. destruct (lmin_from a (a :: l)) as (I & _ & F). split; [destruct I as [<-|I]; [now left|exact I]|exact F]. Qed.
Lemma lmax_spec l : l <> [] -> In (lmax l) l /\ Forall (fun t => t <= lmax l) l.
Proof. destruct l as [|a l]; [congruence|]. intros _. unfold lmax. cbn [hd]. destruct (lmax_from a (a :: l)) as (I & _ & F). split; [destruct I as [<-|I]; [now left|exact I]|exact F]. Qed.
(** the coordinates *)
Definition outs (dx x_out : list R) : list R := match x_out with [v] => linspace (lmin dx) (lmax dx) (Z.to_nat (Rtrunc v)) | _ => x_out end.
Lemma linspace_nth a b n k : (k < n)%nat -> nth k (linspace a b n) 0 = a + INR k * (b - a) / (INR n - 1).
Proof.
  intros K. unfold linspace. set (f := fun k => _). rewrite (nth_indep (map f (seq 0 n)) 0 (f 0%nat)) by (rewrite map_length, seq_length; exact K). rewrite map_nth, seq_nth by exact K.
  cbn [Nat.add]. unfold f. destruct (Nat.eqb_spec n 1) as [->|]; [|unfold Rdiv; ring]. assert (k = 0)%nat as -> by lia. cbn [INR]. unfold Rdiv. ring.
Qed.
Lemma linspace_length a b n : length (linspace a b n) = n.
Proof. unfold linspace. now rewrite map_length, seq_length. Qed.
Lemma outs_positions dx x_out : dx <> [] -> usable x_out -> positions dx x_out (outs dx x_out) /\ outs dx x_out <> [] /\
  match x_out with [v] => (Rtrunc v <? 0)%Z = false | _ => True end.
Proof.
  intros D U. destruct x_out as [|v [|v' l]]; cbn [usable] in U; [destruct U| |split; [reflexivity|split; [discriminate|exact I]]].
  unfold positions, outs. set (n := Z.to_nat (Rtrunc v)).
  assert (T : Rtrunc v = Rfloor v). { unfold Rtrunc. rewrite (proj2 (Rltb_false v 0) ltac:(lra)). reflexivity. }
  pose proof (Rfloor_spec v) as [F1 F2]. assert (1 <= Rfloor v)%Z as G. { apply Rfloor_ge. lra. }
  assert (INR n = IZR (Rfloor v)) as N. { unfold n. rewrite T, INR_IZR_INZ, Z2Nat.id by lia. reflexivity. }
  assert (1 <= n)%nat as N1 by (unfold n; rewrite T; lia).
  split; [|split].
  - exists n, (lmin dx), (lmax dx). destruct (lmin_spec dx D) as [A1 A2], (lmax_spec dx D) as [B1 B2].
    split; [rewrite N; lra|]. split; [exact A1|]. split; [exact B1|]. split; [|split; [apply linspace_length|intros k K; now apply linspace_nth]].
    rewrite Forall_forall in *. intros t H. split; auto.
  - intros E. apply (f_equal (@length R)) in E. rewrite linspace_length in E. cbn in E. lia.
  - apply Z.ltb_ge. rewrite T. lia.
Qed.
Lemma cov_variance l : cov l = variance l.
Proof. unfold cov, variance. f_equal. f_equal. apply map_ext. intros v. ring. Qed.
Lemma sum_nonneg (f : R -> R) l : (forall v, 0 <= f v) -> 0 <= fold_right Rplus 0 (map f l).
Proof. intros H. induction l as [|a l IH]; cbn [map fold_right]; [lra|]. specialize (H a). lra. Qed.
Lemma variance_nonneg l : (2 <= length l)%nat -> 0 <= variance l.
Proof.
  intros L. unfold variance. assert (1 < INR (length l)). { change 1 with (INR 1). apply lt_INR. lia. }
  apply Rmult_le_pos; [apply sum_nonneg; intros v; apply pow2_ge_0|]. left. apply Rinv_0_lt_compat. lra.
Qed.
Lemma scott_eq l : (2 <= length l)%nat -> sqrt (cov l * Rpower (INR (length l)) (-0.4)) = scott l.
Proof.
  intros L. rewrite cov_variance. unfold scott. rewrite sqrt_mult_alt by (now apply variance_nonneg). f_equal.
  replace (-0.4)%R with (- (1 / 5) + - (1 / 5)) by lra. rewrite Rpower_plus. apply sqrt_square. unfold Rpower. left. apply exp_pos.
Qed.
Lemma smooth_shape order argsort data x x_out y sigma sf dx dy : (2 <= length data)%nat -> col data x = Some dx -> Forall2 (fun j c => col data j = Some c) y dy -> usable x_out ->
  smooth order argsort data x x_out y sigma sf =
  bind (match dy with
        | [] => if Reqb (asked_width dx sigma sf * asked_width dx sigma sf * variance dx) 0 then Raise (OtherError 1)
                else Ok (map (fun x0 => [kde dx (asked_width dx sigma sf) x0]) (outs dx x_out))
        | _ => filter_rows order argsort (scaled_pdf (asked_width dx sigma sf)) AMean None dx dy (outs dx x_out)
        end) (fun yo => Ok (combine (outs dx x_out) yo)).
Proof.
  intros L X Y U. unfold smooth. rewrite column_col, X. cbn [bind]. rewrite (columns_ok _ _ _ Y). cbn [bind]. pose proof (col_length _ _ _ X) as LX.
  assert (D : dx <> []) by (intros ->; cbn in LX; lia). destruct (outs_positions dx x_out D U) as (_ & _ & T).
  assert ((match x_out with [v] => if (Rtrunc v <? 0)%Z then Raise ValueError else Ok (linspace (lmin dx) (lmax dx) (Z.to_nat (Rtrunc v))) | _ => Ok x_out end) = Ok (outs dx x_out)) as ->.
  { destruct x_out as [|v [|v' l]]; try reflexivity. cbn [outs]. now rewrite T. }
  cbn [bind]. rewrite scott_eq by lia. rewrite cov_variance. reflexivity.
Qed.
Lemma scaled_normal w x0 v : 0 < w -> scaled_pdf w x0 v = normal x0 w v.
Proof. intros W. unfold scaled_pdf. now rewrite Rgtb_pos. Qed.
Lemma combine_map_r {A B} (f : A -> B) l : combine l (map f l) = map (fun a => (a, f a)) l.
Proof. induction l as [|a l IH]; [reflexivity|]. cbn [map combine]. now rewrite IH. Qed.
Lemma weighted_mean_ext w w' x y : (forall v, w v = w' v) -> weighted_mean w x y = weighted_mean w' x y.
Proof. intros E. unfold weighted_mean. rewrite (map_ext w w' E). f_equal. f_equal. apply map_ext. intros p. now rewrite E. Qed.
Lemma smooth_outs order argsort data x x_out y sigma sf dx dy : orders order -> (2 <= length data)%nat -> col data x = Some dx ->
  Forall2 (fun j c => col data j = Some c) y dy -> y <> [] -> usable x_out -> 0 < asked_width dx sigma sf ->
  smooth order argsort data x x_out y sigma sf = Ok (map (fun x0 => (x0, map (weighted_mean (normal x0 (asked_width dx sigma sf)) dx) dy)) (outs dx x_out)).
Proof.
  intros O L X Y NY U W. rewrite (smooth_shape order argsort data x x_out y sigma sf dx dy L X Y U). pose proof (col_length _ _ _ X) as LX.
  assert (D : dx <> []) by (intros ->; cbn in LX; lia). destruct (outs_positions dx x_out D U) as (_ & N & _).
  pose proof (columns_rect _ _ _ Y) as Rt. rewrite <- LX in Rt.
  set (w := asked_width dx sigma sf) in *. clearbody w. destruct dy as [|c dy]; [inversion Y; congruence|]. rewrite filter_mean; auto.
  - cbn [bind]. f_equal. rewrite combine_map_r. apply map_ext. intros x0. f_equal. apply map_ext. intros e. apply weighted_mean_ext. intros v. now apply scaled_normal.
  - intros a b. unfold scaled_pdf. rewrite Rgtb_pos by exact W. left. now apply norm_pdf_pos.
  - apply Forall_forall. intros x0 _. destruct dx as [|d dx]; [congruence|]. left. unfold scaled_pdf. rewrite Rgtb_pos by exact W. now apply norm_pdf_pos.
Qed.
Lemma smooth_values order argsort data x x_out y sigma sf dx dy : orders order -> (2 <= length data)%nat -> col data x = Some dx ->
  Forall2 (fun j c => col data j = Some c) y dy -> y <> [] -> usable x_out -> 0 < asked_width dx sigma sf ->
  exists xo, positions dx x_out xo /\
  smooth order argsort data x x_out y sigma sf = Ok (map (fun x0 => (x0, map (weighted_mean (normal x0 (asked_width dx sigma sf)) dx) dy)) xo).
Proof.
  intros O L X Y NY U W. exists (outs dx x_out). pose proof (col_length _ _ _ X) as LX. split; [|now apply smooth_outs].
  apply outs_positions; [|exact U]. intros ->. cbn in LX. lia.
Qed.
Lemma normal_pos m w t : 0 < w -> 0 < normal m w t.
Proof. intros W. apply (norm_pdf_pos w m t W). Qed.
Lemma smooth_range order argsort data x x_out y sigma sf dx dy l : orders order -> (2 <= length data)%nat -> col data x = Some dx ->
  Forall2 (fun j c => col data j = Some c) y dy -> y <> [] -> usable x_out -> 0 < asked_width dx sigma sf ->
  smooth order argsort data x x_out y sigma sf = Ok l ->
  Forall (fun p => Forall2 (fun c v => forall lo hi, Forall (fun t => lo <= t <= hi) c -> lo <= v <= hi) dy (snd p)) l.
Proof.
  intros O L X Y NY U W E. rewrite (smooth_outs order argsort data x x_out y sigma sf dx dy) in E by assumption. injection E as <-.
  pose proof (columns_rect _ _ _ Y) as Rt. pose proof (col_length _ _ _ X) as LX. rewrite <- LX in Rt.
  apply Forall_forall. intros p P. apply in_map_iff in P. destruct P as (x0 & <- & _). cbn [snd]. clear Y. induction Rt as [|c dy Lc _ IH]; cbn [map]; constructor; [|exact IH].
  intros lo hi F. apply weighted_mean_range; auto.
  - intros v. left. now apply normal_pos.
  - destruct dx as [|d dx]; [cbn in LX; lia|]. left. now apply normal_pos.
Qed.
(** units *)
Lemma sum_scale k l : fold_right Rplus 0 (map (Rmult k) l) = k * fold_right Rplus 0 l.
Proof. induction l as [|a l IH]; cbn [map fold_right]; [ring|]. rewrite IH. ring. Qed.
Lemma variance_scale k l : variance (map (Rmult k) l) = k ^ 2 * variance l.
Proof.
  unfold variance. rewrite map_length, sum_scale, map_map. set (m := fold_right Rplus 0 l). set (n := INR (length l)).
  rewrite (map_ext (fun v => (k * v - k * m / n) ^ 2) (fun v => k ^ 2 * ((v - m / n) ^ 2))) by (intros v; unfold Rdiv; ring).
  rewrite <- (map_map (fun v => (v - m / n) ^ 2) (Rmult (k ^ 2))), sum_scale. unfold Rdiv. ring.
Qed.
Lemma scott_scale k l : 0 < k -> scott (map (Rmult k) l) = k * scott l.
Proof.
  intros K. unfold scott. rewrite variance_scale, map_length, sqrt_mult_alt by (apply pow2_ge_0). rewrite sqrt_pow2 by lra. ring.
Qed.
Lemma asked_scale k dx sigma sf : 0 < k -> asked_width (map (Rmult k) dx) (option_map (Rmult k) sigma) sf = k * asked_width dx sigma sf.
Proof. intros K. unfold asked_width. destruct sigma; cbn [option_map]; [ring|]. rewrite scott_scale by exact K. ring. Qed.
Lemma normal_scale k m w t : 0 < k -> 0 < w -> normal (k * m) (k * w) (k * t) = / k * normal m w t.
Proof.
  intros K W. unfold normal. replace ((k * t - k * m) / (k * w)) with ((t - m) / w) by (field; lra).
  assert (0 < sqrt (2 * PI)) by (apply sqrt_lt_R0; pose proof PI_RGT_0; lra). field. repeat split; lra.
Qed.
Lemma weighted_mean_scale k m w dx c : 0 < k -> 0 < w -> dx <> [] -> weighted_mean (normal (k * m) (k * w)) (map (Rmult k) dx) c = weighted_mean (normal m w) dx c.
Proof.
  intros K W D. unfold weighted_mean. rewrite map_map. rewrite (map_ext (fun v => normal (k * m) (k * w) (k * v)) (fun v => / k * normal m w v)) by (intros v; now apply normal_scale).
  rewrite <- (map_map (normal m w) (Rmult (/ k))), sum_scale.
  assert (map (fun p => normal (k * m) (k * w) (fst p) * snd p) (combine (map (Rmult k) dx) c) = map (Rmult (/ k)) (map (fun p => normal m w (fst p) * snd p) (combine dx c))) as ->.
  { clear D. revert c. induction dx as [|d dx IH]; intros [|e c]; try reflexivity. cbn [map combine fst snd]. rewrite IH, normal_scale by assumption. f_equal. ring. }
  rewrite sum_scale. assert (0 < fold_right Rplus 0 (map (normal m w) dx)). { apply sum_pos; [intros v; left; now apply normal_pos|]. destruct dx; [congruence|]. left. now apply normal_pos. }
  field. lra.
Qed.
Lemma lmin_scale k l : 0 < k -> lmin (map (Rmult k) l) = k * lmin l.
Proof.
  intros K. unfold lmin. assert (hd 0 (map (Rmult k) l) = k * hd 0 l) as -> by (destruct l; cbn; ring). generalize (hd 0 l). intros a. induction l as [|b l IH]; [reflexivity|].
  cbn [map fold_right]. rewrite IH. set (m := fold_right Rmin a l). unfold Rmin. destruct (Rle_dec b m) as [A|A], (Rle_dec (k * b) (k * m)) as [B|B]; try reflexivity; exfalso.
  - apply B. apply Rmult_le_compat_l; lra.
  - apply A. apply Rmult_le_reg_l with k; assumption.
Qed.
Lemma lmax_scale k l : 0 < k -> lmax (map (Rmult k) l) = k * lmax l.
Proof.
  intros K. unfold lmax. assert (hd 0 (map (Rmult k) l) = k * hd 0 l) as -> by (destruct l; cbn; ring). generalize (hd 0 l). intros a. induction l as [|b l IH]; [reflexivity|].
  cbn [map fold_right]. rewrite IH. set (m := fold_right Rmax a l). unfold Rmax. destruct (Rle_dec b m) as [A|A], (Rle_dec (k * b) (k * m)) as [B|B]; try reflexivity; exfalso.
  - apply B. apply Rmult_le_compat_l; lra.
  - apply A. apply Rmult_le_reg_l with k; assumption.
Qed.
Lemma outs_scale k dx x_out : 0 < k -> outs (map (Rmult k) dx) (x_out_units k x_out) = map (Rmult k) (outs dx x_out).
Proof.
  intros K. destruct x_out as [|v [|v' l]]; try reflexivity. cbn [x_out_units outs]. rewrite lmin_scale, lmax_scale by exact K. unfold linspace. rewrite map_map. apply map_ext.
  intros i. destruct (_ =? 1)%nat; unfold Rdiv; ring.
Qed.
Lemma smooth_units order argsort k data data' x x_out y sigma sf dx : orders order -> 0 < k -> (2 <= length data)%nat -> length data' = length data ->
  col data x = Some dx -> other_units k x y data data' -> Forall (fun j => exists c, col data j = Some c) y -> y <> [] -> usable x_out -> 0 < asked_width dx sigma sf ->
  exists l, smooth order argsort data x x_out y sigma sf = Ok l /\
    smooth order argsort data' x (x_out_units k x_out) y (option_map (Rmult k) sigma) sf = Ok (map (fun p => (k * fst p, snd p)) l).
Proof.
  intros O K L L' X (dx' & X1 & X2 & Y2) Y NY U W. rewrite X in X1. injection X1 as <-.
  assert (exists dy, Forall2 (fun j c => col data j = Some c) y dy) as (dy & Y1).
  { clear -Y. induction Y as [|j y (c & C) _ (dy & IH)]; [exists []; constructor|]. exists (c :: dy). now constructor. }
  assert (Y3 : Forall2 (fun j c => col data' j = Some c) y dy).
  { clear -Y1 Y2. induction Y1 as [|j c y dy C _ IH]; [constructor|]. inversion Y2; subst. constructor; [congruence|auto]. }
  eexists. split; [now apply (smooth_outs order argsort data x x_out y sigma sf dx dy)|].
  assert (asked_width (map (Rmult k) dx) (option_map (Rmult k) sigma) sf = k * asked_width dx sigma sf) as AW by (now apply asked_scale).
  rewrite (smooth_outs order argsort data' x (x_out_units k x_out) y (option_map (Rmult k) sigma) sf (map (Rmult k) dx) dy); try assumption.
  - f_equal. rewrite outs_scale by exact K. rewrite !map_map. apply map_ext. intros x0. cbn [fst snd]. f_equal. apply map_ext. intros c. rewrite AW. apply weighted_mean_scale; try assumption.
    intros ->. apply col_length in X. cbn in X. lia.
  - lia.
  - destruct x_out as [|v [|v' l]]; exact U.
  - rewrite AW. now apply Rmult_lt_0_compat.
Qed.
(** no width *)
Lemma smooth_zero order argsort data x x_out j sigma sf dx c : orders order -> (2 <= length data)%nat -> col data x = Some dx -> col data j = Some c -> usable x_out -> asked_width dx sigma sf <= 0 ->
  exists xo l, positions dx x_out xo /\ smooth order argsort data x x_out [j] sigma sf = Ok (combine xo (map (fun v => [v]) l)) /\ Forall2 (interpolated dx c) xo l.
Proof.
  intros O L X J U W. pose proof (col_length _ _ _ X) as LX. pose proof (col_length _ _ _ J) as LJ. assert (D : dx <> []) by (intros ->; cbn in LX; lia).
  destruct (outs_positions dx x_out D U) as (P & N & _). exists (outs dx x_out).
  destruct (filter_zero order argsort (scaled_pdf (asked_width dx sigma sf)) dx c (outs dx x_out) O D N ltac:(lia)) as (l & E & F).
  { apply Forall_forall. intros x0 _. apply Forall_forall. intros v _. unfold scaled_pdf. now rewrite (proj2 (Rltb_false 0 (asked_width dx sigma sf)) W : Rgtb _ 0 = false). }
  exists l. split; [exact P|]. split; [|exact F]. rewrite (smooth_shape order argsort data x x_out [j] sigma sf dx [c] L X) by (auto; repeat constructor; assumption). now rewrite E.
Qed.
Lemma smooth_zero_columns order argsort data x x_out y sigma sf dx dy : orders order -> (2 <= length data)%nat -> col data x = Some dx -> Forall2 (fun j c => col data j = Some c) y dy -> (2 <= length y)%nat ->
  (2 <= length x_out)%nat -> asked_width dx sigma sf <= 0 -> Exists (fun v => v < hd 0 x_out) dx -> Exists (fun v => hd 0 x_out <= v) dx ->
  smooth order argsort data x x_out y sigma sf = Raise (OtherError 0).
Proof.
  intros O L X Y NY U W E1 E2. destruct x_out as [|x0 [|x1 xr]]; cbn [length] in U; try lia. cbn [hd] in *.
  rewrite (smooth_shape order argsort data x (x0 :: x1 :: xr) y sigma sf dx dy L X Y I). pose proof (col_length _ _ _ X) as LX. pose proof (columns_rect _ _ _ Y) as Rt. rewrite <- LX in Rt.
  assert (length dy = length y) as LY by (clear -Y; induction Y; cbn; lia). destruct dy as [|c dy]; [cbn in LY; lia|]. cbn [outs].
  rewrite filter_rows_shape by (try reflexivity; discriminate). cbn [map all_ok].
  destruct (rows_x_gap order argsort (scaled_pdf (asked_width dx sigma sf)) AMean dx (c :: dy) x0 O Rt) as (i & _ & _ & E).
  { split; [|auto]. apply Forall_forall. intros v _. unfold scaled_pdf. now rewrite (proj2 (Rltb_false 0 (asked_width dx sigma sf)) W : Rgtb _ 0 = false). }
  cbn [map] in E. rewrite E. assert ((length (c :: dy) =? 1)%nat = false) as -> by (apply Nat.eqb_neq; lia). reflexivity.
Qed.
(** densities *)
Lemma normal_sym m w t : normal m w t = normal t w m.
Proof. unfold normal. replace ((m - t) / w * ((m - t) / w)) with ((t - m) / w * ((t - m) / w)) by (unfold Rdiv; ring). reflexivity. Qed.
Lemma smooth_kde order argsort data x x_out sigma sf dx : (2 <= length data)%nat -> col data x = Some dx -> usable x_out -> 0 < asked_width dx sigma sf -> 0 < variance dx ->
  exists xo, positions dx x_out xo /\
  smooth order argsort data x x_out [] sigma sf = Ok (map (fun x0 => (x0, [density_estimate dx (asked_width dx sigma sf * sqrt (variance dx)) x0])) xo).
Proof.
  intros L X U W V. pose proof (col_length _ _ _ X) as LX. assert (D : dx <> []) by (intros ->; cbn in LX; lia).
  destruct (outs_positions dx x_out D U) as (P & N & _). exists (outs dx x_out). split; [exact P|].
  rewrite (smooth_shape order argsort data x x_out [] sigma sf dx [] L X (Forall2_nil _) U). set (w := asked_width dx sigma sf) in *. clearbody w.
  assert (Reqb (w * w * variance dx) 0 = false) as ->. { apply Reqb_false. assert (0 < w * w * variance dx) by (apply Rmult_lt_0_compat; [apply Rmult_lt_0_compat|]; assumption). lra. }
  cbn [bind]. rewrite combine_map_r. f_equal. apply map_ext. intros x0. f_equal. f_equal. unfold kde, density_estimate. rewrite cov_variance, Rabs_right by lra. f_equal. f_equal.
  apply map_ext. intros v. apply normal_sym.
Qed.
