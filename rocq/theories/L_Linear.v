(** The smoothing filter is linear. *)
From Coq Require Import Lra Lia ZArith Sorting.Permutation Sorting.Sorted.
From Verif Require Import Base L_Base M_Mapper M_Data S_Data L_Data L_Data2 L_Ties L_Dark L_Affine S_Linear.
Import ListNotations.
Local Open Scope R_scope.

Section Linear.
Context (a c : R).
Notation Y := (map first_row). Notation Z' := (map second_row). Notation W := (map (mixed_row a c)).
Definition lin (u v : option R) : option R := match u, v with Some x, Some y => Some (a * x + c * y) | _, _ => None end.
Lemma fst_rows S : map fst (W S) = map fst (Y S) /\ map fst (Z' S) = map fst (Y S).
Proof. rewrite !map_map. split; reflexivity. Qed.
Lemma average_lin (S : list (R * (R * R))) g : average (combine (map g S) (map snd (W S))) = a * average (combine (map g S) (map snd (Y S))) + c * average (combine (map g S) (map snd (Z' S))).
Proof.
  unfold average. rewrite !map_map. cbn [mixed_row first_row second_row snd].
  assert (F : forall h : R * (R * R) -> R, map fst (combine (map g S) (map h S)) = map g S) by (intros h; induction S as [|d S IH]; cbn [map combine fst]; [reflexivity|now rewrite IH]).
  rewrite !F. set (t := fold_right Rplus 0 (map g S)). clearbody t.
  assert (E : fold_right Rplus 0 (map (fun p => fst p * snd p) (combine (map g S) (map (fun x => a * fst (snd x) + c * snd (snd x)) S))) =
    a * fold_right Rplus 0 (map (fun p => fst p * snd p) (combine (map g S) (map (fun x => fst (snd x)) S))) + c * fold_right Rplus 0 (map (fun p => fst p * snd p) (combine (map g S) (map (fun x => snd (snd x)) S)))).
  { clear F. induction S as [|d S IH]; cbn [map combine fold_right fst snd]; [ring|]. rewrite IH. ring. }
  rewrite E. unfold Rdiv. ring.
Qed.
Lemma py_lin S i : py_get (map snd (W S)) i = lin (py_get (map snd (Y S)) i) (py_get (map snd (Z' S)) i).
Proof.
  rewrite !map_map. cbn [mixed_row first_row second_row snd]. unfold py_get. rewrite !map_length. destruct (np_index _ i); [|reflexivity]. rewrite !nth_error_map. destruct (nth_error S (Z.to_nat z)); reflexivity.
Qed.
Lemma py_both S i : (py_get (map snd (Y S)) i = None <-> py_get (map snd (Z' S)) i = None) /\ (py_get (map snd (Y S)) i = None <-> py_get (map fst (Y S)) i = None).
Proof.
  rewrite !map_map. unfold py_get. rewrite !map_length. destruct (np_index _ i); [|tauto]. rewrite !nth_error_map. destruct (nth_error S (Z.to_nat z)); cbn [option_map]; split; split; (discriminate || reflexivity).
Qed.
Lemma x_lin pdf x0 S : nugf_x pdf x0 (W S) = lin (nugf_x pdf x0 (Y S)) (nugf_x pdf x0 (Z' S)).
Proof.
  unfold nugf_x. destruct (fst_rows S) as [E1 E2]. rewrite E1, E2. rewrite !map_length.
  assert (V : forall f : R * (R * R) -> R * R, (forall d, fst (f d) = fst d) -> map (fun p => pdf x0 (fst p)) (map f S) = map (fun d => pdf x0 (fst d)) S) by (intros f F; rewrite map_map; apply map_ext; intros d; now rewrite F).
  rewrite !V by reflexivity. destruct (Rgtb _ 0); [cbn [lin]; f_equal; apply average_lin|].
  set (mui := searchsorted_left _ x0). destruct (mui =? _)%Z; [apply py_lin|]. destruct (mui =? 0)%Z; [apply py_lin|].
  rewrite !py_lin. destruct (py_both S mui) as [A1 A2]. destruct (py_both S (mui - 1)) as [B1 B2].
  destruct (py_get (map snd (Y S)) mui) as [y1|] eqn:P1, (py_get (map snd (Z' S)) mui) as [z1|] eqn:P2, (py_get (map snd (Y S)) (mui - 1)) as [y0|] eqn:P3, (py_get (map snd (Z' S)) (mui - 1)) as [z0|] eqn:P4; cbn [lin]; try reflexivity;
  destruct (py_get (map fst (Y S)) mui) as [x1|], (py_get (map fst (Y S)) (mui - 1)) as [xm|]; cbn [lin]; try reflexivity.
  f_equal. unfold average. cbn [map fold_right fst snd]. unfold Rdiv. ring.
Qed.
Lemma window_map {A B} (f : A -> B) bw i l : bw_window bw i (map f l) = map f (bw_window bw i l).
Proof. unfold bw_window. rewrite map_length. cbv zeta. rewrite <- firstn_map. f_equal. rewrite skipn_map. reflexivity. Qed.
Lemma at_lin pdf bw S x0 : nugf_at pdf bw (W S) x0 = lin (nugf_at pdf bw (Y S) x0) (nugf_at pdf bw (Z' S) x0).
Proof. unfold nugf_at. destruct (fst_rows S) as [E1 E2]. rewrite E1, E2. destruct bw; rewrite ?window_map; apply x_lin. Qed.
Lemma self_lin pdf bw S i : nugf_self pdf bw (W S) i = lin (nugf_self pdf bw (Y S) i) (nugf_self pdf bw (Z' S) i).
Proof.
  unfold nugf_self. destruct (fst_rows S) as [E1 E2]. rewrite E1, E2. set (x0 := nth i _ 0).
  assert (V : forall f : R * (R * R) -> R * R, (forall d, fst (f d) = fst d) -> map (fun p => pdf x0 (fst p)) (map f S) = map (fun d => pdf x0 (fst d)) S) by (intros f F; rewrite map_map; apply map_ext; intros d; now rewrite F).
  rewrite !V by reflexivity. destruct bw; rewrite ?window_map; [apply x_lin|]. destruct (Rgtb _ 0); [apply x_lin|reflexivity].
Qed.
Lemma all_lin {A} (g h : A -> option R) l : all_some (map (fun i => lin (g i) (h i)) l) = mixed a c (all_some (map g l)) (all_some (map h l)).
Proof.
  induction l as [|i l IH]; [reflexivity|]. cbn [map all_some]. rewrite IH. destruct (g i), (h i); cbn [lin mixed]; try reflexivity; destruct (all_some (map g l)), (all_some (map h l)); cbn [mixed]; reflexivity.
Qed.
Lemma along_lin {A} (g h : A -> option R) l : along (map (fun i => lin (g i) (h i)) l) = mixed a c (along (map g l)) (along (map h l)).
Proof. destruct l as [|i l]; [reflexivity|]. unfold along. cbn [map]. apply (all_lin g h (i :: l)). Qed.
Lemma sort_rows argsort S : by_places argsort -> exists T, argsort (Y S) = Y T /\ argsort (Z' S) = Z' T /\ argsort (W S) = W T.
Proof.
  intros (pl & _ & P). destruct (fst_rows S) as [E1 E2]. exists (map (fun k => nth k S (0, (0, 0))) (pl (map fst (Y S)))). rewrite !P, E1, E2, !map_map. repeat split; apply map_ext; intros k.
  - exact (map_nth first_row S (0, (0, 0)) k).
  - exact (map_nth second_row S (0, (0, 0)) k).
  - rewrite <- (map_nth (mixed_row a c)). f_equal. unfold mixed_row. cbn [fst snd]. f_equal. ring.
Qed.
Lemma filter_linear argsort unsort pdf bw S xr : by_places argsort ->
  non_uniform_gaussian_filter argsort unsort pdf bw (W S) xr =
  mixed a c (non_uniform_gaussian_filter argsort unsort pdf bw (Y S) xr) (non_uniform_gaussian_filter argsort unsort pdf bw (Z' S) xr).
Proof.
  intros P. unfold non_uniform_gaussian_filter, nugf_rows. destruct (fst_rows S) as [E1 E2]. rewrite E1, E2. rewrite Bool.andb_false_r. cbv zeta.
  assert (H : exists T, (if ascending (map fst (Y S)) then Y S else argsort (Y S)) = Y T /\ (if ascending (map fst (Y S)) then Z' S else argsort (Z' S)) = Z' T /\ (if ascending (map fst (Y S)) then W S else argsort (W S)) = W T).
  { destruct (ascending _); [now exists S|now apply sort_rows]. }
  destruct H as (T & -> & -> & ->). rewrite !map_length.
  destruct xr as [l|].
  - rewrite (map_ext _ (fun x0 => lin (nugf_at pdf bw (Y T) x0) (nugf_at pdf bw (Z' T) x0))) by (intros; apply at_lin). rewrite along_lin. destruct (along _), (along _); reflexivity.
  - rewrite (map_ext _ (fun i => lin (nugf_self pdf bw (Y T) i) (nugf_self pdf bw (Z' T) i))) by (intros; apply self_lin). rewrite along_lin. destruct (along _), (along _); reflexivity.
Qed.
End Linear.
Lemma places_exist : exists argsort, sorts argsort /\ by_places argsort.
Proof.
  destruct argsort_exists as (order & S & arg & P & A).
  exists (fun l => map (fun k => nth k l (0, 0)) (arg (map Ropp (map fst l)))). split.
  - intros l. assert (Q : Permutation (arg (map Ropp (map fst l))) (seq 0 (length l))) by (rewrite (P _), !map_length; reflexivity). split.
    + rewrite Q, as_positions. reflexivity.
    + destruct (S (fun k => - fst (nth k l (0, 0))) (seq 0 (length l))) as [_ O]. rewrite A in O.
      assert (E : map (fun k => - fst (nth k l (0, 0))) (seq 0 (length l)) = map Ropp (map fst l)).
      { transitivity (map Ropp (map fst (map (fun k => nth k l (0, 0)) (seq 0 (length l))))); [rewrite !map_map; reflexivity|now rewrite as_positions]. }
      rewrite E in O. 
      assert (I : map (fun k => nth k (seq 0 (length l)) 0%nat) (arg (map Ropp (map fst l))) = arg (map Ropp (map fst l))).
      { rewrite <- (map_id (arg _)) at 2. apply map_ext_in. intros k K. apply (Permutation_in _ Q) in K. apply in_seq in K. rewrite seq_nth; lia. }
      rewrite I in O. clear - O. induction O as [|k ks O IH F]; cbn [map]; constructor; auto. rewrite Forall_forall in *. intros y Yy. apply in_map_iff in Yy. destruct Yy as (j & <- & J). specialize (F j J). lra.
  - exists (fun xs => arg (map Ropp xs)). split; [|reflexivity]. intros xs. rewrite (P _), map_length. reflexivity.
Qed.
Lemma linear_example argsort unsort : non_uniform_gaussian_filter argsort unsort (fun _ _ => 1) None (map first_row [(0, (1, 5)); (1, (3, 7))]) (Some [0]) = Some [2].
Proof.
  unfold non_uniform_gaussian_filter, nugf_rows. cbn [map first_row fst snd ascending]. rewrite (proj2 (Rleb_true 0 1)) by lra. cbn [andb negb along map nugf_at all_some].
  unfold nugf_x. cbn [map fst snd fold_right combine]. unfold Rgtb. rewrite (proj2 (Rltb_true 0 (1 + (1 + 0)))) by lra. unfold average. cbn. do 2 f_equal. lra.
Qed.
