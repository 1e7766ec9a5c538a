(** Lemmas about operations along each axis of an array. *)
From Coq Require Import Lra Lia FunctionalExtensionality.
From Verif Require Import Base L_Base M_Translate M_Mapper M_Data S_Data M_Ndimage L_Ndimage M_Resample S_Resamplend.
Local Open Scope R_scope.

Fixpoint nest (Fs : list ((Z -> R) -> Z -> R)) (f : list Z -> R) (idx : list Z) : R :=
  match Fs, idx with
  | F :: Fs, j :: idx => nest Fs (fun l => F (fun k => f (k :: l)) j) idx
  | _, _ => f idx
  end.
Definition zip2 {A B C} (f : A -> B -> C) (a : list A) (b : list B) : list C := map (fun p => f (fst p) (snd p)) (combine a b).

Lemma set_nth_app (p : list Z) k j x : M_Data.set_nth (length p) k (p ++ j :: x) = p ++ k :: x.
Proof. induction p as [|a p IH]; [reflexivity|]. cbn. now rewrite IH. Qed.
Lemma nth_mid (p : list Z) j x : nth (length p) (p ++ j :: x) 0%Z = j.
Proof. now rewrite app_nth2, Nat.sub_diag by lia. Qed.

Section Axes.
Context {A : Type} (len : A -> Z -> Z) (fa : A -> Z -> (Z -> R) -> Z -> R) (op : A -> nat -> ndarray R -> ndarray R).
Hypothesis Op : forall a, op a = along_axis (len a) (fa a).

Lemma each_from (l : list A) : forall pre sh at_, length sh = length l ->
  let r := fold_left (fun ar p => op (snd p) (fst p) ar) (combine (seq (length pre) (length l)) l) (ND (pre ++ sh) at_) in
  nd_shape r = pre ++ zip2 len l sh /\
  forall ip idx, length ip = length pre -> length idx = length l -> nd_at r (ip ++ idx) = nest (zip2 fa l sh) (fun x => at_ (ip ++ x)) idx.
Proof.
  induction l as [|a l IH]; intros pre sh at_ L; destruct sh as [|n sh]; try discriminate L.
  { cbn. split; [reflexivity|]. now intros ip [|]. }
  cbn [length] in L. apply Nat.succ_inj in L. cbv zeta. cbn [length seq combine fold_left fst snd].
  rewrite Op. unfold along_axis. cbn [nd_shape nd_at]. rewrite nth_mid, set_nth_app.
  specialize (IH (pre ++ [len a n]) sh). rewrite app_length in IH. cbn [length] in IH. rewrite Nat.add_1_r in IH.
  match goal with |- context[ND _ ?g] => specialize (IH g L) end. cbv zeta in IH. destruct IH as [IS IV].
  rewrite <- app_assoc in IS, IV. cbn [app] in IS, IV. split.
  - rewrite IS. now rewrite <- app_assoc.
  - intros ip idx P I. destruct idx as [|j idx]; [discriminate I|]. cbn [length] in I. apply Nat.succ_inj in I.
    specialize (IV (ip ++ [j]) idx). rewrite <- app_assoc in IV. cbn [app] in IV. rewrite IV by (rewrite ?app_length; cbn; lia).
    change (zip2 fa (a :: l) (n :: sh)) with (fa a n :: zip2 fa l sh). cbn [nest]. f_equal.
    apply functional_extensionality. intros x. rewrite <- app_assoc. cbn [app]. rewrite <- P, nth_mid.
    f_equal. apply functional_extensionality. intros k. now rewrite set_nth_app.
Qed.
Lemma each_nest (l : list A) ar : length (nd_shape ar) = length l ->
  let r := each_axis op l ar in
  nd_shape r = zip2 len l (nd_shape ar) /\ forall idx, length idx = length l -> nd_at r idx = nest (zip2 fa l (nd_shape ar)) (nd_at ar) idx.
Proof.
  destruct ar as [sh at_]. cbn [nd_shape nd_at]. intros L. destruct (each_from l [] sh at_ L) as [S V]. cbn [app length] in S, V. split; [exact S|].
  intros idx I. apply (V []); [reflexivity|exact I].
Qed.
End Axes.

(** ** sums *)
Lemma total_ext sh : forall f g, (forall idx, index_of sh idx -> f idx = g idx) -> total sh f = total sh g.
Proof.
  induction sh as [|n sh IH]; intros f g H; [apply H; constructor|]. cbn [total]. rewrite !zsum_nsum. apply nsum_ext. intros k K. apply IH. intros idx I.
  apply H. constructor; [lia|exact I].
Qed.
Lemma total_scal sh c : forall f, total sh (fun idx => c * f idx) = c * total sh f.
Proof.
  induction sh as [|n sh IH]; intros f; [reflexivity|]. cbn [total]. rewrite !zsum_nsum. rewrite <- nsum_scal. apply nsum_ext. intros k _. apply IH.
Qed.
Lemma total_zsum n sh : forall f, total sh (fun idx => zsum n (fun i => f i idx)) = zsum n (fun i => total sh (f i)).
Proof.
  induction sh as [|m sh IH]; intros f; [reflexivity|]. cbn [total].
  rewrite zsum_nsum, zsum_nsum. rewrite (nsum_ext _ _ (fun i => nsum (Z.to_nat n) (fun k => total sh (fun idx => f k (i :: idx))))).
  2:{ intros k _. rewrite (IH (fun i idx => f i (k :: idx))). now rewrite zsum_nsum. }
  rewrite nsum_swap. apply nsum_ext. intros k _. now rewrite zsum_nsum.
Qed.

(** ** operations that keep sums and ranges along their axis *)
Lemma nest_ext Fs : forall sh f g idx, length Fs = length sh ->
  Forall2 (fun F n => forall u v j, (forall k, (0 <= k < n)%Z -> u k = v k) -> F u j = F v j) Fs sh ->
  (forall x, index_of sh x -> f x = g x) -> length idx = length sh -> nest Fs f idx = nest Fs g idx.
Proof.
  induction Fs as [|F Fs IH]; intros sh f g idx L E H I; destruct sh as [|n sh]; try discriminate L.
  - destruct idx; [|discriminate I]. apply H. constructor.
  - destruct idx as [|j idx]; [discriminate I|]. inversion E as [|? ? ? ? E1 E2]; subst. cbn [nest]. apply (IH sh); auto.
    intros x X. apply E1. intros k K. apply H. constructor; [lia|exact X].
Qed.
Lemma nest_between lo hi Fs : forall sh f idx, length Fs = length sh ->
  Forall2 (fun F n => forall u j, (forall k, (0 <= k < n)%Z -> lo <= u k <= hi) -> (0 <= j < n)%Z -> lo <= F u j <= hi) Fs sh ->
  (forall x, index_of sh x -> lo <= f x <= hi) -> index_of sh idx -> lo <= nest Fs f idx <= hi.
Proof.
  induction Fs as [|F Fs IH]; intros sh f idx L E H I; destruct sh as [|n sh]; try discriminate L.
  - inversion I; subst. apply H. constructor.
  - inversion I as [|? j ? idx' I1 I2]; subst. inversion E as [|? ? ? ? E1 E2]; subst. cbn [nest]. apply (IH sh); auto.
    intros x X. apply E1; [|exact I1]. intros k K. apply H. constructor; assumption.
Qed.
Lemma nest_sum Fs : forall sh f, length Fs = length sh -> Forall2 (fun F n => forall u, zsum n (F u) = zsum n u) Fs sh ->
  total sh (nest Fs f) = total sh f.
Proof.
  induction Fs as [|F Fs IH]; intros sh f L E; destruct sh as [|n sh]; try discriminate L; [reflexivity|].
  inversion E as [|? ? ? ? E1 E2]; subst. cbn [total nest]. cbn [length] in L. apply Nat.succ_inj in L.
  rewrite zsum_nsum. rewrite (nsum_ext _ _ (fun i => total sh (fun l => F (fun k => f (k :: l)) i))) by (intros i _; apply IH; assumption).
  rewrite <- zsum_nsum. rewrite <- (total_zsum n sh (fun i l => F (fun k => f (k :: l)) i)).
  rewrite (total_ext sh _ (fun l => zsum n (fun k => f (k :: l)))) by (intros l _; apply E1). apply total_zsum.
Qed.
