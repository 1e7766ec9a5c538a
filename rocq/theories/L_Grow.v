From Coq Require Import Lra Lia Classical FinFun.
From Verif Require Import Base L_Base M_Translate M_Mapper M_Header M_Initimg S_Mapper S_Rotate S_Initimg L_Mapper L_Rotate L_Transform L_Draw.
Import ListNotations.
Local Open Scope R_scope.

Lemma reflect_in n k : (0 <= k < n)%Z -> reflect n k = k.
Proof.
  intros H. unfold reflect. rewrite Z.mod_small by lia. destruct (Z.ltb_spec k n); lia.
Qed.
Lemma reflect_low n k : (- n <= k < 0)%Z -> reflect n k = (-1 - k)%Z.
Proof.
  intros H. unfold reflect. replace (k mod (2 * n))%Z with (k + 2 * n)%Z.
  - destruct (Z.ltb_spec (k + 2 * n) n); lia.
  - apply Z.mod_unique with (-1)%Z; lia.
Qed.
Lemma reflect_high n k : (n <= k < 2 * n)%Z -> reflect n k = (2 * n - 1 - k)%Z.
Proof.
  intros H. unfold reflect. rewrite Z.mod_small by lia. destruct (Z.ltb_spec k n); lia.
Qed.
(** the pixels a window reaches *)
Lemma reflect_cases g n x t : (0 < n)%Z -> (0 <= g <= n)%Z -> (0 <= x < n)%Z -> (0 <= t < 2 * g + 1)%Z ->
  let k := (x + t - g)%Z in
  ((0 <= k < n)%Z /\ reflect n k = k) \/ ((- n <= k < 0)%Z /\ reflect n k = (-1 - k)%Z) \/ ((n <= k < 2 * n)%Z /\ reflect n k = (2 * n - 1 - k)%Z).
Proof.
  intros N G X T k. destruct (Z_lt_ge_dec k 0) as [L|L]; [|destruct (Z_lt_ge_dec k n) as [M|M]].
  - right; left. assert (- n <= k < 0)%Z by lia. split; [assumption|now apply reflect_low].
  - left. split; [lia|apply reflect_in; lia].
  - right; right. assert (n <= k < 2 * n)%Z by (subst k; lia). split; [assumption|now apply reflect_high].
Qed.
Lemma reflect_near g n x t : (0 < n)%Z -> (0 <= g <= n)%Z -> (0 <= x < n)%Z -> (0 <= t < 2 * g + 1)%Z ->
  (0 <= reflect n (x + t - g) < n)%Z /\ (Z.abs (x - reflect n (x + t - g)) <= g)%Z.
Proof. intros N G X T. destruct (reflect_cases g n x t N G X T) as [[A ->]|[[A ->]|[A ->]]]; lia. Qed.

Lemma Rsumf_zero {A} (f : A -> R) l : (forall a, In a l -> f a = 0) -> Rsumf f l = 0.
Proof.
  unfold Rsumf. induction l as [|a l IH]; intros H; [reflexivity|]. cbn [map Rsum fold_right]. rewrite (H a) by now left.
  change (fold_right Rplus 0 (map f l)) with (Rsum (map f l)). rewrite IH by (intros; apply H; now right). ring.
Qed.
Lemma Rsumf_cons {A} (f : A -> R) a l : Rsumf f (a :: l) = f a + Rsumf f l.
Proof. reflexivity. Qed.
Lemma Rsumf_one {A} (f : A -> R) l a c : NoDup l -> In a l -> f a = c -> (forall b, In b l -> b <> a -> f b = 0) -> Rsumf f l = c.
Proof.
  intros N. induction N as [|b l Hb N IH]; intros I E Z; [easy|]. rewrite Rsumf_cons. destruct I as [->|I].
  - rewrite E, Rsumf_zero; [ring|]. intros x Hx. apply Z; [now right|]. intros ->. easy.
  - rewrite (Z b); [|now left|intros ->; easy]. rewrite IH; [ring|exact I|exact E|]. intros x Hx. apply Z. now right.
Qed.
Lemma Rsumf_ext' {A} (f g : A -> R) l : (forall a, In a l -> f a = g a) -> Rsumf f l = Rsumf g l.
Proof. intros H. unfold Rsumf. f_equal. now apply map_ext_in. Qed.
Lemma Rsumf_pos {A} (f : A -> R) l a : (forall b, In b l -> 0 <= f b) -> In a l -> 0 < f a -> 0 < Rsumf f l.
Proof.
  intros H I P. induction l as [|b l IH]; [easy|]. rewrite Rsumf_cons. assert (0 <= Rsumf f l).
  { clear -H. induction l as [|x l IH]; [apply Rle_refl|]. rewrite Rsumf_cons. assert (0 <= f x) by (apply H; right; now left).
    assert (0 <= Rsumf f l) by (apply IH; intros b' [->|K]; apply H; [now left|right; now right]). lra. }
  assert (0 <= f b) by (apply H; now left). destruct I as [->|I]; [lra|]. assert (0 < Rsumf f l) by (apply IH; [intros; apply H; now right|exact I]). lra.
Qed.
Lemma Rsumf_const {A} (k : R) (l : list A) : Rsumf (fun _ => k) l = INR (length l) * k.
Proof. induction l as [|a l IH]; [cbn; ring|]. rewrite Rsumf_cons, IH. cbn [length]. rewrite S_INR. ring. Qed.
Lemma zrange_nodup n : NoDup (zrange n).
Proof. unfold zrange. apply FinFun.Injective_map_NoDup; [intros a b; apply Nat2Z.inj|apply seq_NoDup]. Qed.

(** the filtered value: the sum over the window *)
Definition window_sum (g : Z) (im : image R) (x y : Z) : R :=
  Rsumf (fun t => Rsumf (fun u => im_px im (reflect (im_nx im) (x + u - g)) (reflect (im_ny im) (y + t - g))) (zrange (2 * g + 1))) (zrange (2 * g + 1)).
Lemma Rsumf_scale {A} (f : A -> R) k l : Rsumf (fun a => f a * k) l = Rsumf f l * k.
Proof. induction l as [|a l IH]; [cbn; ring|]. rewrite !Rsumf_cons, IH. ring. Qed.
Lemma grow_px g im x y : (0 < g)%Z -> im_px (grow_image g im) x y = window_sum g im x y.
Proof.
  intros G. unfold grow_image. destruct (Z.ltb_spec 0 g); [|lia]. unfold uniform_filter, uniform1, window_sum. cbn [im_px im_nx im_ny].
  set (r := IZR (2 * g + 1)). assert (R0 : r <> 0) by (unfold r; apply not_0_IZR; lia).
  rewrite (Rsumf_ext' _ (fun t => Rsumf (fun u => im_px im (reflect (im_nx im) (x + u - g)) (reflect (im_ny im) (y + t - g))) (zrange (2 * g + 1)) * r)).
  2:{ intros t _. rewrite Rsumf_scale. field. exact R0. }
  rewrite Rsumf_scale. field. exact R0.
Qed.
Lemma grow_size g im : im_nx (grow_image g im) = im_nx im /\ im_ny (grow_image g im) = im_ny im.
Proof. unfold grow_image. destruct (0 <? g)%Z; split; reflexivity. Qed.

Section Grow.
Variables (im im' : image R) (c : R) (P : Z * Z -> Prop) (g : Z).
Hypothesis blank : constant im 0.
Hypothesis paint : paints im im' c P.
Hypothesis G : (0 < g)%Z.
Hypothesis Gx : (g <= im_nx im)%Z.
Hypothesis Gy : (g <= im_ny im)%Z.
Lemma sizes : im_nx im' = im_nx im /\ im_ny im' = im_ny im.
Proof. destruct paint as (A & B & _). easy. Qed.
Lemma cell_range x y t u : in_image im (x, y) -> In t (zrange (2 * g + 1)) -> In u (zrange (2 * g + 1)) ->
  let q := (reflect (im_nx im) (x + u - g), reflect (im_ny im) (y + t - g)) in in_image im q /\ near g (x, y) q.
Proof.
  intros [X Y] T U q. cbn [fst snd] in X, Y. apply in_zrange in T. apply in_zrange in U.
  destruct (reflect_near g (im_nx im) x u ltac:(lia) ltac:(lia) X U) as [A B]. destruct (reflect_near g (im_ny im) y t ltac:(lia) ltac:(lia) Y T) as [C D].
  unfold in_image, near, q. cbn [fst snd]. lia.
Qed.
Lemma painted q : in_image im q -> (P q /\ im_px im' (fst q) (snd q) = c) \/ (~ P q /\ im_px im' (fst q) (snd q) = 0).
Proof.
  intros I. destruct paint as (_ & _ & H). destruct (H q) as [A B]. destruct (classic (P q)) as [K|K]; [left|right]; (split; [exact K|]); [auto|].
  rewrite B by exact K. apply blank. now rewrite <- surjective_pairing.
Qed.
(** away from the drawn pixels nothing appears *)
Lemma grow_blank x y : in_image im (x, y) -> (forall q, P q -> in_image im q -> ~ near g (x, y) q) -> im_px (grow_image g im') x y = 0.
Proof.
  intros I H. rewrite grow_px by exact G. unfold window_sum. destruct sizes as [-> ->]. apply Rsumf_zero. intros t T. apply Rsumf_zero. intros u U.
  destruct (cell_range x y t u I T U) as [J N]. destruct (painted _ J) as [[K _]|[_ E]]; [|exact E]. exfalso. exact (H _ K J N).
Qed.
(** near a drawn pixel there is something *)
Lemma grow_visible x y q : 0 < c -> in_image im (x, y) -> P q -> in_image im q -> near g (x, y) q -> 0 < im_px (grow_image g im') x y.
Proof.
  intros C I K J [N1 N2]. cbn [fst snd] in N1, N2. rewrite grow_px by exact G. unfold window_sum. destruct sizes as [-> ->].
  destruct q as [a b]. destruct J as [J1 J2]. cbn [fst snd] in *. assert (Pos : forall t u, In t (zrange (2 * g + 1)) -> In u (zrange (2 * g + 1)) ->
     0 <= im_px im' (reflect (im_nx im) (x + u - g)) (reflect (im_ny im) (y + t - g))).
  { intros t u T U. destruct (cell_range x y t u I T U) as [J N]. destruct (painted _ J) as [[_ E]|[_ E]]; cbn [fst snd] in E; rewrite E; lra. }
  assert (T0 : In (b - y + g)%Z (zrange (2 * g + 1))) by (apply in_zrange; lia). assert (U0 : In (a - x + g)%Z (zrange (2 * g + 1))) by (apply in_zrange; lia).
  apply Rsumf_pos with (b - y + g)%Z; [|exact T0|].
  - intros t T. assert (S : forall l, incl l (zrange (2 * g + 1)) -> 0 <= Rsumf (fun u => im_px im' (reflect (im_nx im) (x + u - g)) (reflect (im_ny im) (y + t - g))) l).
    { induction l as [|u l IH]; intros L; [apply Rle_refl|]. rewrite Rsumf_cons. assert (0 <= im_px im' (reflect (im_nx im) (x + u - g)) (reflect (im_ny im) (y + t - g))) by (apply Pos; [exact T|apply L; now left]).
      assert (forall z, In z l -> In z (zrange (2 * g + 1))) by (intros z Hz; apply L; now right). specialize (IH H0). lra. }
    apply S. intros z Hz. exact Hz.
  - apply Rsumf_pos with (a - x + g)%Z; [intros u U; now apply Pos|exact U0|]. replace (x + (a - x + g) - g)%Z with a by lia. replace (y + (b - y + g) - g)%Z with b by lia.
    rewrite !reflect_in by lia. destruct (painted (a, b)) as [[_ E]|[E _]]; [split; cbn; lia| |easy]. cbn [fst snd] in E. lra.
Qed.
(** squares that stay apart are drawn exactly *)
Lemma grow_square x y q : apart im g P -> in_image im (x, y) -> P q -> near g q (x, y) -> im_px (grow_image g im') x y = c.
Proof.
  intros [In1 In2] I K N0. rewrite grow_px by exact G. unfold window_sum. destruct sizes as [-> ->]. destruct q as [a b].
  assert (J : in_image im (a, b)) by (apply (In1 (a, b) (a, b) K); split; cbn; lia).
  assert (A1 : in_image im (a - g, b - g)%Z) by (apply (In1 (a, b) _ K); split; cbn; lia). assert (A2 : in_image im (a + g, b + g)%Z) by (apply (In1 (a, b) _ K); split; cbn; lia).
  destruct N0 as [N1 N2]. destruct I as [X Y]. destruct J as [J1 J2]. destruct A1 as [A1 B1]. destruct A2 as [A2 B2]. cbn [fst snd] in *.
  assert (Only : forall t u, In t (zrange (2 * g + 1)) -> In u (zrange (2 * g + 1)) -> (t <> b - y + g \/ u <> a - x + g)%Z ->
    im_px im' (reflect (im_nx im) (x + u - g)) (reflect (im_ny im) (y + t - g)) = 0).
  { intros t u T U D. destruct (cell_range x y t u) as [J N]; [split; cbn; lia|exact T|exact U|]. destruct (painted _ J) as [[Q _]|[_ E]]; [|exact E]. exfalso.
    assert (E : (reflect (im_nx im) (x + u - g), reflect (im_ny im) (y + t - g)) = (a, b)).
    { apply (In2 _ _ (x, y)); [exact Q|exact K| |split; cbn; lia]. destruct N as [M1 M2]. cbn [fst snd] in M1, M2. split; cbn [fst snd]; lia. }
    injection E as E1 E2. apply in_zrange in T. apply in_zrange in U.
    destruct (reflect_cases g (im_nx im) x u ltac:(lia) ltac:(lia) X U) as [[R1 R2]|[[R1 R2]|[R1 R2]]];
    destruct (reflect_cases g (im_ny im) y t ltac:(lia) ltac:(lia) Y T) as [[S1 S2]|[[S1 S2]|[S1 S2]]]; lia. }
  assert (T0 : In (b - y + g)%Z (zrange (2 * g + 1))) by (apply in_zrange; lia). assert (U0 : In (a - x + g)%Z (zrange (2 * g + 1))) by (apply in_zrange; lia).
  apply Rsumf_one with (b - y + g)%Z; [apply zrange_nodup|exact T0| |].
  - apply Rsumf_one with (a - x + g)%Z; [apply zrange_nodup|exact U0| |intros u U D; apply Only; auto].
    replace (x + (a - x + g) - g)%Z with a by lia. replace (y + (b - y + g) - g)%Z with b by lia. rewrite !reflect_in by lia.
    destruct (painted (a, b)) as [[_ E]|[E _]]; [split; cbn; lia|exact E|easy].
  - intros t T D. apply Rsumf_zero. intros u U. apply Only; auto.
Qed.
End Grow.
