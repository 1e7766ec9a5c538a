From Coq Require Import Lra Lia.
From Verif Require Import Base L_Base M_Translate M_Mapper M_Header M_Initimg S_Mapper S_Rotate S_Initimg L_Mapper L_Rotate L_Transform L_Draw L_Grow.
Import ListNotations.
Local Open Scope R_scope.

Lemma near_sym g p q : near g p q -> near g q p.
Proof. unfold near. lia. Qed.
Lemma grown_paints im im' c P g : constant im 0 -> paints im im' c P -> (forall p, P p -> in_image im p) -> (0 < g)%Z -> (g <= im_nx im)%Z -> (g <= im_ny im)%Z ->
  grown im (grow_image g im') c P g.
Proof.
  intros B Pt I G Gx Gy. destruct (grow_size g im') as [S1 S2]. destruct Pt as (T1 & T2 & T3). repeat split; try congruence.
  - intros [x y] J H. cbn [fst snd]. apply (grow_blank im im' c P g B (conj T1 (conj T2 T3)) G Gx Gy x y J). intros q K _ N. exact (H q K (near_sym _ _ _ N)).
  - intros C [x y] q J K N. cbn [fst snd]. apply (grow_visible im im' c P g B (conj T1 (conj T2 T3)) G Gx Gy x y q C J K (I q K) (near_sym _ _ _ N)).
  - intros A [x y] q J K N. cbn [fst snd]. exact (grow_square im im' c P g B (conj T1 (conj T2 T3)) G Gx Gy x y q A J K N).
Qed.
Lemma grown_base m im vs c g : constant im 0 -> (0 < g)%Z -> (g <= im_nx im)%Z -> (g <= im_ny im)%Z ->
  exists out, m_add_vecs_grow m im vs c g = Ok out /\ grown im out c (hit im (m_ray2pixel m (im_nx im, im_ny im)) vs) g.
Proof.
  intros B G Gx Gy. destruct (base_draw m im vs c) as (im' & E & Pt). unfold m_add_vecs_grow. destruct (existsb _ _) eqn:X.
  - rewrite E. cbn [bind]. eexists. split; [reflexivity|]. apply grown_paints; auto. now intros p [H _].
  - exists im. split; [reflexivity|]. assert (N : forall p, ~ hit im (m_ray2pixel m (im_nx im, im_ny im)) vs p).
    { intros p [[[A1 A2] [B1 B2]] (v & V & Q)]. apply Bool.not_true_iff_false in X. apply X. apply existsb_exists. exists p. split; [rewrite <- Q; now apply in_map|].
      destruct (Z.leb_spec 0 (fst p)), (Z.ltb_spec (fst p) (im_nx im)), (Z.leb_spec 0 (snd p)), (Z.ltb_spec (snd p) (im_ny im)); try lia; reflexivity. }
    repeat split.
    + intros [x y] J _. now apply B.
    + intros _ p q _ K. now apply N in K.
    + intros _ p q _ K. now apply N in K.
Qed.
Lemma grown_view d va im vs c g : hemi_angle va -> constant im 0 -> (0 < g)%Z -> (g <= im_nx im)%Z -> (g <= im_ny im)%Z ->
  exists out, add_vecs_grow (mk_view d va) im true None vs c g = Ok out /\ grown im out c (hit im (ray2pixel (mk_view d va) (im_ny im)) vs) g.
Proof.
  intros H B G Gx Gy. destruct (view_draw d va im vs c H) as (im' & E & Pt). unfold add_vecs_grow. rewrite E. cbn [bind]. eexists. split; [reflexivity|].
  apply grown_paints; auto. now intros p [I _].
Qed.
Lemma grown_360 d im vs c g : d <> vzero -> (forall v, In v vs -> dot v v = 1) -> constant im 0 -> (0 < g)%Z -> (g <= im_nx im)%Z -> (g <= im_ny im)%Z ->
  exists out, add_vecs_grow (mk_view d 360) im true None vs c g = Ok out /\ grown im out c (hit im (ray2pixel (mk_view d 360) (im_ny im)) vs) g.
Proof.
  intros D U B G Gx Gy. destruct (view_draw_360 d im vs c D U) as (im' & E & Pt). unfold add_vecs_grow. rewrite E. cbn [bind]. eexists. split; [reflexivity|].
  apply grown_paints; auto. now intros p [I _].
Qed.
Lemma grown_channels d va g vs : hemi_angle va -> (0 < g)%Z -> forall ims cs, (length ims <= length cs)%nat ->
  exists outs, add_vecs_channels_grow (mk_view d va) ims true None vs cs g = Ok outs /\ length outs = length ims /\
  forall k im c, nth_error ims k = Some im -> nth_error cs k = Some (Some c) -> constant im 0 -> (g <= im_nx im)%Z -> (g <= im_ny im)%Z ->
    exists out, nth_error outs k = Some out /\ grown im out c (hit im (ray2pixel (mk_view d va) (im_ny im)) vs) g.
Proof.
  intros H G ims cs L. destruct (view_draw_channels (mk_view d va) (fun im p => in_image im p /\ exists v, In v vs /\ ray2pixel (mk_view d va) (im_ny im) v = p) vs
     (fun im c => view_draw d va im vs c H) ims cs L) as (ims' & E & Len & K).
  unfold add_vecs_channels_grow. rewrite E. cbn [bind]. eexists. split; [reflexivity|]. split; [now rewrite map_length|].
  intros k im c I C B Gx Gy. destruct (K k im (Some c) I C) as (im' & J & Pt). exists (grow_image g im'). split; [now apply map_nth_error|].
  apply grown_paints; auto. now intros p [I' _].
Qed.
Lemma no_grow d va im fisheye m vs c g : (g <= 0)%Z -> add_vecs_grow (mk_view d va) im fisheye m vs c g = add_vecs (mk_view d va) im fisheye m vs c.
Proof.
  intros G. unfold add_vecs_grow, grow_image. destruct (Z.ltb_spec 0 g); [lia|]. destruct (add_vecs _ _ _ _ _ _); reflexivity.
Qed.

(** * what goes wrong *)
Lemma ray_pixel d va n i j : hemi_angle va -> pixel_of n i j -> ray2pixel (mk_view d va) n (ray d va n i j) = (i, j).
Proof. intros H [I J]. exact (pixel_roundtrip d va n i j H I J). Qed.
Lemma draw_pixels d va n vs c : hemi_angle va ->
  exists im', add_vecs (mk_view d va) (blank n) true None vs c = Ok im' /\ paints (blank n) im' c (hit (blank n) (ray2pixel (mk_view d va) n) vs).
Proof. intros H. exact (view_draw d va (blank n) vs c H). Qed.
Lemma Rsumf_two {A} (f : A -> R) l a b c : NoDup l -> a <> b -> In a l -> In b l -> f a = c -> f b = c -> (forall x, In x l -> x <> a -> x <> b -> f x = 0) -> Rsumf f l = 2 * c.
Proof.
  intros N. induction N as [|x l Hx N IH]; intros D Ia Ib Ea Eb Z; [easy|]. rewrite Rsumf_cons. destruct Ia as [->|Ia].
  - destruct Ib as [->|Ib]; [easy|]. rewrite Ea, (Rsumf_one f l b c N Ib Eb); [ring|]. intros y Hy Ny. apply Z; [now right|intros ->; easy|exact Ny].
  - destruct Ib as [->|Ib].
    + rewrite Eb, (Rsumf_one f l a c N Ia Ea); [ring|]. intros y Hy Ny. apply Z; [now right|exact Ny|intros ->; easy].
    + rewrite (Z x); [|now left|intros ->; easy|intros ->; easy]. rewrite IH; auto; [ring|]. intros y Hy. apply Z. now right.
Qed.
Lemma corner_four d va n g c : hemi_angle va -> (0 < g < n)%Z ->
  exists out, add_vecs_grow (mk_view d va) (blank n) true None [ray d va n 0 0] c g = Ok out /\ im_px out 0 0 = 4 * c.
Proof.
  intros H G. destruct (draw_pixels d va n [ray d va n 0 0] c H) as (im' & E & Pt). unfold add_vecs_grow. rewrite E. cbn [bind]. eexists. split; [reflexivity|].
  rewrite grow_px by lia. unfold window_sum. destruct Pt as (S1 & S2 & S3). rewrite S1, S2. cbn [blank im_nx im_ny].
  assert (V : ray2pixel (mk_view d va) n (ray d va n 0 0) = (0, 0)%Z) by (apply ray_pixel; [exact H|split; lia]).
  assert (C0 : im_px im' 0 0 = c).
  { apply (S3 (0, 0)%Z). split; [split; cbn; lia|]. exists (ray d va n 0 0). split; [now left|exact V]. }
  assert (CZ : forall x y, (x <> 0 \/ y <> 0)%Z -> im_px im' x y = 0).
  { intros x y D. destruct (S3 (x, y)) as [_ K]. cbn [fst snd] in K. rewrite K; [reflexivity|]. intros [_ (v & [<-|[]] & Q)]. rewrite V in Q. injection Q as <- <-. lia. }
  assert (Rz : forall t, In t (zrange (2 * g + 1)) -> (reflect n (0 + t - g) = 0 <-> t = g \/ t = g - 1)%Z).
  { intros t T. apply in_zrange in T. destruct (reflect_cases g n 0 t ltac:(lia) ltac:(lia) ltac:(lia) T) as [[R1 ->]|[[R1 ->]|[R1 ->]]]; lia. }
  assert (Ig : In g (zrange (2 * g + 1))) by (apply in_zrange; lia). assert (Ih : In (g - 1)%Z (zrange (2 * g + 1))) by (apply in_zrange; lia).
  assert (Row : forall t, reflect n (0 + t - g) = 0%Z -> Rsumf (fun u => im_px im' (reflect n (0 + u - g)) (reflect n (0 + t - g))) (zrange (2 * g + 1)) = 2 * c).
  { intros t T. rewrite T. apply Rsumf_two with g (g - 1)%Z; [apply zrange_nodup|lia|exact Ig|exact Ih| | |].
    - rewrite (proj2 (Rz g Ig)) by lia. exact C0.
    - rewrite (proj2 (Rz (g - 1)%Z Ih)) by lia. exact C0.
    - intros u U N1 N2. apply CZ. left. intros Q. apply Rz in Q; [lia|exact U]. }
  replace (4 * c) with (2 * (2 * c)) by ring. apply Rsumf_two with g (g - 1)%Z; [apply zrange_nodup|lia|exact Ig|exact Ih| | |].
  - apply Row, Rz; [exact Ig|lia].
  - apply Row, Rz; [exact Ih|lia].
  - intros t T N1 N2. apply Rsumf_zero. intros u U. apply CZ. right. intros Q. apply Rz in Q; [lia|exact T].
Qed.
Lemma neighbours_two d va n g a b c : hemi_angle va -> (0 < g)%Z -> (g <= a < n - g)%Z -> (g <= b < n - g - 1)%Z ->
  exists out, add_vecs_grow (mk_view d va) (blank n) true None [ray d va n a b; ray d va n a (b + 1)] c g = Ok out /\
    im_px out a b = 2 * c /\ im_px out a (b + 1) = 2 * c.
Proof.
  intros H G A B. destruct (draw_pixels d va n [ray d va n a b; ray d va n a (b + 1)] c H) as (im' & E & Pt). unfold add_vecs_grow. rewrite E. cbn [bind]. eexists. split; [reflexivity|].
  rewrite !grow_px by lia. unfold window_sum. destruct Pt as (S1 & S2 & S3). rewrite S1, S2. cbn [blank im_nx im_ny].
  assert (V1 : ray2pixel (mk_view d va) n (ray d va n a b) = (a, b)) by (apply ray_pixel; [exact H|split; lia]).
  assert (V2 : ray2pixel (mk_view d va) n (ray d va n a (b + 1)) = (a, b + 1)%Z) by (apply ray_pixel; [exact H|split; lia]).
  assert (C1 : im_px im' a b = c).
  { apply (S3 (a, b)). split; [split; cbn; lia|]. exists (ray d va n a b). split; [now left|exact V1]. }
  assert (C2 : im_px im' a (b + 1) = c).
  { apply (S3 (a, b + 1)%Z). split; [split; cbn; lia|]. exists (ray d va n a (b + 1)). split; [right; now left|exact V2]. }
  assert (CZ : forall x y, (x <> a \/ (y <> b /\ y <> b + 1))%Z -> im_px im' x y = 0).
  { intros x y D. destruct (S3 (x, y)) as [_ K]. cbn [fst snd] in K. rewrite K; [reflexivity|]. intros [_ (v & [<-|[<-|[]]] & Q)]; [rewrite V1 in Q|rewrite V2 in Q]; injection Q as <- <-; lia. }
  assert (Row : forall t y, In t (zrange (2 * g + 1)) -> (g <= y < n - g)%Z -> (y + t - g = b \/ y + t - g = b + 1)%Z ->
     Rsumf (fun u => im_px im' (reflect n (a + u - g)) (reflect n (y + t - g))) (zrange (2 * g + 1)) = c).
  { intros t y T Y D. rewrite (reflect_in n (y + t - g)) by lia. apply Rsumf_one with g; [apply zrange_nodup|apply in_zrange; lia| |].
    - replace (a + g - g)%Z with a by lia. rewrite reflect_in by lia. destruct D as [->| ->]; assumption.
    - intros u U N. apply in_zrange in U. apply CZ. left. destruct (reflect_cases g n a u ltac:(lia) ltac:(lia) ltac:(lia) U) as [[R1 ->]|[[R1 ->]|[R1 ->]]]; lia. }
  assert (Zero : forall t y, In t (zrange (2 * g + 1)) -> (g <= y < n - g)%Z -> (y + t - g <> b /\ y + t - g <> b + 1)%Z ->
     Rsumf (fun u => im_px im' (reflect n (a + u - g)) (reflect n (y + t - g))) (zrange (2 * g + 1)) = 0).
  { intros t y T Y D. apply in_zrange in T. apply Rsumf_zero. intros u U. apply CZ. right. destruct (reflect_cases g n y t ltac:(lia) ltac:(lia) ltac:(lia) T) as [[R1 ->]|[[R1 ->]|[R1 ->]]]; lia. }
  split.
  - apply Rsumf_two with g (g + 1)%Z; [apply zrange_nodup|lia|apply in_zrange; lia|apply in_zrange; lia| | |].
    + apply Row; [apply in_zrange; lia|lia|lia].
    + apply Row; [apply in_zrange; lia|lia|lia].
    + intros t T N1 N2. apply Zero; [exact T|lia|lia].
  - apply Rsumf_two with g (g - 1)%Z; [apply zrange_nodup|lia|apply in_zrange; lia|apply in_zrange; lia| | |].
    + apply Row; [apply in_zrange; lia|lia|lia].
    + apply Row; [apply in_zrange; lia|lia|lia].
    + intros t T N1 N2. apply Zero; [exact T|lia|lia].
Qed.
Lemma grow_constant g im k : (0 < g)%Z -> (g <= im_nx im)%Z -> (g <= im_ny im)%Z -> constant im k ->
  constant (grow_image g im) (IZR (2 * g + 1) * IZR (2 * g + 1) * k).
Proof.
  intros G Gx Gy C x y I. rewrite grow_px by exact G. destruct (grow_size g im) as [S1 S2]. assert (I' : in_image im (x, y)) by (unfold in_image in *; rewrite S1, S2 in I; exact I).
  destruct I' as [X Y]. cbn [fst snd] in X, Y. unfold window_sum.
  rewrite (Rsumf_ext' _ (fun _ => Rsumf (fun _ => k) (zrange (2 * g + 1)))).
  - rewrite !Rsumf_const, zrange_length. rewrite INR_IZR_INZ, Z2Nat.id by lia. ring.
  - intros t T. apply Rsumf_ext'. intros u U. apply in_zrange in T. apply in_zrange in U. apply C.
    destruct (reflect_near g (im_nx im) x u ltac:(lia) ltac:(lia) X U) as [A _]. destruct (reflect_near g (im_ny im) y t ltac:(lia) ltac:(lia) Y T) as [D _]. split; cbn [fst snd]; lia.
Qed.
Lemma content_scaled d va im k c g : hemi_angle va -> (0 < g)%Z -> (g <= im_nx im)%Z -> (g <= im_ny im)%Z -> constant im k ->
  exists out, add_vecs_grow (mk_view d va) im true None [] c g = Ok out /\ constant out (IZR (2 * g + 1) * IZR (2 * g + 1) * k).
Proof.
  intros H G Gx Gy C. destruct (view_draw d va im [] c H) as (im' & E & (S1 & S2 & S3)). unfold add_vecs_grow. rewrite E. cbn [bind]. eexists. split; [reflexivity|].
  apply grow_constant; [exact G|lia|lia|]. intros x y I. destruct (S3 (x, y)) as [_ K]. cbn [fst snd] in K. rewrite K; [apply C; unfold in_image in *; now rewrite S1, S2 in I|].
  now intros [_ (v & [] & _)].
Qed.
Lemma channel_scaled d va im k vs g : hemi_angle va -> (0 < g)%Z -> (g <= im_nx im)%Z -> (g <= im_ny im)%Z -> constant im k ->
  exists out, add_vecs_channels_grow (mk_view d va) [im] true None vs [None] g = Ok [out] /\ constant out (IZR (2 * g + 1) * IZR (2 * g + 1) * k).
Proof.
  intros H G Gx Gy C. eexists. split; [reflexivity|]. now apply grow_constant.
Qed.
Lemma grow_example : apart (blank 9) 1 (fun p => p = (1, 1)%Z \/ p = (4, 5)%Z) /\ constant (blank 9) 0.
Proof.
  split; [|now intros x y _]. unfold apart, near, in_image. cbn [blank im_nx im_ny]. split.
  - intros p q [->| ->]; cbn [fst snd]; lia.
  - intros p q r [->| ->] [->| ->]; cbn [fst snd]; try reflexivity; intros; exfalso; lia.
Qed.
