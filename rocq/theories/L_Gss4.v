(** Lemmas about the object state and the eccentricity scale. *)
From Coq Require Import Lra Lia Psatz.
From Verif Require Import Base L_Base L_Trig M_Translate S_Translate L_Angles M_Mapper S_Mapper L_Mapper L_Draw M_Gss S_Gss L_Gss.
Local Open Scope R_scope.

(** * eccentricity scale *)
Lemma ecc_scale_range xy : emin <= ecc_scale xy <= emax.
Proof.
  unfold ecc_scale. cbv zeta. set (q := sqrt _). assert (0 <= q) as Q by apply sqrt_pos. clearbody q.
  assert (0 <= Rmin q 1 <= 1) as M by (unfold Rmin; destruct (Rle_dec q 1); lra).
  set (p := Rmin q 1) in *. clearbody p. unfold emin, emax. nra.
Qed.
Lemma ecc_scale_center : ecc_scale (1 / 2, 1 / 2) = emin.
Proof.
  unfold ecc_scale. cbv zeta. cbn [fst snd]. replace (1 / 2 * 2 - 1) with 0 by field.
  replace (if Rgeb 0 0 then 0 / 0.61111 else 0 / 0.94444) with 0 by (destruct (Rgeb 0 0); unfold Rdiv; ring).
  replace (square (0 / 1.05556) + square 0) with 0 by (unfold square, Rdiv; ring). rewrite sqrt_0, Rmin_left by lra. ring.
Qed.
(** the scale is emin only in the centre *)
Lemma ecc_scale_emin xy : ecc_scale xy = emin -> xy = (1 / 2, 1 / 2).
Proof.
  destruct xy as [a b]. unfold ecc_scale. cbv zeta. cbn [fst snd]. intros H.
  set (x := a * 2 - 1) in *. set (y := b * 2 - 1) in *.
  set (v := if Rgeb y 0 then y / 0.61111 else y / 0.94444) in *.
  set (s := square (x / 1.05556) + square v) in *.
  assert (0 <= square (x / 1.05556)) as S1 by (unfold square; nra). assert (0 <= square v) as S2 by (unfold square; nra).
  assert (Rmin (sqrt s) 1 = 0) as M by (unfold emin, emax in H; lra).
  assert (sqrt s = 0) as E by (revert M; unfold Rmin; destruct (Rle_dec _ _); lra).
  apply sqrt_eq_0 in E; [|unfold s; lra]. unfold s in E.
  assert (x / 1.05556 = 0) as X by (unfold square in *; nra). assert (v = 0) as V by (unfold square in *; nra).
  assert (x = 0) by lra. assert (y = 0) by (unfold v in V; destruct (Rgeb y 0); lra). f_equal; unfold x, y in *; lra.
Qed.
(** the scale grows along every ray from the centre *)
Lemma ecc_scale_radial x y t u : 0 <= t <= u -> ecc_scale (1 / 2 + t * x, 1 / 2 + t * y) <= ecc_scale (1 / 2 + u * x, 1 / 2 + u * y).
Proof.
  intros H. unfold ecc_scale. cbv zeta. cbn [fst snd].
  replace ((1 / 2 + t * x) * 2 - 1) with (t * (2 * x)) by field. replace ((1 / 2 + u * x) * 2 - 1) with (u * (2 * x)) by field.
  replace ((1 / 2 + t * y) * 2 - 1) with (t * (2 * y)) by field. replace ((1 / 2 + u * y) * 2 - 1) with (u * (2 * y)) by field.
  set (X := 2 * x). set (Y := 2 * y).
  assert (exists k, 0 < k /\ forall w, 0 < w -> (if Rgeb (w * Y) 0 then w * Y / 0.61111 else w * Y / 0.94444) = w * (Y * k)) as (k & Hk & E).
  { destruct (Rle_dec 0 Y) as [C|C].
    - exists (/ 0.61111). split; [lra|]. intros w Hw. unfold Rgeb, Rleb. destruct (Rle_dec 0 (w * Y)); [unfold Rdiv; ring|nra].
    - exists (/ 0.94444). split; [lra|]. intros w Hw. unfold Rgeb, Rleb. destruct (Rle_dec 0 (w * Y)); [nra|unfold Rdiv; ring]. }
  destruct (Req_dec t 0) as [Z|Z].
  { subst t. rewrite !Rmult_0_l. match goal with |- ?a <= ?b => assert (a = emin) as -> end.
    { replace (if Rgeb 0 0 then 0 / 0.61111 else 0 / 0.94444) with 0 by (destruct (Rgeb 0 0); unfold Rdiv; ring).
      replace (square (0 / 1.05556) + square 0) with 0 by (unfold square, Rdiv; ring). rewrite sqrt_0, Rmin_left by lra. ring. }
    set (q := sqrt _). assert (0 <= q) by apply sqrt_pos. clearbody q. assert (0 <= Rmin q 1) by (unfold Rmin; destruct (Rle_dec q 1); lra).
    unfold emin, emax. nra. }
  rewrite !E by lra.
  assert (sqrt (square (t * X / 1.05556) + square (t * (Y * k))) <= sqrt (square (u * X / 1.05556) + square (u * (Y * k)))) as S.
  { apply sqrt_le_1_alt. unfold square, Rdiv. generalize (/ 1.05556). intros c. revert H. clear.
    replace (t * X * c * (t * X * c) + t * (Y * k) * (t * (Y * k))) with ((t * t) * ((X * c) * (X * c) + (Y * k) * (Y * k))) by ring.
    replace (u * X * c * (u * X * c) + u * (Y * k) * (u * (Y * k))) with ((u * u) * ((X * c) * (X * c) + (Y * k) * (Y * k))) by ring.
    generalize (X * c) (Y * k). intros p q H. apply Rmult_le_compat_r; nra. }
  set (p := sqrt _) in *. set (q := sqrt (square (u * X / 1.05556) + _)) in *. clearbody p q.
  assert (Rmin p 1 <= Rmin q 1) by (unfold Rmin; destruct (Rle_dec p 1), (Rle_dec q 1); lra). unfold emin, emax. nra.
Qed.

Lemma pdist_0 p q : pdist p q = 0 -> p = q.
Proof.
  destruct p as [a b], q as [c d]. unfold pdist, square. cbn [fst snd]. intros H. apply sqrt_eq_0 in H; [|assert (0 <= (a - c) * (a - c)) by (generalize (a - c); intros; nra); assert (0 <= (b - d) * (b - d)) by (generalize (b - d); intros; nra); lra].
  assert (forall u v : R, u * u + v * v = 0 -> u = 0) as K by (intros; nra).
  pose proof (K _ _ H) as H1. rewrite Rplus_comm in H. pose proof (K _ _ H) as H2. f_equal; lra.
Qed.
Lemma view_center d va : regular_dir d -> hemi_angle va -> xyz2vxy (mk_view d va) (norm d) = (1 / 2, 1 / 2).
Proof.
  intros G H. pose proof (norm_dot d (regular_nonzero d G)) as N. unfold xyz2vxy. rewrite mk_view_hemi_aspect by auto. cbn [Z.eqb Pos.eqb].
  apply (pdist_0 _ center). rewrite pdist_radius by auto. unfold angle. rewrite N, acos_1. unfold Rdiv. ring.
Qed.
Lemma sigma_view d va : regular_dir d -> hemi_angle va -> sigma_of (mk_view d va) (norm d) = emin.
Proof. intros G H. unfold sigma_of. rewrite view_center by auto. apply ecc_scale_center. Qed.

(** * sizes *)
Lemma omegas_length vm r : length (pixel_omegas vm r) = (Z.to_nat r * Z.to_nat r)%nat.
Proof. unfold pixel_omegas. rewrite map_length. apply zgrid_length. Qed.
Lemma rays_length1 vm r : length (pixelrays1 vm r) = (Z.to_nat r * Z.to_nat r)%nat.
Proof. unfold pixelrays1. rewrite map_length. apply zgrid_length. Qed.
Lemma rays_length vm r : vm_aspect vm = 1%Z -> length (pixelrays vm r) = (Z.to_nat r * Z.to_nat r)%nat.
Proof. intros A. unfold pixelrays. rewrite A. cbn [Z.eqb Pos.eqb]. apply rays_length1. Qed.
Lemma to_nat_sq r : (0 <= r)%Z -> Z.to_nat (r * r) = (Z.to_nat r * Z.to_nat r)%nat.
Proof. intros H. apply Z2Nat.inj_mul; exact H. Qed.
Lemma zero_unless_map {A} (f : A -> bool) l w : zero_unless (map f l) w = map (fun p => if f (fst p) : bool then snd p else 0) (combine l w).
Proof.
  unfold zero_unless. revert w. induction l as [|a l IH]; intros [|x w]; cbn [map combine fst snd]; auto. now rewrite IH.
Qed.

(** * histories *)
Definition scaled (scale : R) (i : gimg) : gimg := GImg (gi_nx i) (gi_ny i) (map (fun x => x * scale) (gi_px i)).
(** the object of a view after a square image, before the average *)
Definition loaded (vm : viewmapper) (r : Z) (lum : gimg) (ecc : option R) : gstate :=
  GState vm (Some lum) r (Some (pixelrays vm r))
    (Some (map (fun p => if in_view vm 0 (fst p) : bool then snd p else 0) (combine (pixelrays vm r) (pixel_omegas vm r))))
    (Some (map (in_view vm 0) (pixelrays vm r))) (Some (map (cos_theta vm) (pixelrays vm r)))
    (Some (IZR r / (60 * vm_viewangle vm))) (Some (map (sigma_of vm) (pixelrays vm r))) ecc.
Definition reachable (vm : viewmapper) (st : gstate) : Prop :=
  st = gss_new vm \/ exists lum ecc, (0 < gi_nx lum)%Z /\ st = loaded vm (gi_nx lum) lum ecc.

Lemma set_lum_loaded scale vm st i : vm_aspect vm = 1%Z -> reachable vm st -> square_img i ->
  set_lum scale st i = set_ecc (loaded vm (gi_nx i) (scaled scale i) (gs_ecc st)) (scaled scale i).
Proof.
  intros A Hr (Hp & Hy & Hl). unfold set_lum. cbn [gi_nx]. fold (scaled scale i).
  assert (gs_vm (with_lum st (scaled scale i)) = vm) as Ev by (destruct Hr as [->|(l & e & _ & ->)]; reflexivity).
  cbv zeta. destruct (gs_res (with_lum st (scaled scale i)) =? gi_nx i)%Z eqn:E.
  - apply Z.eqb_eq in E. destruct Hr as [->|(l & e & _ & ->)]; cbn in E; [lia|]. f_equal. unfold with_lum, loaded. cbn. rewrite E. reflexivity.
  - rewrite Ev. replace (length (map (in_view vm 0) (pixelrays vm (gi_nx i))) =? length (pixel_omegas vm (gi_nx i)))%nat with true.
    2:{ symmetry. apply Nat.eqb_eq. rewrite map_length, rays_length, omegas_length by exact A. reflexivity. }
    cbn [negb]. replace (length (map (cos_theta vm) (pixelrays vm (gi_nx i))) =? Z.to_nat (gi_nx i * gi_ny (scaled scale i)))%nat with true.
    2:{ symmetry. apply Nat.eqb_eq. rewrite map_length, rays_length by exact A. unfold scaled. cbn. rewrite Hy, to_nat_sq by lia. reflexivity. }
    cbn [negb]. f_equal. unfold loaded. rewrite zero_unless_map. unfold with_lum. cbn. reflexivity.
Qed.

Lemma set_ecc_keeps st i : fst (set_ecc st i) = st \/ exists e, fst (set_ecc st i) = with_ecc st e.
Proof.
  unfold set_ecc. destruct (gs_omega st); [|now left]. destruct (gs_sigma st); [|now left]. destruct (_ =? _)%nat; [|now left].
  destruct (ecc_weights _ _ _); [|now left]. destruct (Reqb _ 0); [now left|]. right. eexists. reflexivity.
Qed.
Lemma set_lum_reach scale vm st i : vm_aspect vm = 1%Z -> reachable vm st -> square_img i ->
  exists ecc, fst (set_lum scale st i) = loaded vm (gi_nx i) (scaled scale i) ecc.
Proof.
  intros A Hr Hi. rewrite (set_lum_loaded scale vm st i A Hr Hi).
  destruct (set_ecc_keeps (loaded vm (gi_nx i) (scaled scale i) (gs_ecc st)) (scaled scale i)) as [->|[e ->]].
  - eexists. reflexivity.
  - exists (Some e). reflexivity.
Qed.
Lemma grun_reach scale vm ops : forall st, vm_aspect vm = 1%Z -> reachable vm st -> Forall square_op ops -> reachable vm (grun scale st ops).
Proof.
  induction ops as [|op ops IH]; intros st A Hr Ho; [exact Hr|]. inversion Ho as [|? ? H1 H2]; subst. unfold grun. cbn [fold_left].
  apply IH; auto. destruct op as [i|v]; [|contradiction]. cbn [gstep]. destruct (set_lum_reach scale vm st i A Hr H1) as [e ->].
  right. exists (scaled scale i), e. split; [apply H1|reflexivity].
Qed.
Lemma loaded_arrays vm r lum ecc : arrays_of vm r (loaded vm r lum ecc).
Proof. repeat split. Qed.

(** after any history of square images in one view, a further one gives the arrays of the view and its size *)
Lemma history_arrays scale vm ops i : vm_aspect vm = 1%Z -> Forall square_op (ops ++ [SetImage i]) ->
  let st := grun scale (gss_new vm) (ops ++ [SetImage i]) in
  arrays_of vm (gi_nx i) st /\ gs_vm st = vm /\ gs_lum st = Some (scaled scale i).
Proof.
  intros A Ho. apply Forall_app in Ho. destruct Ho as [Ho Hi]. inversion Hi as [|? ? Hi' _]; subst. cbn [square_op] in Hi'.
  unfold grun. rewrite fold_left_app. cbn [fold_left gstep]. fold (grun scale (gss_new vm) ops).
  pose proof (grun_reach scale vm ops (gss_new vm) A (or_introl eq_refl) Ho) as R.
  destruct (set_lum_reach scale vm _ i A R Hi') as [e ->]. split; [apply loaded_arrays|]. split; reflexivity.
Qed.

Lemma with_ecc_loaded vm r lum e e' : with_ecc (loaded vm r lum e) e' = loaded vm r lum (Some e').
Proof. reflexivity. Qed.
(** the result does not depend on the history *)
Lemma history_same scale vm ops i : vm_aspect vm = 1%Z -> Forall square_op ops -> square_img i ->
  snd (set_lum scale (gss_new vm) i) = None ->
  set_lum scale (grun scale (gss_new vm) ops) i = set_lum scale (gss_new vm) i.
Proof.
  intros A Ho Hi Hn. pose proof (grun_reach scale vm ops (gss_new vm) A (or_introl eq_refl) Ho) as R.
  rewrite (set_lum_loaded scale vm _ i A R Hi). rewrite (set_lum_loaded scale vm _ i A (or_introl eq_refl) Hi) in *.
  revert Hn. unfold set_ecc. cbn [loaded gs_omega gs_sigma gs_res gs_ecc gss_new]. set (om := map _ (combine _ _)).
  destruct (length om =? _)%nat; [|discriminate]. destruct (ecc_weights _ _ om); [|discriminate]. destruct (Reqb _ 0); [discriminate|].
  reflexivity.
Qed.
Lemma history_exn scale vm ops i : vm_aspect vm = 1%Z -> Forall square_op ops -> square_img i ->
  snd (set_lum scale (grun scale (gss_new vm) ops) i) = snd (set_lum scale (gss_new vm) i).
Proof.
  intros A Ho Hi. pose proof (grun_reach scale vm ops (gss_new vm) A (or_introl eq_refl) Ho) as R.
  rewrite (set_lum_loaded scale vm _ i A R Hi). rewrite (set_lum_loaded scale vm _ i A (or_introl eq_refl) Hi).
  unfold set_ecc. cbn [loaded gs_omega gs_sigma gs_res gs_ecc gss_new]. set (om := map _ (combine _ _)).
  destruct (length om =? _)%nat; [|reflexivity]. destruct (ecc_weights _ _ om); [|reflexivity]. destruct (Reqb _ 0); reflexivity.
Qed.
Lemma process_same fl par vm ops i ev : vm_aspect vm = 1%Z -> Forall square_op ops -> square_img i ->
  process_gss fl par (grun (g_scale par) (gss_new vm) ops) i ev = process_gss fl par (gss_new vm) i ev.
Proof.
  intros A Ho Hi. unfold process_gss. pose proof (history_exn (g_scale par) vm ops i A Ho Hi) as X.
  pose proof (history_same (g_scale par) vm ops i A Ho Hi) as Y.
  destruct (set_lum (g_scale par) (gss_new vm) i) as [s [e|]]; cbn [snd] in *.
  - destruct (set_lum (g_scale par) (grun (g_scale par) (gss_new vm) ops) i) as [s' e']. cbn [snd] in X. now subst.
  - rewrite Y; reflexivity.
Qed.

(** * reassigned views and failed assignments *)
Lemma stale_view scale vm vm' i i' : vm_aspect vm = 1%Z -> square_img i -> square_img i' -> gi_nx i' = gi_nx i ->
  arrays_of vm (gi_nx i) (grun scale (gss_new vm) [SetImage i; SetView vm'; SetImage i']).
Proof.
  intros A Hi Hi' E. unfold grun. cbn [fold_left gstep]. destruct (set_lum_reach scale vm (gss_new vm) i A (or_introl eq_refl) Hi) as [e ->].
  unfold set_lum. cbn [gi_nx]. fold (scaled scale i').
  assert (gs_res (with_lum (set_vm (loaded vm (gi_nx i) (scaled scale i) e) vm') (scaled scale i')) = gi_nx i) as -> by reflexivity.
  rewrite E, Z.eqb_refl.
  destruct (set_ecc_keeps (with_lum (set_vm (loaded vm (gi_nx i) (scaled scale i) e) vm') (scaled scale i')) (scaled scale i')) as [->|[e' ->]];
    repeat split.
Qed.
Lemma stale_view_wrong scale vm vm' i i' : vm_aspect vm = 1%Z -> square_img i -> square_img i' -> gi_nx i' = gi_nx i ->
  0 < vm_viewangle vm -> 0 < vm_viewangle vm' -> vm_viewangle vm <> vm_viewangle vm' ->
  ~ arrays_of vm' (gi_nx i) (grun scale (gss_new vm) [SetImage i; SetView vm'; SetImage i']).
Proof.
  intros A Hi Hi' E V1 V2 N (_ & _ & _ & _ & _ & P & _).
  destruct (stale_view scale vm vm' i i' A Hi Hi' E) as (_ & _ & _ & _ & _ & P' & _).
  rewrite P' in P. injection P as P. apply N. destruct Hi as [Hp _]. apply IZR_lt in Hp.
  apply (f_equal (fun x => x * (60 * vm_viewangle vm) * (60 * vm_viewangle vm'))) in P.
  replace (IZR (gi_nx i) / (60 * vm_viewangle vm) * (60 * vm_viewangle vm) * (60 * vm_viewangle vm')) with (IZR (gi_nx i) * (60 * vm_viewangle vm')) in P by (field; lra).
  replace (IZR (gi_nx i) / (60 * vm_viewangle vm') * (60 * vm_viewangle vm) * (60 * vm_viewangle vm')) with (IZR (gi_nx i) * (60 * vm_viewangle vm)) in P by (field; lra).
  nra.
Qed.

(** an image that is not square is rejected, and then the object rejects the images it had accepted before *)
Lemma rejected scale vm i bad : vm_aspect vm = 1%Z -> square_img i -> snd (set_lum scale (gss_new vm) i) = None ->
  (0 < gi_nx bad)%Z -> (0 < gi_ny bad)%Z -> gi_nx bad <> gi_ny bad -> gi_nx bad <> gi_nx i ->
  let st1 := grun scale (gss_new vm) [SetImage i] in
  let st2 := grun scale (gss_new vm) [SetImage i; SetImage bad] in
  snd (set_lum scale st1 i) = None /\ snd (set_lum scale st1 bad) = Some ValueError /\ snd (set_lum scale st2 i) = Some ValueError.
Proof.
  intros A Hi Hok Hx Hy Hne Hd st1 st2.
  assert (snd (set_lum scale st1 i) = None) as H1.
  { unfold st1. rewrite history_exn; auto. }
  split; [exact H1|].
  assert (exists e, st1 = loaded vm (gi_nx i) (scaled scale i) e) as [e E].
  { unfold st1, grun. cbn [fold_left gstep]. apply set_lum_reach; auto. now left. }
  assert (exists om, set_lum scale st1 bad =
     (GState vm (Some (scaled scale bad)) (gi_nx i) (Some (pixelrays vm (gi_nx bad))) (Some om)
        (Some (map (in_view vm 0) (pixelrays vm (gi_nx bad)))) (gs_ctheta st1) (gs_pparcmin st1) (gs_sigma st1) (gs_ecc st1), Some ValueError)
     /\ length om = Z.to_nat (gi_nx bad * gi_nx bad)) as (om & Eb & Lo).
  { rewrite E. unfold set_lum. cbn [gi_nx]. fold (scaled scale bad). cbv zeta.
    replace (gs_res (with_lum (loaded vm (gi_nx i) (scaled scale i) e) (scaled scale bad)) =? gi_nx bad)%Z with false.
    2:{ symmetry. apply Z.eqb_neq. cbn. auto. }
    assert (gs_vm (with_lum (loaded vm (gi_nx i) (scaled scale i) e) (scaled scale bad)) = vm) as -> by reflexivity.
    replace (length (map (in_view vm 0) (pixelrays vm (gi_nx bad))) =? length (pixel_omegas vm (gi_nx bad)))%nat with true.
    2:{ symmetry. apply Nat.eqb_eq. rewrite map_length, rays_length, omegas_length by exact A. reflexivity. }
    cbn [negb]. replace (length (map (cos_theta vm) (pixelrays vm (gi_nx bad))) =? Z.to_nat (gi_nx bad * gi_ny (scaled scale bad)))%nat with false.
    2:{ symmetry. apply Nat.eqb_neq. rewrite map_length, rays_length by exact A. unfold scaled. cbn. rewrite <- Z2Nat.inj_mul by lia. nia. }
    cbn [negb]. eexists. split; [reflexivity|]. unfold zero_unless. rewrite map_length, combine_length, map_length, rays_length, omegas_length, to_nat_sq by (auto; lia). lia. }
  split; [now rewrite Eb|]. unfold st2, grun. cbn [fold_left gstep]. fold st1.
  change (fst (set_lum scale (gss_new vm) i)) with st1. rewrite Eb. cbn [fst].
  unfold set_lum. cbn [gi_nx]. fold (scaled scale i). cbv zeta. cbn [with_lum gs_res]. rewrite Z.eqb_refl.
  unfold set_ecc. unfold with_lum. cbn [gs_omega gs_sigma gs_res]. rewrite E. cbn [loaded gs_sigma].
  replace (length om =? Z.to_nat (gi_nx i * gi_nx i))%nat with false; [reflexivity|]. symmetry. apply Nat.eqb_neq. rewrite Lo. destruct Hi as [Hp _]. nia.
Qed.

(** a 360 degree view is not accepted at all *)
Lemma full_view scale vm i : vm_aspect vm = 2%Z -> (0 < gi_nx i)%Z -> snd (set_lum scale (gss_new vm) i) = Some IndexError.
Proof.
  intros A Hp. unfold set_lum. cbn [gi_nx]. fold (scaled scale i). cbv zeta. cbn [with_lum gss_new gs_res gs_vm].
  replace (0 =? gi_nx i)%Z with false by (symmetry; apply Z.eqb_neq; lia).
  replace (length (map (in_view vm 0) (pixelrays vm (gi_nx i))) =? length (pixel_omegas vm (gi_nx i)))%nat with false; [reflexivity|].
  symmetry. apply Nat.eqb_neq. unfold pixelrays. rewrite A. cbn [Z.eqb Pos.eqb]. rewrite map_length, app_length, !rays_length1, omegas_length. nia.
Qed.

(** a black image raises, and leaves the eccentricity of the image before *)
Lemma black_image scale vm st i : vm_aspect vm = 1%Z -> reachable vm st -> square_img i -> Forall (fun x => x = 0) (gi_px i) ->
  set_lum scale st i = (loaded vm (gi_nx i) (scaled scale i) (gs_ecc st), Some ZeroDivisionError).
Proof.
  intros A Hr Hi Hb. rewrite (set_lum_loaded scale vm st i A Hr Hi). unfold set_ecc. cbn [loaded gs_omega gs_sigma gs_res].
  set (om := map _ (combine _ _)).
  assert (length om = Z.to_nat (gi_nx i * gi_nx i)) as Lo.
  { unfold om. rewrite map_length, combine_length, rays_length, omegas_length by exact A. destruct Hi as [Hp _]. rewrite to_nat_sq by lia. lia. }
  rewrite Lo, Nat.eqb_refl. unfold ecc_weights. cbn [scaled gi_ny gi_px]. destruct Hi as (_ & Hy & _). rewrite Hy, Z.eqb_refl.
  replace (Rsum _) with 0.
  - unfold Reqb. destruct (Req_EM_T 0 0); [reflexivity|lra].
  - clear - Hb. clearbody om. revert om. induction Hb as [|x l Hx Hl IH]; intros [|w om]; cbn [map combine Rsum fold_right fst snd]; auto.
    fold (Rsum (map (fun p => fst p ^ 4 * snd p) (combine (map (fun x => x * scale) l) om))). rewrite <- IH. subst. ring.
Qed.

(** an image of another size than the one before always brings the arrays of the current view *)
Lemma new_size scale st i : vm_aspect (gs_vm st) = 1%Z -> square_img i -> gs_res st <> gi_nx i ->
  arrays_of (gs_vm st) (gi_nx i) (fst (set_lum scale st i)).
Proof.
  intros A (Hp & Hy & Hl) N. unfold set_lum. cbn [gi_nx]. fold (scaled scale i). cbv zeta. cbn [with_lum gs_res gs_vm].
  replace (gs_res st =? gi_nx i)%Z with false by (symmetry; now apply Z.eqb_neq).
  set (vm := gs_vm st) in *.
  replace (length (map (in_view vm 0) (pixelrays vm (gi_nx i))) =? length (pixel_omegas vm (gi_nx i)))%nat with true.
  2:{ symmetry. apply Nat.eqb_eq. rewrite map_length, rays_length, omegas_length by exact A. reflexivity. }
  cbn [negb]. replace (length (map (cos_theta vm) (pixelrays vm (gi_nx i))) =? Z.to_nat (gi_nx i * gi_ny (scaled scale i)))%nat with true.
  2:{ symmetry. apply Nat.eqb_eq. rewrite map_length, rays_length by exact A. unfold scaled. cbn. rewrite Hy, to_nat_sq by lia. reflexivity. }
  cbn [negb].
  match goal with |- arrays_of _ _ (fst (set_ecc ?s ?j)) => destruct (set_ecc_keeps s j) as [->|[e ->]] end;
    unfold arrays_of; cbn [with_ecc gs_vm gs_lum gs_res gs_vecs gs_omega gs_mask gs_ctheta gs_pparcmin gs_sigma]; rewrite zero_unless_map; repeat split.
Qed.
