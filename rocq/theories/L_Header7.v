(** Lemmas for Prop_Header.v: hdr2vm with any order of the options, and the up vector of a header *)
From Coq Require Import Ascii String Lia Lra.
From Verif Require Import Base L_Base M_Translate M_Mapper S_Mapper L_Angles L_Mapper M_Utility M_Header S_Header L_Header L_Header2 L_Header4.
Import ListNotations.
Local Open Scope list_scope.

Lemma option3_read parse key dflt ws v : option3 parse key dflt ws v ->
  match list_index key ws with Ok i => float3_at parse ws (i + 1) | Raise _ => Ok dflt end = Ok v.
Proof.
  intros [[N ->]|(a & x & y & z & b & -> & N & X & Y & Z0)].
  - unfold list_index. destruct (in_strs key ws) eqn:E; [apply in_strs_true in E; contradiction|reflexivity].
  - cbn [app]. rewrite list_index_at by exact N. unfold float3_at.
    rewrite (float_at_nth parse _ (length a + 1) x (vx v)); [|rewrite nth_error_app2 by lia; now replace (length a + 1 - length a)%nat with 1%nat by lia|exact X]. cbn [bind].
    rewrite (float_at_nth parse _ (length a + 1 + 1) y (vy v)); [|rewrite nth_error_app2 by lia; now replace (length a + 1 + 1 - length a)%nat with 2%nat by lia|exact Y]. cbn [bind].
    rewrite (float_at_nth parse _ (length a + 1 + 2) z (vz v)); [|rewrite nth_error_app2 by lia; now replace (length a + 1 + 2 - length a)%nat with 3%nat by lia|exact Z0]. cbn [bind].
    now destruct v.
Qed.
Lemma splitlines_first a tail : one_line a -> a <> [] -> (tail = [] \/ exists post, tail = newline ++ post) -> exists ls, splitlines (a ++ tail) = a :: ls.
Proof.
  intros O N T. unfold splitlines. rewrite splitlines_run, app_nil_r by exact O. destruct T as [->|(post & ->)].
  - cbn [splitlines_from]. destruct (rev a) eqn:E; [exfalso; apply N; rewrite <- (rev_involutive a), E; reflexivity|]. rewrite <- E, rev_involutive. eauto.
  - cbn [newline app splitlines_from]. change (is_break "010") with true. cbv iota. rewrite rev_involutive. eauto.
Qed.
Lemma hdr2vm_options parse pre key line tail x y a t b va dir pt :
  let header := pre ++ key ++ line ++ tail in
  key = s "VIEW= -vta" \/ key = s "rvu -vta" /\ ~ occurs (s "VIEW= -vta") header -> ~ occurs key (line ++ tail) ->
  one_line line -> (tail = [] \/ exists post, tail = newline ++ post) ->
  split_words line = a ++ [s "-vh"; t] ++ b -> ~ In (s "-vh") a -> parse t = Some va ->
  option3 parse (s "-vd") (V3 0 1 0) (split_words line) dir -> option3 parse (s "-vp") (V3 0 0 0) (split_words line) pt ->
  hdr2vm parse header x y = Ok (Some (mk_view dir (va * IZR x / IZR y)%R, pt)).
Proof.
  intros header K NO O T W Na Pt Od Op.
  assert (line <> []) as NL. { intros ->. destruct a; discriminate. }
  assert (last_after key header = Some (line ++ tail)) as LA.
  { unfold header. destruct K as [->|[-> _]].
    - change (s "VIEW= -vta") with ("V"%char :: s "IEW= -vta") in *. apply last_after_at. intros Q. apply NO. apply occurs_skip in Q; [exact Q|]. cbn. intuition discriminate.
    - change (s "rvu -vta") with ("r"%char :: s "vu -vta") in *. apply last_after_at. intros Q. apply NO. apply occurs_skip in Q; [exact Q|]. cbn. intuition discriminate. }
  destruct (splitlines_first line tail O NL T) as [ls SL].
  unfold hdr2vm. 
  assert ((match match last_after (s "VIEW= -vta") header with
      | Some r => Some match splitlines r with [] => Raise IndexError | l :: _ => Ok (split_words l) end | None => None end with
      | Some r => Some r | None => match last_after (s "rvu -vta") header with
      | Some r => Some match splitlines r with [] => Raise IndexError | l :: _ => Ok (split_words l) end | None => None end end) = Some (Ok (split_words line))) as ->.
  { destruct K as [->|[-> NV]].
    - now rewrite LA, SL.
    - apply last_after_none in NV. now rewrite NV, LA, SL. }
  cbn [bind]. rewrite (option3_read _ _ _ _ _ Od), (option3_read _ _ _ _ _ Op).
  assert (list_index (s "-vh") (split_words line) = Ok (length a)) as -> by (rewrite W; now apply list_index_at). cbn [bind].
  rewrite (float_at_nth parse _ _ t va); [reflexivity| |exact Pt].
  rewrite W, nth_error_app2 by lia. now replace (length a + 1 - length a)%nat with 1%nat by lia.
Qed.
Lemma hdr2vm_none parse header x y : ~ occurs (s "VIEW= -vta") header -> ~ occurs (s "rvu -vta") header -> hdr2vm parse header x y = Ok None.
Proof. intros A B. apply last_after_none in A, B. unfold hdr2vm. now rewrite A, B. Qed.

Lemma near_z_spec v : near_z v = true <-> (Rabs (vx v) <= / 10 ^ 8 /\ Rabs (vy v) <= / 10 ^ 8 /\ Rabs (vz v - 1) <= / 10 ^ 8 + / 10 ^ 5)%R.
Proof.
  unfold near_z, isclose. rewrite !Bool.andb_true_iff, !Rleb_true, !Rabs_R0, Rabs_R1, !Rmult_0_r, !Rplus_0_r, Rmult_1_r, !Rminus_0_r. tauto.
Qed.
Lemma header_end show vm pt : exists front, vm_header show vm pt = front ++ s " -vu " ++ (if near_z (vm_dxyz vm) then s "0 1 0" else s "0 0 1").
Proof.
  exists (s "VIEW= -vta -vv " ++ show (vm_viewangle vm) ++ s " -vh " ++ show (vm_viewangle vm) ++ s " -vd " ++ show (vx (vm_dxyz vm)) ++ s " " ++
    show (vy (vm_dxyz vm)) ++ s " " ++ show (vz (vm_dxyz vm)) ++ s " -vp " ++ show (vx pt) ++ s " " ++ show (vy pt) ++ s " " ++ show (vz pt)).
  unfold vm_header. repeat rewrite <- app_assoc. reflexivity.
Qed.
Lemma up_vector show d va pt : d <> vzero -> norm d <> V3 0 0 (-1) ->
  exists front u t, vm_header show (mk_view d va) pt = front ++ s " -vu " ++ t /\
    (u = V3 0 1 0 /\ t = s "0 1 0" \/ u = V3 0 0 1 /\ t = s "0 0 1") /\ forall k, norm d <> vscale k u.
Proof.
  intros N M. pose proof (mk_view_dxyz d va N) as D. pose proof (norm_dot d N) as U.
  destruct (header_end show (mk_view d va) pt) as [front E]. rewrite D in E. exists front. set (n := norm d) in *. clearbody n.
  destruct (near_z n) eqn:Z.
  - exists (V3 0 1 0), (s "0 1 0"). split; [exact E|]. split; [now left|].
    intros k ->. apply near_z_spec in Z. destruct Z as (_ & _ & Z). unfold vscale in Z. cbn [vx vy vz] in Z. rewrite Rmult_0_r in Z.
    replace (0 - 1)%R with (- (1))%R in Z by lra. rewrite Rabs_Ropp, Rabs_R1 in Z. lra.
  - exists (V3 0 0 1), (s "0 0 1"). split; [exact E|]. split; [now right|].
    intros k ->. unfold dot, vscale in U. cbn [vx vy vz] in U. assert (k * k = 1)%R as K by lra. assert (k = 1 \/ k = -1)%R as [-> | ->].
    { assert ((k - 1) * (k + 1) = 0)%R as Q by (ring_simplify; lra). apply Rmult_integral in Q. destruct Q; [left|right]; lra. }
    + assert (near_z (vscale 1 (V3 0 0 1)) = true); [|congruence]. apply near_z_spec. unfold vscale. cbn [vx vy vz]. rewrite !Rmult_0_r, Rmult_1_r.
      replace (1 - 1)%R with 0%R by lra. rewrite Rabs_R0. lra.
    + apply M. unfold vscale. cbn [vx vy vz]. f_equal; lra.
Qed.
Lemma up_vector_down show va pt : exists front, vm_header show (mk_view (V3 0 0 (-1)) va) pt = front ++ s " -vu 0 0 1" /\
  vm_dxyz (mk_view (V3 0 0 (-1)) va) = vscale (-1) (V3 0 0 1).
Proof.
  assert (vm_dxyz (mk_view (V3 0 0 (-1)) va) = V3 0 0 (-1)) as D.
  { rewrite mk_view_dxyz by (intros Q; injection Q; lra). apply norm_unit_id. unfold dot. cbn [vx vy vz]. lra. }
  assert (near_z (V3 0 0 (-1)) = false) as Z.
  { destruct (near_z _) eqn:E; [|reflexivity]. apply near_z_spec in E. cbn [vx vy vz] in E. destruct E as (_ & _ & E).
    replace (-1 - 1)%R with (- (2))%R in E by lra. rewrite Rabs_Ropp, Rabs_pos_eq in E by lra. lra. }
  destruct (header_end show (mk_view (V3 0 0 (-1)) va) pt) as [front E]. rewrite D, Z in E. exists front. split.
  - exact E.
  - rewrite D. unfold vscale. f_equal; cbn [vx vy vz]; lra.
Qed.
