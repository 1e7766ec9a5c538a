(** Model of the peak normalisation of raytools/imagetools.py: gather_strays, find_peak, normalize_peak.

    A ray carries its direction, solid angle and channels. A one dimensional luminance array is the one
    channel case with the weights [1]; colour rays have three channels, and their luminance is the weighted
    sum of the channels (io.rgb2rad). The order of equal luminances left by np.argsort is unspecified: the
    sort is an argument. *)
From Verif Require Import Base M_Translate M_Mapper M_Io.
Local Open Scope R_scope.

(** imagetools.py:358-448: a row of v, o and l *)
Record pix := Pix { p_v : vec3; p_o : R; p_l : list R }.
(** luminance of a ray (imagetools.py:300-330) *)
Definition lum (vlambda : list R) (r : pix) : R := rgb2rad vlambda (p_l r).

(** the keyword arguments (imagetools.py:358-360) *)
Record peak_args := PeakArgs {
  a_scale : R; a_peaka : R; a_peakt : R; a_peakr : R; a_blurtol : R; a_peakc : R; a_peakrad : R;
  a_blursun : bool }.

(** np.argmax of a boolean array: the first True, 0 when there is none. Used at imagetools.py:316-348 *)
Fixpoint find_first {A} (f : A -> bool) (l : list A) (i : nat) : nat :=
  match l with
  | [] => 0%nat
  | x :: l => if f x then i else find_first f l (S i)
  end.
(** used at imagetools.py:316-348 *)
Definition argmax {A} (f : A -> bool) (l : list A) : nat := find_first f l 0%nat.

(** np.cumsum of omega times the channel [f] along the rays. Used at imagetools.py:316-348 *)
Fixpoint running (f : pix -> R) (acc : R) (l : list pix) : list R :=
  match l with
  | [] => []
  | r :: l => (acc + p_o r * f r) :: running f (acc + p_o r * f r) l
  end.

(** np.average(x) of a list; nan (None) when it is empty. Used at imagetools.py:316-348 *)
Definition mean (l : list R) : option R :=
  match l with [] => None | _ => Some (Rsum l / INR (length l)) end.
(** comparison x > y with a possible nan on the right. Used at imagetools.py:316-348 *)
Definition above (x : R) (y : option R) : bool := match y with Some y => Rgtb x y | None => false end.

(** imagetools.py:346-348 translate.norm(np.average(v, weights=omega*luminance)); weights that sum to zero raise
    ZeroDivisionError *)
Definition weighted_dir (vlambda : list R) (g : list pix) : res vec3 :=
  let t := Rsum (map (fun r => p_o r * lum vlambda r) g) in
  let s := fold_right (fun r a => vadd (vscale (p_o r * lum vlambda r) (p_v r)) a) vzero g in
  if Reqb t 0 then Raise (OtherError 1) else Ok (norm (vscale (/ t) s)).

(** channel c of a ray. Used at imagetools.py:316-348 *)
Definition chan (c : nat) (r : pix) : R := nth c (p_l r) 0.

(** imagetools.py:319-356: the consolidated source made of a prefix of the bright rays near the peak, given
    brightest first in g. Returns the new ray and the length of the prefix. [blur area lum] is
    retina.blur_sun. *)
Definition merge_peak (blur : R -> R -> R) (vlambda : list R) (p : peak_args) (first : pix) (g : list pix)
  : res (pix * nat) :=
  let l0 := lum vlambda first in
  (* lines 322-324 *)
  let near := filter (fun r => Rleb (l0 * a_blurtol p) (lum vlambda r)) g in
  let esun := match mean (map (lum vlambda) near) with
              | Some m => Some (m * a_peaka p * a_peakc p) | None => None end in
  (* line 326 *)
  let cume := running (lum vlambda) 0 g in
  let chans := seq 0 (length (p_l first)) in
  let total c stop := nth (stop - 1) (running (chan c) 0 g) 0 in
  let n := length g in
  let '(area, l, peakl0, stop) :=
    if above (last cume 0) esun then
      (* lines 328-332 *)
      let stop := argmax (fun x => above x esun) cume in
      let stop := if (stop =? 0)%nat then n else stop in
      (a_peaka p, map (fun c => total c stop / a_peaka p) chans, nth (stop - 1) cume 0 / a_peaka p, stop)
    else
      (* lines 334-342 *)
      let stop := argmax (fun r => Rltb (lum vlambda r) (l0 / a_peakr p)) g in
      let stop := if (stop =? 0)%nat then n else stop in
      if Rgtb (a_peakc p) 1 then
        (a_peaka p, map (fun c => total c stop / a_peaka p) chans, nth (stop - 1) cume 0 / a_peaka p, stop)
      else
        (nth (stop - 1) cume 0 / l0, p_l first, l0, stop) in
  (* lines 343-355 *)
  bind (weighted_dir vlambda (firstn stop g)) (fun pv =>
  let cf := if a_blursun p then blur area peakl0 else 1 in
  Ok (Pix pv (area * cf) (map (fun x => x / cf) l), stop)).

(** imagetools.py:290-356 [find_peak] without findsecondary: the consolidated ray and the indices pc of the
    rays it replaces; (None, []) when no ray is above the threshold. [order key l] sorts the indices l by
    descending key. When the brightest ray is not within the radius of itself (radius 0, or vectors
    that are not normalised) the group can be empty and pvol[0] raises IndexError. *)
Definition dummy_pix : pix := Pix vzero 0 [].
(** imagetools.py:290-356 *)
Definition get (rays : list pix) (i : nat) : pix := nth i rays dummy_pix.
(** imagetools.py:290-356 *)
Definition cosrad (p : peak_args) : R := cos (sqrt (a_peaka p / PI) * a_peakrad p).
(** imagetools.py:290-356 *)
Definition bright (vlambda : list R) (p : peak_args) (rays : list pix) : list nat :=
  filter (fun i => Rgtb (lum vlambda (get rays i)) (a_peakt p / a_scale p)) (seq 0 (length rays)).
(** imagetools.py:290-356 *)
Definition find_peak (order : (nat -> R) -> list nat -> list nat) (blur : R -> R -> R) (vlambda : list R)
           (p : peak_args) (rays : list pix) : res (option pix * list nat) :=
  match bright vlambda p rays with
  | [] => Ok (None, [])
  | b =>
      let pc := order (fun i => lum vlambda (get rays i)) b in
      let top := get rays (hd 0%nat pc) in
      let pc := filter (fun i => Rgtb (dot (p_v top) (p_v (get rays i))) (cosrad p)) pc in
      match map (get rays) pc with
      | [] => Raise IndexError
      | first :: _ =>
          bind (merge_peak blur vlambda p first (map (get rays) pc)) (fun ps =>
          Ok (Some (fst ps), firstn (snd ps) pc))
      end
  end.

(** np.delete(vol, pc, axis=0) / the zeroed rows of keepzeros (imagetools.py:420-448) *)
Definition in_pc (pc : list nat) (i : nat) : bool := existsb (Nat.eqb i) pc.
(** imagetools.py:420-448 *)
Definition delete_rows (pc : list nat) (rays : list pix) : list pix :=
  map (get rays) (filter (fun i => negb (in_pc pc i)) (seq 0 (length rays))).
(** imagetools.py:420-448 *)
Definition zero_rows (pc : list nat) (rays : list pix) : list pix :=
  map (fun i => let r := get rays i in
                if in_pc pc i then Pix (p_v r) 0 (map (fun _ => 0) (p_l r)) else r) (seq 0 (length rays)).

(** imagetools.py:358-448 [normalize_peak] with returnall=True (the default) and neither returnparts nor
    findsecondary *)
Definition normalize_peak (order : (nat -> R) -> list nat -> list nat) (blur : R -> R -> R) (vlambda : list R)
           (p : peak_args) (keepzeros : bool) (rays : list pix) : res (list pix) :=
  bind (find_peak order blur vlambda p rays) (fun found =>
    match found with
    | (Some peak, ((_ :: _) as pc)) =>
        Ok ((if keepzeros then zero_rows pc rays else delete_rows pc rays) ++ [peak])
    | _ => Ok rays
    end).

(** * imagetools.py:274-287 [gather_strays] *)

(** one group: mean direction (not normalised), total solid angle, mean channels weighted by solid angle.
    The first channel is the luminance. Weights that sum to zero raise ZeroDivisionError. (imagetools.py:274-287) *)
Record stray := Stray { s_v : vec3; s_o : R; s_l : list R }.
(** imagetools.py:274-287 *)
Definition group_of (vlambda : list R) (g : list pix) : res stray :=
  let t := Rsum (map p_o g) in
  let n := INR (length g) in
  if Reqb t 0 then Raise (OtherError 1)
  else
    let s := fold_right (fun r a => vadd (p_v r) a) vzero g in
    Ok (Stray (vscale (/ n) s) t
          (Rsum (map (fun r => p_o r * lum vlambda r) g) / t ::
           map (fun c => Rsum (map (fun r => p_o r * chan c r) g) / t)
               (seq 0 (length (p_l (hd dummy_pix g)))))).

(** [sortdesc] sorts rays by descending luminance. The recursion of the code has no bound; RecursionError
    stands for python's recursion limit, [fuel] calls deep (imagetools.py:274-287) *)
Fixpoint gather_strays (fuel : nat) (sortdesc : list pix -> list pix) (vlambda : list R) (peakt cosr : R)
         (pvol : list pix) : res (list stray) :=
  match fuel with
  | O => Raise RecursionError
  | S fuel =>
      let pc := filter (fun r => Rgtb (lum vlambda r) peakt) pvol in
      if (3 <? length pc)%nat then
        let pvols := sortdesc pc in
        let top := hd dummy_pix pvols in
        let dm r := Rgtb (dot (p_v top) (p_v r)) cosr in
        bind (group_of vlambda (filter dm pvols)) (fun s =>
        bind (gather_strays fuel sortdesc vlambda peakt cosr (filter (fun r => negb (dm r)) pvols)) (fun l =>
        Ok (s :: l)))
      else Ok []
  end.

(** imagetools.py:290-318 the strays of find_peak(findsecondary=True), returned by
    normalize_peak(findsecondary=True): of the rays above the threshold those further than eight radii from
    the brightest are grouped, with four times the threshold. The luminance column of colour rays is
    dropped (lines 315-316); a mono ray has its luminance as its only channel, so the channels are returned in
    both cases. *)
Definition secondary (fuel : nat) (order : (nat -> R) -> list nat -> list nat) (sortdesc : list pix -> list pix)
           (vlambda : list R) (p : peak_args) (rays : list pix) : res (list stray) :=
  match bright vlambda p rays with
  | [] => Ok []
  | b =>
      let pvol := map (get rays) (order (fun i => lum vlambda (get rays i)) b) in
      let top := hd dummy_pix pvol in
      let tol2 := cos (sqrt (a_peaka p / PI) * a_peakrad p * 8) in
      bind (gather_strays fuel sortdesc vlambda (a_peakt p * 4 / a_scale p) tol2
              (filter (fun r => Rltb (dot (p_v top) (p_v r)) tol2) pvol)) (fun l =>
      Ok (map (fun s => Stray (s_v s) (s_o s) (tl (s_l s))) l))
  end.
