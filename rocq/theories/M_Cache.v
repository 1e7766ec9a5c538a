(** Model of the caching of metric properties: every property of BaseMetricSet, MetricSet and ColorMetricSet is
    [@property @functools.lru_cache(1)]. The cache belongs to the function, so it is shared by all objects of the
    class and its subclasses; its key is the object itself (identity); it remembers one object. *)
From Verif Require Import Base BaseX M_Translate M_Mapper M_Io M_Metric.
Import ListNotations.
Local Open Scope R_scope.

(** the body of a property: a computation that reads further properties of the same object
    (basemetricset.py:202-308, metricset.py:74-213, colormetricset.py:111-176: reading self.<property> in a body) *)
Inductive prog := Ret (v : res value) | Ask (p : prop) (k : value -> prog).
(** basemetricset.py:202-308, metricset.py:74-213, colormetricset.py:111-176: reading self.<property> in a body *)
Definition ask_x (p : prop) (k : xr -> prog) : prog :=
  Ask p (fun v => match v with VX x => k x | _ => Ret (Raise TypeError) end).
(** basemetricset.py:202-308, metricset.py:74-213, colormetricset.py:111-176: reading self.<property> in a body *)
Definition ask_r (p : prop) (k : list R -> prog) : prog :=
  Ask p (fun v => match v with VR x => k x | _ => Ret (Raise TypeError) end).
(** basemetricset.py:202-308, metricset.py:74-213, colormetricset.py:111-176: reading self.<property> in a body *)
Definition ask_b (p : prop) (k : list bool -> prog) : prog :=
  Ask p (fun v => match v with VB x => k x | _ => Ret (Raise TypeError) end).
(** basemetricset.py:202-308, metricset.py:74-213, colormetricset.py:111-176: reading self.<property> in a body *)
Definition ask_s (p : prop) (k : list ray -> prog) : prog :=
  Ask p (fun v => match v with VS x => k x | _ => Ret (Raise TypeError) end).
(** the value a body returns (basemetricset.py:202-308, metricset.py:74-213) *)
Definition ret_x (x : xr) : prog := Ret (Ok (VX x)).
(** the value a body returns (basemetricset.py:202-308, metricset.py:74-213) *)
Definition ret_f (x : R) : prog := ret_x (Fin x).

(** elementwise operations on arrays, np.einsum('i,i->') and np.einsum('i,i,i->')
    Np.einsum as in basemetricset.py:238-241 *)
Definition map2 {A B C} (f : A -> B -> C) (a : list A) (b : list B) : list C :=
  map (fun p => f (fst p) (snd p)) (combine a b).
(** np.einsum as in basemetricset.py:238-241 *)
Definition einsum2 (a b : list R) : R := Rsum (map2 Rmult a b).
(** np.einsum as in basemetricset.py:238-241 *)
Definition einsum3 (a b c : list R) : R := Rsum (map2 Rmult (map2 Rmult a b) c).

(** basemetricset.py:202-308 *)
Definition body_base (m : mset) (p : prop) : prog :=
  let vec := map r_vec (ms_rays m) in
  let omega := map r_omega (ms_rays m) in
  let lum := map r_lum (ms_rays m) in
  let scale := ms_scale m in
  match p with
  | Pctheta => Ret (Ok (VR (map (vm_ctheta (ms_vm m)) vec)))
  | Pradians => ask_r Pctheta (fun c => Ret (Ok (VR (map acos c))))
  | Ppos_idx => Ret (Ok (VR (map (positions (ms_guth m) (ms_vm m)) vec)))
  | Ppweight => ask_r Ppos_idx (fun p => Ret (Ok (VR (map2 Rdiv omega (map square p)))))
  | Ppweighted_area => ask_r Ppweight (fun w => ret_f (Rsum w))
  | Pillum => ask_r Pctheta (fun c => ret_f (einsum3 c lum omega * scale))
  | Pavglum => ret_x (xdiv (Fin (einsum2 lum omega * scale)) (Fin (ms_view_area m)))
  | Pmaxlum => Ret (bind (np_max lum) (fun x => Ok (VX (Fin (x * scale)))))
  | Ppwavglum => ask_r Ppweight (fun w => ask_x Ppweighted_area (fun a =>
      ret_x (xdiv (Fin (einsum2 lum w * scale)) a)))
  | Pavgraylum => ret_x (xmul (xmean lum) (Fin scale))
  | Pgcr =>
      let a2lum := xdiv (Fin (einsum3 lum lum omega * (scale * scale))) (Fin (ms_view_area m)) in
      ask_x Pavglum (fun a => if xgtb a (Fin 0) then ask_x Pavglum (fun a => ret_x (xdiv a2lum (xmul a a))) else ret_f 1)
  | Ppwgcr => ask_r Ppweight (fun w => ask_x Ppweighted_area (fun pa =>
      let a2lum := xdiv (Fin (einsum3 lum lum w * (scale * scale))) pa in
      ask_x Ppwavglum (fun a => if xgtb a (Fin 0) then ask_x Ppwavglum (fun a => ret_x (xdiv a2lum (xmul a a)))
                                else ret_f 1)))
  | Plogpwgcr => ask_x Ppwgcr (fun g => ret_x (xlog10 g))
  | Ploggcr => ask_x Pgcr (fun g => ret_x (xlog10 g))
  | Pdensity => ret_x (xdiv (Fin (INR (length omega))) (Fin (ms_view_area m)))
  | _ => Ret (Raise AttributeError)
  end.
(** metricset.py:74-213 *)
Definition body_metric (m : mset) (p : prop) : prog :=
  let vec := map r_vec (ms_rays m) in
  let omega := map r_omega (ms_rays m) in
  let lum := map r_lum (ms_rays m) in
  let scale := ms_scale m in
  let oga l := map r_omega l in
  let lm l := map r_lum l in
  match p with
  | Psrc_mask => ask_x Pthreshold (fun t => Ret (Ok (VB (map (fun l => xgtb (Fin (l * scale)) t) lum))))
  | Ptask_mask => Ret (Ok (VB (map (fun v => Rltb (vm_degrees (ms_vm m) v) (ms_tradius m)) vec)))
  | Psources => ask_b Psrc_mask (fun k => Ret (Ok (VS (select k (ms_rays m)))))
  | Pbackground => ask_b Psrc_mask (fun k => Ret (Ok (VS (select (map negb k) (ms_rays m)))))
  | Psource_pos_idx => ask_r Ppos_idx (fun p => ask_b Psrc_mask (fun k => Ret (Ok (VR (select k p)))))
  | Pthreshold => if Rgtb (ms_threshold m) 100 then ret_f (ms_threshold m)
                  else ask_x Ptasklum (fun t => ret_x (xmul t (Fin (ms_threshold m))))
  | Ppwsl2 => ask_s Psources (fun s => ask_r Psource_pos_idx (fun p =>
      ret_f (Rsum (map2 Rdiv (map (fun x => x * (scale * scale)) (map2 Rmult (map square (lm s)) (oga s)))
                             (map square p)))))
  | Psrcillum => ask_s Psources (fun s =>
      ret_f (einsum3 (map (vm_ctheta (ms_vm m)) (map r_vec s)) (lm s) (oga s) * scale))
  | Psrcarea => ask_s Psources (fun s => ret_f (Rsum (oga s)))
  | Pmaxlum => match lum with [] => ret_f 0 | x :: l => ret_f (list_max x l * scale) end
  | Pbacklum => ask_x Pillum (fun i => ask_x Psrcillum (fun s => ret_x (xdiv (xadd i (xopp s)) (Fin PI))))
  | Pbacklum_true => ask_s Pbackground (fun b => ret_x (xdiv (Fin (einsum2 (lm b) (oga b) * scale)) (Fin (Rsum (oga b)))))
  | Ptasklum => ask_b Ptask_mask (fun k => ask_b Ptask_mask (fun k' =>
      ret_x (xdiv (Fin (einsum2 (select k lum) (select k' omega) * scale)) (Fin (Rsum (select k' omega))))))
  | Pdgp =>
      let fin ll := ask_x Pdgp_t1 (fun t1 => ask_x Pdgp_t2 (fun t2 =>
        ret_x (xmin (xmul ll (xadd (xadd t1 t2) (Fin 0.16))) (Fin 1)))) in
      if ms_lowlight m then
        ask_x Pillum (fun i =>
          if xltb i (Fin 500) then
            ask_x Pillum (fun i => ask_x Pillum (fun j =>
              let e i := xexp (xadd (xmul (Fin 0.024) i) (Fin (-4))) in
              fin (xdiv (e i) (xadd (Fin 1) (e j)))))
          else fin (Fin 1))
      else fin (Fin 1)
  | Pdgp_t1 => ask_x Pillum (fun i => ret_x (xmul (Fin (5.87 * / 10 ^ 5)) i))
  | Plog_gc => ask_x Ppwsl2 (fun p => ask_x Pillum (fun i => ret_x (xlog10 (xadd (Fin 1) (xdiv p (xpow i 1.87))))))
  | Pdgp_t2 => ask_x Plog_gc (fun l => ret_x (xmul (Fin (9.18 * / 10 ^ 2)) l))
  | Pugr => ask_x Ppwsl2 (fun p => ask_x Pbacklum (fun b =>
      ret_x (xmax (Fin 0) (xmul (Fin 8) (xlog10 (xdiv (xmul (Fin 0.25) p) b))))))
  | Pugp => ask_x Pugr (fun u => ret_x (ugp_of u))
  | _ => body_base m p
  end.
(** colormetricset.py:111-177; sources and background also carry the colour rows, which nothing reads *)
Definition body_color (m : mset) (p : prop) : prog :=
  match p with
  | Pirradiance => ask_r Pctheta (fun c =>
      Ret (Ok (VR (map (fun j => einsum3 c (map (fun row => nth j row 0) (ms_rgb m)) (map r_omega (ms_rays m)) * ms_scale m)
                       (seq 0 (ms_channels m))))))
  | _ => body_metric m p
  end.
(** basemetricset.py:202-308, metricset.py:74-213, colormetricset.py:111-176: the bodies of a class *)
Definition body (k : kind) : mset -> prop -> prog :=
  match k with KBase => body_base | KMetric => body_metric | KColor => body_color end.

(** the class whose function (and cache) serves a property of a class
    (basemetricset.py:204-305, metricset.py:76-210, colormetricset.py:112-173: the decorators @property @functools.lru_cache(1)) *)
Definition definer (k : kind) (p : prop) : kind :=
  match k with
  | KBase => KBase
  | KMetric => match p with Pmaxlum => KMetric | _ => if is_metric_prop p then KMetric else KBase end
  | KColor =>
      match p with
      | Psources | Pbackground | Ppwsl2 | Psrcillum | Psrcarea | Pbacklum_true | Pirradiance => KColor
      | Pmaxlum => KMetric
      | _ => if is_metric_prop p then KMetric else KBase
      end
  end.

(** all objects by identity, and one remembered (object, value) for each cached function
    (basemetricset.py:204-305, metricset.py:76-210, colormetricset.py:112-173: the decorators @property @functools.lru_cache(1)) *)
Definition heap := nat -> kind * mset.
(** basemetricset.py:204-305, metricset.py:76-210, colormetricset.py:112-173: the decorators @property @functools.lru_cache(1) *)
Definition cache := kind -> prop -> option (nat * value).
(** basemetricset.py:204-305, metricset.py:76-210, colormetricset.py:112-173: the decorators @property @functools.lru_cache(1) *)
Definition empty_cache : cache := fun _ _ => None.
Scheme Boolean Equality for kind.
Scheme Boolean Equality for prop.
(** basemetricset.py:204-305, metricset.py:76-210, colormetricset.py:112-173: the decorators @property @functools.lru_cache(1) *)
Definition cache_set (c : cache) (k : kind) (p : prop) (e : nat * value) : cache :=
  fun k' p' => if kind_beq k k' && prop_beq p p' then Some e else c k' p'.

(** running a body; [rd] reads a property. None: out of fuel
    (basemetricset.py:204-305, metricset.py:76-210, colormetricset.py:112-173: the decorators @property @functools.lru_cache(1)) *)
Fixpoint run (rd : cache -> prop -> option (res value * cache)) (g : prog) (c : cache) : option (res value * cache) :=
  match g with
  | Ret v => Some (v, c)
  | Ask p k =>
      match rd c p with
      | Some (Ok v, c) => run rd (k v) c
      | Some (Raise e, c) => Some (Raise e, c)
      | None => None
      end
  end.
(** attribute access on object i. view_area is a plain attribute; an exception is not cached
    (basemetricset.py:204-305, metricset.py:76-210, colormetricset.py:112-173: the decorators @property @functools.lru_cache(1)) *)
Fixpoint read (fuel : nat) (h : heap) (i : nat) (c : cache) (p : prop) : option (res value * cache) :=
  match fuel with
  | O => None
  | S fuel =>
      let '(k, m) := h i in
      if negb (has_prop k p) then Some (Raise AttributeError, c) else
      match p with
      | Pview_area => Some (Ok (VX (Fin (ms_view_area m))), c)
      | _ =>
          let d := definer k p in
          let miss :=
            match run (read fuel h i) (body k m p) c with
            | Some (Ok v, c) => Some (Ok v, cache_set c d p (i, v))
            | r => r
            end in
          match c d p with
          | Some (j, v) => if Nat.eqb j i then Some (Ok v, c) else miss
          | None => miss
          end
      end
  end.
(** basemetricset.py:204-305, metricset.py:76-210, colormetricset.py:112-173: the decorators @property @functools.lru_cache(1) *)
Definition read_fuel : nat := 12.

(** histories: reads of properties, and assignments to attributes (which replace an object's data)
    (basemetricset.py:106-118: the attributes assigned here can be assigned again by a caller) *)
Inductive event := Read (i : nat) (p : prop) | Assign (i : nat) (m : mset).
(** basemetricset.py:106-118: the attributes assigned here can be assigned again by a caller *)
Definition set_data (h : heap) (i : nat) (m : mset) : heap := fun j => if Nat.eqb i j then (fst (h i), m) else h j.
(** the results of the reads, in order; None where fuel ran out (basemetricset.py:121-139: reads of attributes) *)
Fixpoint history (h : heap) (c : cache) (es : list event) : list (option (res value)) :=
  match es with
  | [] => []
  | Read i p :: es =>
      match read read_fuel h i c p with
      | Some (v, c) => Some v :: history h c es
      | None => None :: history h c es
      end
  | Assign i m :: es => history (set_data h i m) c es
  end.
