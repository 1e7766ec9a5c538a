(** Properties of non_uniform_gaussian_filter at the coordinates of the data themselves, for several rows (C62, C116).
    Specifications: S_Smooth.v. *)
From Coq Require Import List Sorting.Permutation Sorting.Sorted Lra Lia.
From Verif Require Import Base L_Base M_Data S_Data L_Data2 L_Data3 M_Smooth S_Smooth L_Smooth3 L_Smooth6.
Import ListNotations.
Local Open Scope R_scope.

(** * C116: without xr the result is that at the coordinates of the data, in ascending order (not in that of the data) *)
Theorem C116_self : forall order argsort pdf am x rows, orders order -> not_negative pdf -> (forall v, In v x -> 0 < pdf v v) ->
  exists sx, Permutation sx x /\ StronglySorted Rle sx /\
  filter_self order argsort pdf am None x rows = filter_rows order argsort pdf am None x rows sx.
Proof. exact filter_self_rows. Qed.
(** * C62: with all samples at one coordinate the default width is 0 and the call raises, although the same call with
    that coordinate as xr returns the first value of each row *)
Theorem C62_constant_refuted : forall order argsort x rows c sscale, (2 <= length x)%nat -> Forall (fun v => v = c) x -> rectangle (length x) rows ->
  let pdf := scaled_pdf (default_sigma x sscale) in
  filter_self order argsort pdf AMean None x rows = Raise IndexError /\
  filter_rows order argsort pdf AMean None x rows [c] = Ok [map (hd 0) rows].
Proof. exact filter_constant. Qed.

(** the hypotheses hold *)
Example C116_self_case : orders sort_order /\ not_negative (norm_pdf 1) /\ (forall v, In v [3; 1; 2] -> 0 < norm_pdf 1 v v) /\
  (2 <= length [4; 4; 4])%nat /\ Forall (fun v => v = 4) [4; 4; 4] /\ rectangle (length [4; 4; 4]) [[1; 2; 3]; [4; 5; 6]].
Proof.
  split; [exact sort_order_orders|]. split; [intros a b; left; apply norm_pdf_pos; lra|]. split; [intros v _; apply norm_pdf_pos; lra|].
  split; [cbn; lia|]. split; repeat constructor.
Qed.

Print Assumptions C116_self.
Print Assumptions C62_constant_refuted.
