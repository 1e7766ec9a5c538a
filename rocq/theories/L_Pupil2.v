(** The age up to which the pupil closes with light, to within a tenth of a year. *)
From Coq Require Import Lra Lia Psatz ZArith List.
From Verif Require Import Base L_Base M_Gss S_Gss L_Gss L_Gss2 L_Gss7 L_Expz L_Pupil.
Local Open Scope R_scope.

Lemma rz_dec a b : a = (b * 1000000000)%Z -> rz a = IZR b / 1000000.
Proof.
  intros ->. unfold rz. rewrite mult_IZR. replace (IZR zsc) with (1000000 * 1000000000); [field|].
  rewrite <- mult_IZR. reflexivity.
Qed.
Lemma exp_dec_above y b : Z.leb (b * 1000000000) (elz (y * 1000000000)) = true -> IZR b / 1000000 <= exp (IZR y / 1000000).
Proof. intros H. rewrite <- (rz_dec _ b eq_refl), <- (rz_dec _ y eq_refl). now apply exp_above. Qed.
Lemma exp_dec_below y b : andb (Z.ltb 0 (elz (- (y * 1000000000)))) (Z.leb (euz (y * 1000000000)) (b * 1000000000)) = true ->
  exp (IZR y / 1000000) <= IZR b / 1000000.
Proof. intros H. rewrite <- (rz_dec _ b eq_refl), <- (rz_dec _ y eq_refl). now apply exp_below. Qed.

Lemma ln10_near : 2.302580 < ln 10 < 2.302590.
Proof.
  split; apply exp_lt_inv; rewrite exp_ln by lra.
  - apply Rle_lt_trans with (IZR 9999990 / 1000000); [|lra]. replace 2.302580 with (IZR 2302580 / 1000000) by lra.
    apply exp_dec_below. vm_compute. reflexivity.
  - apply Rlt_le_trans with (IZR 10000010 / 1000000); [lra|]. replace 2.302590 with (IZR 2302590 / 1000000) by lra.
    apply exp_dec_above. vm_compute. reflexivity.
Qed.
Lemma pk_near : 0.347434 < pk < 0.347437.
Proof.
  unfold pk. pose proof ln10_near. split.
  - apply (Rmult_lt_reg_r (ln 10)); [lra|]. replace (0.8 / ln 10 * ln 10) with 0.8 by (field; lra). lra.
  - apply (Rmult_lt_reg_r (ln 10)); [lra|]. replace (0.8 / ln 10 * ln 10) with 0.8 by (field; lra). lra.
Qed.

(** * the derivative, in cells of the logarithm of the illuminance *)
Definition hz : Z := 1000000000000%Z.
Definition zbound (yl yh : Z) : Z :=
  if Z.leb yh zsc then (yh * euz (- yh) / zsc + 1)%Z else if Z.leb zsc yl then (yl * euz (- yl) / zsc + 1)%Z else 367880000000000%Z.
Definition cell (w k : Z) : bool :=
  let t1 := (k * hz)%Z in let t2 := ((k + w) * hz)%Z in
  let xl := elz (- (347437 * (k + w) * 1000000)) in
  let yl := (elz (- t2) * 1600 / 174)%Z in
  let yh := (euz (- t1) * 1600 / 174 + 1)%Z in
  let zb := zbound yl yh in
  (Z.ltb 0 (elz (- - t1)) && Z.leb 0 yl && Z.ltb 0 (elz (- - yh)) && Z.ltb 0 (elz (- - yl)) && Z.ltb 0 xl &&
   Z.ltb (1212600 * zb * ((xl + zsc) * (xl + zsc))) (2084604 * xl * (zsc * zsc)))%bool.
(** [n] cells of the width [w] from [k] on *)
Fixpoint cells (n : nat) (w k : Z) : bool := match n with O => true | S m => (cell w k && cells m w (k + w))%bool end.
Lemma cells_ok : (cells 100 20 0 && cells 40 5 2000 && cells 200 2 2200 && cells 90 10 2600)%bool = true.
Proof. vm_compute. reflexivity. Qed.
