From Coq Require Import String Lra.
From Verif Require Import Base BaseX M_Mapper M_Metric S_Metric S_Safe L_Metric L_Metric2 L_Metric3.
Import ListNotations.
Local Open Scope R_scope.

Lemma mem_In x l : mem x l = true <-> In x l.
Proof.
  unfold mem. rewrite existsb_exists. split; [intros [y [H E]]; apply String.eqb_eq in E; now subst|].
  intros H. exists x. split; auto. apply String.eqb_refl.
Qed.
Lemma safe_In k l x : check_safe2sum k l = true -> In x l -> In x (safe2sum k).
Proof. unfold check_safe2sum. rewrite forallb_forall. intros H Hx. apply mem_In. auto. Qed.
Ltac names H := cbn [safe2sum app In] in H; repeat (destruct H as [<-|H]); try contradiction.
Lemma safe_sums k l x : check_safe2sum k l = true -> In x l ->
  x = "density"%string \/ (k = KColor /\ x = "irradiance"%string) \/
  exists f, metric_of k x f /\ (sums_over_rays fixed_threshold f \/ sums_over_light f).
Proof.
  intros H Hx. pose proof (safe_In _ _ _ H Hx) as I. clear H Hx l.
  assert (F : forall f, sums_over_rays any_options f -> sums_over_rays fixed_threshold f).
  { intros f S fuel o vm a b m ma mb oa ob om _. apply S. exact Logic.I. }
  assert (A1 : metric_of k "illum" (fun m => Fin (illum m))).
  { exists Pillum. split; [reflexivity|]. destruct k; reflexivity. }
  assert (A2 : metric_of k "avglum" avglum).
  { exists Pavglum. split; [reflexivity|]. destruct k; reflexivity. }
  destruct k; names I; try (left; reflexivity); try (right; left; split; reflexivity); right; right;
  try (eexists; split; [exact A1|left; apply F, illum_sum_rays]);
  try (eexists; split; [exact A2|right; exact avglum_sum_lum]).
  all: try (exists (fun m => Fin (pwsl2 m)); split; [exists Ppwsl2; split; reflexivity|left; exact pwsl2_sum_rays]).
  all: try (exists (fun m => Fin (srcillum m)); split; [exists Psrcillum; split; reflexivity|left; exact srcillum_sum_rays]).
Qed.
Lemma safe_accepts k l : Forall (fun x => In x ["illum"; "avglum"]%string \/ k <> KBase /\ In x ["pwsl2"; "srcillum"]%string \/
   k = KColor /\ x = "irradiance"%string) l -> check_safe2sum k l = true.
Proof.
  intros H. unfold check_safe2sum. rewrite forallb_forall. rewrite Forall_forall in H. intros x Hx. apply mem_In.
  destruct (H x Hx) as [J|[[N J]|[-> ->]]]; [names J; destruct k|names J; destruct k; try congruence|]; cbn [safe2sum app In]; tauto.
Qed.
Lemma not_safe_gcr k : check_safe2sum k ["illum"; "gcr"]%string = false.
Proof. destruct k; reflexivity. Qed.
