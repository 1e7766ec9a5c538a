(** Specification of the caches: which class defines a property *)
From Verif Require Import Base BaseX M_Metric M_Cache S_Metric.
Import ListNotations.
Local Open Scope R_scope.

(** the properties the source of each class defines with a cache of their own *)
Definition defines (k : kind) : list prop :=
  match k with
  | KBase => [Pctheta; Pradians; Ppos_idx; Ppweight; Ppweighted_area; Pillum; Pavglum; Pmaxlum; Ppwavglum; Pavgraylum;
              Pgcr; Ppwgcr; Plogpwgcr; Ploggcr; Pdensity]
  | KMetric => [Psrc_mask; Ptask_mask; Psources; Pbackground; Psource_pos_idx; Pthreshold; Ppwsl2; Psrcillum; Psrcarea;
                Pmaxlum; Pbacklum; Pbacklum_true; Ptasklum; Pdgp; Pdgp_t1; Plog_gc; Pdgp_t2; Pugr; Pugp]
  | KColor => [Psources; Pbackground; Ppwsl2; Psrcillum; Psrcarea; Pbacklum_true; Pirradiance]
  end.
(** ColorMetricSet extends MetricSet, which extends BaseMetricSet *)
Definition parent (k : kind) : option kind :=
  match k with KBase => None | KMetric => Some KBase | KColor => Some KMetric end.
(** the class that provides a property to class k: the nearest one that defines it *)
Inductive provides : kind -> prop -> kind -> Prop :=
  | provides_own k p : In p (defines k) -> provides k p k
  | provides_up k p k' d : ~ In p (defines k) -> parent k = Some k' -> provides k' p d -> provides k p d.
(** properties that read the data of the object but no other property *)
Definition reads_data (p : prop) : Prop := In p [Pctheta; Ppos_idx; Pavglum; Pmaxlum; Pavgraylum; Pdensity; Ptask_mask].
