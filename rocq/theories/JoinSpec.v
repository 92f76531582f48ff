(** When different analyses look at the same bonds (C93). *)
From Verif Require Export ExchSpec.
From Coq Require Import Reals ZArith List Permutation.
Import ListNotations.
Local Open Scope R_scope.

(** A call of RDF.compute and one of PMFTR12.compute with the same system in the plane and the same neighbours. *)
Definition same_rings (fr : rin) (f : pin) : Prop :=
  Permutation (ri_all fr) (pin_bonds f) /\ rd_2d (ri_data fr) = true /\ rd_vol (ri_data fr) = pd_vol (pf_data f) /\
  rd_np (ri_data fr) = pd_np (pf_data f) /\ rd_nqp (ri_data fr) = pd_nqp (pf_data f).
(** Calls of PMFTXYT.compute and PMFTXY.compute with the same system, neighbours and orientations of the query points. *)
Definition same_plane (f g : pin) : Prop :=
  Permutation (pin_bonds f) (pin_bonds g) /\ pm_query_orientations f = pm_query_orientations g /\ pf_data f = pf_data g.
(** Calls of RDF.compute and CorrelationFunction.compute with the same neighbours. *)
Definition same_distances (fr : rin) (f : cf_in) : Prop := Permutation (ri_all fr) (ci_every f).
(** The sum of [g] over the first [n] indices. *)
Definition total (g : nat -> R) (n : nat) : R := fold_right Rplus 0 (map g (seq 0 n)).
