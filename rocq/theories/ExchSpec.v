(** What it means to look at the bonds between two sets of particles from the other side (C92). *)
From Verif Require Export SymmSpec CorrSpec PmftSpec LocalDensSpec.
From Coq Require Import Reals ZArith List Permutation.
Import ListNotations.
Local Open Scope R_scope.

(** The same bond seen from its point: ends exchanged, vector reversed, distance and weight kept. *)
Definition turned (x : bond) : bond := Bond (bp x) (bq x) (bd x) (bw x) (- bv x)%V.
(** Two results of queries hold the same bonds, each seen from the other side. *)
Definition exchanged (ls ls' : list (list bond)) : Prop := Permutation (map turned (concat ls)) (concat ls').
(** Two calls of RDF.compute, of CorrelationFunction.compute and of PMFTR12.compute with points and query points exchanged. *)
Definition exchanged_frame (fr fr' : rin) : Prop :=
  Permutation (map turned (ri_all fr)) (ri_all fr') /\ rd_2d (ri_data fr') = rd_2d (ri_data fr) /\ rd_vol (ri_data fr') = rd_vol (ri_data fr) /\
  rd_np (ri_data fr') = rd_nqp (ri_data fr) /\ rd_nqp (ri_data fr') = rd_np (ri_data fr).
Definition exchanged_values (f f' : cf_in) : Prop :=
  Permutation (map turned (ci_every f)) (ci_every f') /\ ci_values f' = ci_qv f /\ ci_qv f' = ci_values f.
Definition pin_bonds (f : pin) : list bond := flat_map (pf_bonds f) (range 0 (pf_n f)).
Definition exchanged_angles (f f' : pin) : Prop :=
  Permutation (map turned (pin_bonds f)) (pin_bonds f') /\ pf_o f' = pm_query_orientations f /\ pm_query_orientations f' = pf_o f /\
  pd_vol (pf_data f') = pd_vol (pf_data f) /\ pd_np (pf_data f') = pd_nqp (pf_data f) /\ pd_nqp (pf_data f') = pd_np (pf_data f) /\
  pf_ok f' = pf_ok f /\ pf_2d f' = pf_2d f /\
  length (pf_o f) = pd_np (pf_data f) /\ length (pm_query_orientations f) = pd_nqp (pf_data f).
(** Histories of such calls, with any reads. *)
Inductive exchanged_op : rop -> rop -> Prop :=
  | XCompute reset fr fr' : exchanged_frame fr fr' -> exchanged_op (RCompute reset fr) (RCompute reset fr')
  | XRead ev ev' : exchanged_op (RRead ev) (RRead ev')
  | XMode m : exchanged_op (RMode m) (RMode m).
Inductive exchanged_cf : cf_op -> cf_op -> Prop :=
  | XCf reset f f' : exchanged_values f f' -> exchanged_cf (CfCompute reset f) (CfCompute reset f')
  | XCfRead e1 e2 e1' e2' : exchanged_cf (CfRead e1 e2) (CfRead e1' e2').
Inductive exchanged_pop : PmftModel.pop -> PmftModel.pop -> Prop :=
  | XPm reset f f' : exchanged_angles f f' -> exchanged_pop (PCompute reset f) (PCompute reset f')
  | XPmRead ev ev' : exchanged_pop (PRead ev) (PRead ev').
