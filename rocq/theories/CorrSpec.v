(** Specification of the correlation function. *)
From Verif Require Export CorrModel.
From Coq Require Import Reals ZArith List.
Import ListNotations.
Local Open Scope R_scope.

Fixpoint cf_since (h : list cf_op) (acc : list cf_in) : list cf_in :=
  match h with
  | [] => acc
  | CfCompute true f :: h => cf_since h [f]
  | CfCompute false f :: h => cf_since h (acc ++ [f])
  | CfRead _ _ :: h => cf_since h acc
  end.
Definition cf_edge (bins : Z) (r_max : R) (i : nat) : R := INR i * (r_max / IZR bins).
(** The (frame, bond) pairs whose distance lies in bin i. *)
Definition bin_bonds (bins : Z) (r_max : R) (i : nat) (fs : list cf_in) : list (cf_in * bond) :=
  filter (fun fb => Rle_bool (cf_edge bins r_max i) (bd (snd fb)) && Rlt_bool (bd (snd fb)) (cf_edge bins r_max (S i)))
    (flat_map (fun f => map (fun b => (f, b)) (ci_every f)) fs).
Fixpoint csum (l : list cplx) : cplx := match l with [] => c0 | z :: l => cadd z (csum l) end.
(** conj(value of the point) times the value of the query point. *)
Definition pair_value (fb : cf_in * bond) : cplx :=
  let (f, b) := fb in cmul (cconj (nth (bp b) (ci_values f) c0)) (nth (bq b) (ci_qv f) c0).
(** Well-formed calls: arrays of the sizes required and bonds between existing points; if no query values are given there are no more
    query points than points. *)
Definition cf_in_ok (f : cf_in) : Prop :=
  execution 0 (ci_m f) (ci_exec f) /\ length (ci_values f) = ci_np f /\ length (ci_qv f) = ci_nq f /\
  forall b, In b (ci_every f) -> (bp b < ci_np f)%nat /\ (bq b < ci_nq f)%nat.
Definition cf_op_ok (bins : Z) (o : cf_op) : Prop :=
  match o with CfCompute _ f => cf_in_ok f | CfRead e1 e2 => execution 0 (Z.to_nat bins) e1 /\ execution 0 (Z.to_nat bins) e2 end.
Definition real_values (f : cf_in) : Prop := forall z, In z (ci_values f) \/ In z (ci_qv f) -> snd z = 0.
