(** Systems put together from parts, and additional bonds (C95). *)
From Verif Require Export QuerySpec RdfSpec ClusterSpec.
From Coq Require Import Reals ZArith List Permutation.
Import ListNotations.

(** Bonds of a part in the numbering of the whole: [k] points (or query points) come before. *)
Definition points_before (k : nat) (x : bond) : bond := Bond (bq x) (bp x + k) (bd x) (bw x) (bv x).
Definition queries_before (k : nat) (x : bond) : bond := Bond (bq x + k) (bp x) (bd x) (bw x) (bv x).
(** Equally many frames; the bonds of [fs] are those of [as_] and those of [bs], which may be numbered differently. *)
Definition put_together (fs as_ bs : list rin) : Prop :=
  length fs = length as_ /\ length fs = length bs /\ Permutation (map bd (flat_map ri_all fs)) (map bd (flat_map ri_all as_) ++ map bd (flat_map ri_all bs)).
(** The same box and query points; the points of both parts. *)
Definition data_together (d da db : rdf_data) : Prop :=
  rd_vol d = rd_vol da /\ rd_vol d = rd_vol db /\ rd_2d d = rd_2d da /\ rd_2d d = rd_2d db /\ rd_nqp d = rd_nqp da /\ rd_nqp d = rd_nqp db /\ rd_np d = (rd_np da + rd_np db)%nat.
(** Values of the particles of both parts (None: all 1). *)
Definition values_together (v va vb : option (list R)) : Prop :=
  (v = None /\ va = None /\ vb = None) \/ exists la lb, va = Some la /\ vb = Some lb /\ v = Some (la ++ lb).
