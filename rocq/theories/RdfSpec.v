(** Specification of the RDF. *)
From Verif Require Export RdfShell RdfModel.
From Coq Require Import Reals ZArith List.
Import ListNotations.
Local Open Scope R_scope.

Definition edge (bins : Z) (r_max r_min : R) (i : nat) : R := r_min + INR i * ((r_max - r_min) / IZR bins).
Definition ri_all (f : rin) : list bond := flat_map (ri_bonds f) (range 0 (ri_n f)).
(** Number of bonds with distance in [lo, hi), over several frames. *)
Definition dist_count (lo hi : R) (fs : list rin) : nat :=
  length (filter (fun b => Rle_bool lo (bd b) && Rlt_bool (bd b) hi) (flat_map ri_all fs)).
(** Frames since the last reset. *)
Fixpoint rsince (h : list rop) (acc : list rin) : list rin :=
  match h with
  | [] => acc
  | RCompute true f :: h => rsince h [f]
  | RCompute false f :: h => rsince h (acc ++ [f])
  | _ :: h => rsince h acc
  end.
(** The normalisation in force when the values are computed: the one set at the first read after the last compute ([lat]), or the
    current one ([cur]) when there has been no such read. *)
Fixpoint read_mode (h : list rop) (started : bool) (cur : norm_mode) (lat : option norm_mode) : norm_mode :=
  match h with
  | [] => match lat with Some m => m | None => cur end
  | RCompute _ _ :: h => read_mode h true cur None
  | RRead _ :: h => read_mode h started cur (if started then match lat with Some m => Some m | None => Some cur end else lat)
  | RMode m :: h => read_mode h started m lat
  end.
Definition rop_ok (bins : Z) (o : rop) : Prop :=
  match o with
  | RCompute _ f => execution 0 (ri_n f) (ri_ev f)
  | RRead ev => execution 0 (Z.to_nat bins) ev
  | RMode _ => True
  end.
(** The density the ideal gas is assumed to have. *)
Definition density (m : norm_mode) (d : rdf_data) : R :=
  match m with Exact => INR (rd_nqp d) / rd_vol d | FiniteSize => (INR (rd_nqp d) - 1) / rd_vol d end.
Definition data_ok (m : norm_mode) (d : rdf_data) : Prop :=
  0 < rd_vol d /\ (0 < rd_np d)%nat /\ (match m with Exact => 0 < rd_nqp d | FiniteSize => 1 < rd_nqp d end)%nat.
