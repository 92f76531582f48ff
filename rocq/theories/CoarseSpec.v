(** Relations between histograms with coarse and fine bins. *)
From Verif Require Export HistSpec.
From Coq Require Import Reals ZArith List.
Import ListNotations.
Local Open Scope R_scope.

(** Sum of f over the k fine bins that make up coarse bin i. *)
Definition within (k i : nat) (f : nat -> R) : R := fold_right Rplus 0 (map (fun j => f (i * k + j)%nat) (seq 0 k)).
(** Every axis with k times the number of bins. *)
Definition refine (ks : list Z) (axes : list axis) : list axis := map (fun '(k, a) => Axis (k * ax_n a) (ax_min a) (ax_max a)) (combine ks axes).
Definition coarse_index (ks idx : list Z) : list Z := map (fun '(k, i) => (i / k)%Z) (combine ks idx).
(** The fine cells that make up a coarse cell. *)
Fixpoint fine_cells (ks idx : list Z) : list (list Z) :=
  match ks, idx with
  | k :: ks, i :: idx => flat_map (fun j => map (cons (i * k + Z.of_nat j)%Z) (fine_cells ks idx)) (seq 0 (Z.to_nat k))
  | _, _ => [[]]
  end.
