(** What the properties of a cluster are. *)
From Verif Require Export BoxPyModel ClusterPropModel.
Local Open Scope R_scope.

(** The points labelled [c], by index. *)
Definition members (idx : list nat) (c : nat) : list nat := filter (fun i => Nat.eqb (nth i idx 0%nat) c) (seq 0 (length idx)).
Definition rsum {A} (f : A -> R) (l : list A) : R := fold_right (fun i acc => f i + acc) 0 l.
Definition vcomp (v : vec3) (a : nat) : R := match a with 0%nat => vx v | 1%nat => vy v | _ => vz v end.
(** Point [i] with its own mass. *)
Definition own (pts : list vec3) (masses : option (list R)) (i : nat) : vec3 * R := (nth i pts v0, mass_at masses i).
