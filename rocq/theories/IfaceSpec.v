(** What it means to be at the interface. *)
From Verif Require Export NListSpec QuerySpec IfaceModel.
From Coq Require Import Reals List Sorted.
From Verif Require Export BoxSpec.
Import ListNotations.
Local Open Scope R_scope.

(** Query point [i] and some image of point [j] are at a distance in [r_min, r_max). *)
Definition close (b : box) (points qs : list vec3) (r_min r_max : R) (i j : nat) : Prop :=
  (i < length qs)%nat /\ (j < length points)%nat /\ exists i1 i2 i3, allowed b i1 i2 i3 /\
    r_min <= norm (vsub (nth j points v0) (vadd (nth i qs v0) (shift b i1 i2 i3))) < r_max.
(** A set of indices, listed in increasing order without repetition. *)
Definition lists_set (l : list nat) (P : nat -> Prop) : Prop := StronglySorted lt l /\ forall i, In i l <-> P i.
