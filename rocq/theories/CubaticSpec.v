(** Specification for C61: rank-4 tensors as functions of four indices 0, 1, 2, without the flat arrays and loops of the
    model.  After Haji-Akbari and Glotzer, J. Phys. A 48 (2015) 485201, eqs. 22 and 27. *)
From Verif Require Import CubaticModel.
From Verif Require Export QuatSpec.
From Coq Require Import Reals List.
Import ListNotations.
Local Open Scope R_scope.

Definition T4 := nat -> nat -> nat -> nat -> R.
Definition sum3 (f : nat -> R) : R := f 0%nat + f 1%nat + f 2%nat.
Definition sum4 (f : T4) : R := sum3 (fun i => sum3 (fun j => sum3 (fun k => sum3 (fun l => f i j k l)))).
(** Complete contraction and squared length. *)
Definition ip (a b : T4) : R := sum4 (fun i j k l => a i j k l * b i j k l).
Definition sq_len (a : T4) : R := ip a a.
Definition less (a b : T4) : T4 := fun i j k l => a i j k l - b i j k l.
Definition comp (v : vec3) (i : nat) : R := match i with O => vx v | S O => vy v | _ => vz v end.
Definition delta (i j : nat) : R := if Nat.eqb i j then 1 else 0.

(** The three axes of a cube with orientation [q]: the lattice directions turned by [q]. *)
Definition axis (q : quat) (a : nat) : vec3 := rotate q (match a with O => V3 1 0 0 | S O => V3 0 1 0 | _ => V3 0 0 1 end).
(** The homogeneous tensor of a cube (eq. 27). *)
Definition cube (q : quat) : T4 := fun i j k l =>
  2 * sum3 (fun a => comp (axis q a) i * comp (axis q a) j * comp (axis q a) k * comp (axis q a) l)
  - 2 / 5 * (delta i j * delta k l + delta i k * delta j l + delta i l * delta j k).
(** Its average over all particles. *)
Definition Rsum (l : list R) : R := fold_right Rplus 0 l.
Definition average (os : list quat) : T4 := fun i j k l => Rsum (map (fun q => cube q i j k l) os) / INR (length os).
(** Eq. 22: how well the average matches a tensor. *)
Definition match_order (c g : T4) : R := 1 - sq_len (less g c) / sq_len c.

(** An entry of an array of shape (3, 3, 3, 3). *)
Definition entry (t : tensor) : T4 := fun i j k l => nth (((i * 3 + j) * 3 + k) * 3 + l) t 0.
(** Two tensors are the same. *)
Definition same_tensor (a b : T4) : Prop := forall i j k l, (i < 3)%nat -> (j < 3)%nat -> (k < 3)%nat -> (l < 3)%nat -> a i j k l = b i j k l.

(** The two orientations show the same cube: each axis of one is an axis of the other or its opposite, in one-to-one
    correspondence. *)
Definition same_cube (p q : quat) : Prop :=
  exists a b c s t u, Permutation [a; b; c] [0; 1; 2]%nat /\ (s = 1 \/ s = -1) /\ (t = 1 \/ t = -1) /\ (u = 1 \/ u = -1) /\
    axis p 0 = vscale s (axis q a) /\ axis p 1 = vscale t (axis q b) /\ axis p 2 = vscale u (axis q c).

(** Schedules of the three loops and cuttings of the loop over replicates, executed in any order. *)
Definition schedule (n reps : nat) (ev1 ev2 : list (nat * nat)) (cs : list (nat * nat)) (ev3 : list (nat * nat)) : Prop :=
  execution 0 n ev1 /\ execution 0 81 ev2 /\ (exists cs0, chunking 0 reps cs0 /\ Permutation cs cs0) /\ execution 0 n ev3.
(** The numbers drawn lie between 0 and 1. *)
Definition uniform_range (rng : nat -> nat -> nat -> R) : Prop := forall s b k, 0 <= rng s b k <= 1.
